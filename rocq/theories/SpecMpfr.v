(** Specification of scaling by a power of two. *)
From Coq Require Import ZArith Bool.
From Verif Require Import Spec.
Open Scope Z_scope.

(** x 2^k, exactly. *)
Definition ldexp_v (x : fval) (k : Z) : fval := match x with Num s m e => Num s m (e + k) | _ => x end.
