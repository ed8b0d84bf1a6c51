(** What the random draws of the self-test programs may be: independent of the model of the programs. *)
From Coq Require Import ZArith.
From Verif Require Import Spec.
Open Scope Z_scope.

(** A number from [0,1], either zero or at least 2^-k. *)
Definition draw (k : Z) (x : fval) : Prop :=
  x = Zero false \/
  exists m e, x = Num false m e /\ 0 < m /\ le_spec (Num false 1 (- k)) x = true /\ le_spec x (Num false 1 0) = true.
