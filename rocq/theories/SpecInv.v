(** Faithful rounding. *)
From Coq Require Import ZArith QArith.
From Verif Require Import Fw Spec SpecFix.

(** The number a finite value stands for. *)
Definition qval (x : fval) : Q := match x with Num s m e => fixq e (sgn s m) | _ => 0 end.
(** r is on neither side of x with another number of the format between them (or equal to x). *)
Definition faithful (E F : Z) (x r : Q) : Prop :=
  forall p, wf (E + F + 3) p -> finite_v (decode E F p) ->
    ((qval (decode E F p) <= x)%Q -> (qval (decode E F p) <= r)%Q) /\
    ((x <= qval (decode E F p))%Q -> (r <= qval (decode E F p))%Q).
