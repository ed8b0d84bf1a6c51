(** When IEEE 754 signals overflow and underflow, in any rounding mode: as SpecFlags.v, with the rounding of the mode. *)
From Coq Require Import ZArith Reals.
From Flocq Require Import Core.
From Verif Require Import Spec Spec754 Spec754Mode SpecFlocq SpecFlocq754Mode SoftFloatFlags SpecFlags.
Open Scope Z_scope.

Definition rounded_unboundedm (md : rmode) (F : Z) (x : R) : R := round radix2 (FLX_exp (F + 1)) (rnd_of md) x.
Definition rounded_formatm (md : rmode) (E F : Z) (x : R) : R := round radix2 (FLT_exp (1 - bias E - F) (F + 1)) (rnd_of md) x.
Definition overflowsm (md : rmode) (E F : Z) (x : R) : Prop := (bpow radix2 (bias E + 1) <= Rabs (rounded_unboundedm md F x))%R.
Definition underflowsm (md : rmode) (E F : Z) (x : R) : Prop :=
  (Rabs (rounded_unboundedm md F x) < bpow radix2 (1 - bias E))%R /\ rounded_formatm md E F x <> x.

Definition signalsm (md : rmode) (E F : Z) (invalid divzero exact : Prop) (x : R) (flags : Z) : Prop :=
  (raised flags softfloat_flag_invalid <-> invalid) /\
  (raised flags softfloat_flag_infinite <-> divzero) /\
  (raised flags softfloat_flag_overflow <-> exact /\ overflowsm md E F x) /\
  (raised flags softfloat_flag_underflow <-> exact /\ underflowsm md E F x).
