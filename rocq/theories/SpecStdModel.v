(** The standard model of floating-point arithmetic: how far a computed number is from the exact one. *)
From Coq Require Import ZArith Reals.
From Flocq Require Import Core.
From Verif Require Import Spec Spec754 Spec754Mode SpecFlocq SpecFlocq754Mode SoftFloatFlags SpecFlags.
Open Scope Z_scope.

(** Half a unit in the last place when rounding to nearest, a unit otherwise. *)
Definition unit_roundoff (md : rmode) (F : Z) : R :=
  match md with NearEven | NearMaxMag => bpow radix2 (- F - 1) | _ => bpow radix2 (- F) end.

(** The word r was returned with the flags fl for the exact result x. The least normal number of the format is 2^(1-bias). *)
Definition standard_model (md : rmode) (E F : Z) (x : R) (r fl : Z) : Prop :=
  ~ raised fl softfloat_flag_overflow ->
  finite E F r /\
  (~ raised fl softfloat_flag_underflow -> (Rabs (value E F r - x) <= unit_roundoff md F * Rabs x)%R) /\
  (raised fl softfloat_flag_underflow -> (Rabs (value E F r - x) <= unit_roundoff md F * bpow radix2 (1 - bias E))%R).
