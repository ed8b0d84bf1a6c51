(** What the flags of an operation tell about the word it returns. *)
From Coq Require Import ZArith Reals.
From Flocq Require Import Core.
From Verif Require Import Spec Spec754 SpecFlocq SpecFlocq754Mode SoftFloatFlags SpecFlags.
Open Scope Z_scope.

(** The operation on the words a, b returned r with flags fl; its exact result, when [exact], is x.
    The least normal number of the format is 2^(1-bias). *)
Definition tells (E F : Z) (exact : Prop) (x : R) (a b r fl : Z) : Prop :=
  (decode754 E F r = NaN <-> decode754 E F a = NaN \/ decode754 E F b = NaN \/ raised fl softfloat_flag_invalid) /\
  (finite E F a -> finite E F b ->
    ((exists s, decode754 E F r = Inf s) <-> raised fl softfloat_flag_overflow \/ raised fl softfloat_flag_infinite)) /\
  (raised fl softfloat_flag_underflow ->
    finite E F r /\ (Rabs (value E F r) <= bpow radix2 (1 - bias E))%R /\ value E F r <> x) /\
  (exact -> finite E F r -> (Rabs (value E F r) < bpow radix2 (1 - bias E))%R ->
    raised fl softfloat_flag_underflow \/ value E F r = x).
