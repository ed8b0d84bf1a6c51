(** When IEEE 754 signals an exception (sections 7.2 to 7.5), for round to nearest even and tininess detected after
    rounding, without inexact. *)
From Coq Require Import ZArith Reals.
From Flocq Require Import Core.
From Verif Require Import Spec Spec754 SpecFlocq SpecFlocq754Mode SoftFloatFlags.
Open Scope Z_scope.

Definition raised (flags f : Z) : Prop := Z.land flags f <> 0.

(** A signalling NaN: the exponent field all ones, the fraction not zero and its first bit clear. *)
Definition signalling (E F a : Z) : Prop := (a / 2 ^ F) mod 2 ^ E = 2 ^ E - 1 /\ 0 < a mod 2 ^ F < 2 ^ (F - 1).

(** x rounded with an unbounded exponent, and with the exponents of the format. *)
Definition rounded_unbounded (F : Z) (x : R) : R := round radix2 (FLX_exp (F + 1)) ZnearestE x.
Definition rounded_format (E F : Z) (x : R) : R := round radix2 (FLT_exp (1 - bias E - F) (F + 1)) ZnearestE x.
Definition overflows (E F : Z) (x : R) : Prop := (bpow radix2 (bias E + 1) <= Rabs (rounded_unbounded F x))%R.
Definition underflows (E F : Z) (x : R) : Prop :=
  (Rabs (rounded_unbounded F x) < bpow radix2 (1 - bias E))%R /\ rounded_format E F x <> x.

(** The flags of an operation whose exact result, when there is one, is x. *)
Definition signals (E F : Z) (invalid divzero exact : Prop) (x : R) (flags : Z) : Prop :=
  (raised flags softfloat_flag_invalid <-> invalid) /\
  (raised flags softfloat_flag_infinite <-> divzero) /\
  (raised flags softfloat_flag_overflow <-> exact /\ overflows E F x) /\
  (raised flags softfloat_flag_underflow <-> exact /\ underflows E F x).

(** The operands for which the operations are invalid (7.2), and division of a number by zero (7.3). *)
Definition add_invalid (E F a b : Z) : Prop :=
  signalling E F a \/ signalling E F b \/ exists s, decode754 E F a = Inf s /\ decode754 E F b = Inf (negb s).
Definition mul_invalid (E F a b : Z) : Prop :=
  signalling E F a \/ signalling E F b \/
  exists s t, decode754 E F a = Inf s /\ decode754 E F b = Zero t \/ decode754 E F a = Zero s /\ decode754 E F b = Inf t.
Definition div_invalid (E F a b : Z) : Prop :=
  signalling E F a \/ signalling E F b \/
  exists s t, decode754 E F a = Inf s /\ decode754 E F b = Inf t \/ decode754 E F a = Zero s /\ decode754 E F b = Zero t.
Definition div_by_zero (E F a b : Z) : Prop := exists s m e t, decode754 E F a = Num s m e /\ decode754 E F b = Zero t.
Definition finite (E F a : Z) : Prop := is_value (decode754 E F a).
Definition value (E F a : Z) : R := rv (decode754 E F a).
