(** C84: the settings of SoftFloat do not change a result. *)
From Coq Require Import ZArith Bool.
From Verif Require Import Fw SoftFloat SfPrim SpecPrim SfConfig SfConfigProofs Inst.
Open Scope Z_scope.

(** Single precision. The product before the optimisation of f32_mul, the quotient through a 64 by 32 bit division, and the
    quotient with the remainder for SOFTFLOAT_FAST_INT64 are the words the selected code returns, NaNs included. *)
Theorem C84_single :
  forall U a b, 32 <= U -> uint 32 a -> uint 32 b ->
  f32_mul_before U a b = f32_mul U a b /\ f32_div_div64 U a b = f32_div U a b /\ f32_div_int64 U a b = f32_div U a b.
Proof. exact config32. Qed.
Print Assumptions C84_single.
Example C84_single_at := C84_single 32 0x40490FDB 0x3F800000 ltac:(hyp) ltac:(hyp) ltac:(hyp).

(** Double precision. The product with the portable 128-bit multiplication and the quotient with the reciprocal by division
    are the words the selected code returns. *)
Theorem C84_double :
  forall a b, uint 64 a -> uint 64 b ->
  f64_mul_portable a b = f64_mul a b /\ f64_div_with recip_div64 a b = f64_div a b.
Proof. exact config64. Qed.
Print Assumptions C84_double.
Example C84_double_at := C84_double 0x400921FB54442D18 7 ltac:(hyp) ltac:(hyp).

(** f64_mul for SOFTFLOAT_FAST_INT64 with any function that returns the product of two words as primitives.h documents. *)
Theorem C84_any_product :
  forall m, (forall x y, uint 64 x -> uint 64 y -> uint 64 (fst (m x y)) /\ uint 64 (snd (m x y)) /\ cat2 (m x y) = x * y) ->
  forall a b, uint 64 a -> uint 64 b -> f64_mul_int64 m a b = f64_mul a b.
Proof. exact any_product. Qed.
Print Assumptions C84_any_product.

(** f64_div with any reciprocal that primitives.h:186-195 permits: never above the true one, at most 2.006 units below. *)
Theorem C84_any_reciprocal :
  forall recip,
  (forall a, 2 ^ 31 <= a < 2 ^ 32 -> uint 32 (recip a) /\ recip a * a <= 2 ^ 63 /\ 1000 * (2 ^ 63 - recip a * a) <= 2006 * a) ->
  forall a b, uint 64 a -> uint 64 b -> f64_div_with recip a b = f64_div a b.
Proof. exact any_recip. Qed.
Print Assumptions C84_any_reciprocal.

(** 1/3 and 3 * 5 in single and double precision; the significands before rounding differ. *)
Example C84_instance :
  (uint 32 0x3F800000 /\ uint 32 0x40400000) /\
  f32_div_div64 32 0x3F800000 0x40400000 = Some 0x3EAAAAAB /\ f32_div 32 0x3F800000 0x40400000 = Some 0x3EAAAAAB /\
  f32_divsig_div64 32 0x800000 0xC00000 <> f32_divsig 32 0x800000 0xC00000 /\
  f32_mul_before 64 0x40400000 0x40A00000 = Some 0x41700000 /\
  f64_div_with recip_div64 0x3FF0000000000000 0x4008000000000000 = Some 0x3FD5555555555555 /\
  recip_div64 0x80000001 <> approxRecip32_1 64 0x80000001 /\
  f64_mul_portable 0x4008000000000000 0x4014000000000000 = Some 0x402E000000000000 /\
  (let m x y := (x * y / 2 ^ 64, x * y mod 2 ^ 64) in f64_mul_int64 m 0x4008000000000000 0x4014000000000000 = Some 0x402E000000000000).
Proof. vm_compute. repeat split; congruence. Qed.

(** The hypotheses of C84_any_reciprocal and C84_any_product are met. *)
Example C84_hypotheses :
  (forall a, 2 ^ 31 <= a < 2 ^ 32 -> uint 32 (recip_div64 a) /\ recip_div64 a * a <= 2 ^ 63 /\ 1000 * (2 ^ 63 - recip_div64 a * a) <= 2006 * a) /\
  (let m x y := (x * y / 2 ^ 64, x * y mod 2 ^ 64) in
   forall x y, uint 64 x -> uint 64 y -> uint 64 (fst (m x y)) /\ uint 64 (snd (m x y)) /\ cat2 (m x y) = x * y).
Proof. exact hypotheses_met. Qed.
