(** C83: SoftFloat's integer primitives do what primitives.h documents. *)
From Coq Require Import ZArith Bool.
From Verif Require Import Fw SoftFloat SfPrim SpecPrim SfPrimProofs SfPrimProofs2.
Open Scope Z_scope.

(** The table and the portable functions that count leading zeros count them, and return what the functions selected
    instead of them return. *)
Theorem C83_count_leading_zeros :
  (forall a, uint 8 a -> exists n, clz8 a = Some n /\ leading_zeros 8 a n) /\
  (forall a, uint 16 a -> exists n, clz16 a = Some n /\ leading_zeros 16 a n) /\
  (forall a, uint 32 a -> exists n, clz32 a = Some n /\ leading_zeros 32 a n /\ n = clzW 8 23 a) /\
  (forall a, uint 64 a -> exists n, clz64 a = Some n /\ leading_zeros 64 a n /\ n = clzW 11 52 a).
Proof. exact prim_clz. Qed.
Print Assumptions C83_count_leading_zeros.

(** The shifts of one word that set the last bit if a one is shifted off, by any distance. *)
Theorem C83_jamming_shifts :
  (forall a d, uint 32 a -> 1 <= d -> shiftRightJam 8 23 a d = shift_right_jam a d) /\
  (forall a d, uint 64 a -> 1 <= d -> shiftRightJam 11 52 a d = shift_right_jam a d) /\
  (forall a d, uint 64 a -> 1 <= d <= 63 -> shortShiftRightJam64 a d = shift_right_jam a d).
Proof. exact prim_jam. Qed.
Print Assumptions C83_jamming_shifts.

(** The shifts of 128 bits, and of 64 bits into 96. *)
Theorem C83_wide_shifts :
  (forall a64 a0 d, uint 64 a64 -> uint 64 a0 -> 1 <= d <= 63 ->
    (exists z, shortShiftLeft128 a64 a0 d = Some z /\ uint 64 (fst z) /\ uint 64 (snd z) /\ cat2 z = (cat a64 a0 * 2 ^ d) mod 2 ^ 128) /\
    (exists z, shortShiftRight128 a64 a0 d = Some z /\ uint 64 (fst z) /\ uint 64 (snd z) /\ cat2 z = cat a64 a0 / 2 ^ d) /\
    (exists z, shortShiftRightJam128 a64 a0 d = Some z /\ uint 64 (fst z) /\ uint 64 (snd z) /\ cat2 z = shift_right_jam (cat a64 a0) d)) /\
  (forall a d, uint 64 a -> 1 <= d <= 31 ->
    exists w0 w1 w2, shortShiftLeft64To96M a d = Some (w0, w1, w2) /\ uint 32 w0 /\ uint 32 w1 /\ uint 32 w2 /\
      w0 + 2 ^ 32 * w1 + 2 ^ 64 * w2 = a * 2 ^ d).
Proof. exact prim_shift. Qed.
Print Assumptions C83_wide_shifts.

(** The shifts that return the bits shifted off in an extra word: 64 bits more than the distance are shifted off. *)
Theorem C83_extra_shifts :
  (forall a extra d, uint 64 a -> uint 64 extra -> 1 <= d <= 63 ->
    exists v e, shortShiftRightJam64Extra a extra d = Some (v, e) /\ v = cat a extra / 2 ^ (64 + d) /\ extra_field (cat a extra) (64 + d) e) /\
  (forall a extra d, uint 64 a -> uint 64 extra -> 1 <= d ->
    exists v e, shiftRightJam64Extra a extra d = Some (v, e) /\ v = cat a extra / 2 ^ (64 + d) /\ extra_field (cat a extra) (64 + d) e) /\
  (forall a64 a0 extra d, uint 64 a64 -> uint 64 a0 -> uint 64 extra -> 1 <= d <= 63 ->
    exists z64 z0 e, shortShiftRightJam128Extra a64 a0 extra d = Some (z64, z0, e) /\ uint 64 z64 /\ uint 64 z0 /\
      cat z64 z0 = cat (cat a64 a0) extra / 2 ^ (64 + d) /\ extra_field (cat (cat a64 a0) extra) (64 + d) e).
Proof. exact prim_extra. Qed.
Print Assumptions C83_extra_shifts.

(** Comparisons, sums, differences and products of 128-bit integers, modulo 2^128. U is the width of uint_fast32_t. *)
Theorem C83_wide_arithmetic :
  forall U a64 a0 b64 b0 b, 32 <= U -> uint 64 a64 -> uint 64 a0 -> uint 64 b64 -> uint 64 b0 -> uint 32 b ->
  (eq128 a64 a0 b64 b0 = true <-> cat a64 a0 = cat b64 b0) /\
  (le128 a64 a0 b64 b0 = true <-> cat a64 a0 <= cat b64 b0) /\
  (lt128 a64 a0 b64 b0 = true <-> cat a64 a0 < cat b64 b0) /\
  (let z := add128 a64 a0 b64 b0 in uint 64 (fst z) /\ uint 64 (snd z) /\ cat2 z = (cat a64 a0 + cat b64 b0) mod 2 ^ 128) /\
  (let z := sub128 a64 a0 b64 b0 in uint 64 (fst z) /\ uint 64 (snd z) /\ cat2 z = (cat a64 a0 - cat b64 b0) mod 2 ^ 128) /\
  (let z := mul64ByShifted32To128 a0 b in uint 64 (fst z) /\ uint 64 (snd z) /\ cat2 z = a0 * b * 2 ^ 32) /\
  (let z := mul128By32 U a64 a0 b in uint 64 (fst z) /\ uint 64 (snd z) /\ cat2 z = (cat a64 a0 * b) mod 2 ^ 128).
Proof. exact prim_arith. Qed.
Print Assumptions C83_wide_arithmetic.

(** The portable 64 by 64 bit product is the exact one, and stores the words that the function selected instead of it
    stores. *)
Theorem C83_mul64To128 :
  forall a b, uint 64 a -> uint 64 b ->
  mul64To128M_portable a b = mul64To128M_inline a b /\ words4 (mul64To128M_inline a b) = a * b /\
  let '(w0, w1, w2, w3) := mul64To128M_inline a b in uint 32 w0 /\ uint 32 w1 /\ uint 32 w2 /\ uint 32 w3.
Proof. exact prim_mul. Qed.
Print Assumptions C83_mul64To128.

(** The approximate reciprocal r of a, A = a / 2^31 in [1, 2), is never above 1/A and below it by at most 2.008 units of
    2^-32: (2^63 - r a) / a <= 2.008. Missing: primitives.h:193-195 says 2.006. *)
Theorem C83_reciprocal_partial :
  forall U a, 32 <= U -> 2 ^ 31 <= a < 2 ^ 32 ->
  let r := approxRecip32_1 U a in
  uint 32 r /\ r * a <= 2 ^ 63 /\ 1000 * (2 ^ 63 - r * a) <= 2008 * a.
Proof. exact recip_bound. Qed.
Print Assumptions C83_reciprocal_partial.

(** Some values, among them a reciprocal more than 2.005 units too small. *)
Example C83_instance :
  (uint 64 (2 ^ 64 - 1) /\ uint 32 (2 ^ 32 - 1) /\ uint 64 5) /\
  clz8 19 = Some 3 /\ clz16 700 = Some 6 /\ clz32 700 = Some 22 /\ clz64 (2 ^ 40 + 7) = Some 23 /\ clz64 0 = Some 64 /\
  shiftRightJam 8 23 0x80000001 4 = 0x08000001 /\ shiftRightJam 8 23 5 40 = 1 /\ shortShiftRightJam64 0x30 4 = 3 /\
  shortShiftLeft128 1 (2 ^ 63 + 1) 4 = Some (24, 16) /\ shortShiftRight128 5 16 4 = Some (0, 5 * 2 ^ 60 + 1) /\
  shortShiftRightJam128 5 33 4 = Some (0, 5 * 2 ^ 60 + 3) /\
  shiftRightJam64Extra 11 1 2 = Some (2, 3 * 2 ^ 62 + 1) /\ shiftRightJam64Extra 11 0 70 = Some (0, 1) /\
  add128 (2 ^ 64 - 1) (2 ^ 64 - 1) 0 3 = (0, 2) /\ sub128 0 2 0 3 = (2 ^ 64 - 1, 2 ^ 64 - 1) /\
  mul128By32 32 1 (2 ^ 64 - 1) (2 ^ 32 - 1) = (8589934589, 2 ^ 64 - 2 ^ 32 + 1) /\
  mul64To128M_portable (2 ^ 64 - 1) (2 ^ 64 - 1) = (1, 0, 2 ^ 32 - 2, 2 ^ 32 - 1) /\
  (let a := 2152060682 in let r := approxRecip32_1 32 a in 2005 * a < 1000 * (2 ^ 63 - r * a)).
Proof. vm_compute. repeat split; congruence. Qed.
