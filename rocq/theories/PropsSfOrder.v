(** C77: SoftFloat's binary32 and binary64 operations respect the order, return exact results exactly, and subtract without
    loss. The order and equality are the library's own comparisons (their meaning is C59); "eq r r" says that r is not a NaN.
    A difference is an addition of a word with its sign bit changed ([flip], SpecSf754.v). These theorems depend on the axioms of
    the standard library's real numbers, and on no others. *)
From Coq Require Import ZArith Bool Lia Reals Lra.
From Flocq Require Import Core.
From Verif Require Import Fw Spec Spec754 SpecFlocq SpecSf754 SoftFloat SfReal4 Inst InstR.
Open Scope Z_scope.

(** a <= b gives a + c <= b + c unless a sum is a NaN. *)
Theorem C77_f32_add_order U a b c : 32 <= U -> 0 <= a < 2 ^ 32 -> 0 <= b < 2 ^ 32 -> 0 <= c < 2 ^ 32 -> f32_le a b = true ->
  exists r s, f32_add U a c = Some r /\ f32_add U b c = Some s /\ (f32_eq r r = true -> f32_eq s s = true -> f32_le r s = true).
Proof. exact (f32_add_order U a b c). Qed.
Print Assumptions C77_f32_add_order.
Example C77_f32_add_order_at := C77_f32_add_order 32 0x3F800000 0x40490FDB 0xBF800000 ltac:(hyp) ltac:(hyp) ltac:(hyp) ltac:(hyp) ltac:(hyp).

(** a <= b gives a * c <= b * c for c >= 0 and a * c >= b * c for c <= 0. *)
Theorem C77_f32_mul_order U a b c : 32 <= U -> 0 <= a < 2 ^ 32 -> 0 <= b < 2 ^ 32 -> 0 <= c < 2 ^ 32 -> f32_le a b = true ->
  exists r s, f32_mul U a c = Some r /\ f32_mul U b c = Some s /\
    (f32_eq r r = true -> f32_eq s s = true -> (f32_le 0 c = true -> f32_le r s = true) /\ (f32_le c 0 = true -> f32_le s r = true)).
Proof. exact (f32_mul_order U a b c). Qed.
Print Assumptions C77_f32_mul_order.
Example C77_f32_mul_order_at := C77_f32_mul_order 32 0x3F800000 0x40490FDB 0xBF800000 ltac:(hyp) ltac:(hyp) ltac:(hyp) ltac:(hyp) ltac:(hyp).

(** a <= b gives a / c <= b / c for c > 0. *)
Theorem C77_f32_div_order U a b c : 32 <= U -> 0 <= a < 2 ^ 32 -> 0 <= b < 2 ^ 32 -> 0 <= c < 2 ^ 32 -> f32_le a b = true -> f32_lt 0 c = true ->
  exists r s, f32_div U a c = Some r /\ f32_div U b c = Some s /\ (f32_eq r r = true -> f32_eq s s = true -> f32_le r s = true).
Proof. exact (f32_div_order U a b c). Qed.
Print Assumptions C77_f32_div_order.
Example C77_f32_div_order_at := C77_f32_div_order 32 0x3F800000 0x40490FDB 0x40000000 ltac:(hyp) ltac:(hyp) ltac:(hyp) ltac:(hyp) ltac:(hyp) ltac:(hyp).

(** A sum that the format can hold is returned exactly; if it is not zero, as its only word. *)
Theorem C77_f32_add_exact U a b w : 32 <= U -> 0 <= a < 2 ^ 32 -> 0 <= b < 2 ^ 32 -> 0 <= w < 2 ^ 32 -> finite_v (decode754 8 23 a) -> finite_v (decode754 8 23 b) -> finite_v (decode754 8 23 w) -> (real754 8 23 a + real754 8 23 b = real754 8 23 w)%R ->
  exists r, f32_add U a b = Some r /\ 0 <= r < 2 ^ 32 /\ finite_v (decode754 8 23 r) /\ real754 8 23 r = real754 8 23 w /\ (real754 8 23 w <> 0%R -> r = w).
Proof. exact (f32_add_exact U a b w). Qed.
Print Assumptions C77_f32_add_exact.
Example C77_f32_add_exact_at := C77_f32_add_exact 32 0x3F800000 0x40000000 0x40400000 ltac:(hypx) ltac:(hypx) ltac:(hypx) ltac:(hypx) ltac:(hypx) ltac:(hypx) ltac:(hypx) ltac:(hypx).

(** Likewise a product. *)
Theorem C77_f32_mul_exact U a b w : 32 <= U -> 0 <= a < 2 ^ 32 -> 0 <= b < 2 ^ 32 -> 0 <= w < 2 ^ 32 -> finite_v (decode754 8 23 a) -> finite_v (decode754 8 23 b) -> finite_v (decode754 8 23 w) -> (real754 8 23 a * real754 8 23 b = real754 8 23 w)%R ->
  exists r, f32_mul U a b = Some r /\ 0 <= r < 2 ^ 32 /\ finite_v (decode754 8 23 r) /\ real754 8 23 r = real754 8 23 w /\ (real754 8 23 w <> 0%R -> r = w).
Proof. exact (f32_mul_exact U a b w). Qed.
Print Assumptions C77_f32_mul_exact.
Example C77_f32_mul_exact_at := C77_f32_mul_exact 32 0x40000000 0x40400000 0x40C00000 ltac:(hypx) ltac:(hypx) ltac:(hypx) ltac:(hypx) ltac:(hypx) ltac:(hypx) ltac:(hypx) ltac:(hypx).

(** Likewise a quotient. *)
Theorem C77_f32_div_exact U a b w : 32 <= U -> 0 <= a < 2 ^ 32 -> 0 <= b < 2 ^ 32 -> 0 <= w < 2 ^ 32 -> finite_v (decode754 8 23 a) -> finite_v (decode754 8 23 b) -> finite_v (decode754 8 23 w) -> real754 8 23 b <> 0%R -> (real754 8 23 a / real754 8 23 b = real754 8 23 w)%R ->
  exists r, f32_div U a b = Some r /\ 0 <= r < 2 ^ 32 /\ finite_v (decode754 8 23 r) /\ real754 8 23 r = real754 8 23 w /\ (real754 8 23 w <> 0%R -> r = w).
Proof. exact (f32_div_exact U a b w). Qed.
Print Assumptions C77_f32_div_exact.
Example C77_f32_div_exact_at := C77_f32_div_exact 32 0x40C00000 0x40000000 0x40400000 ltac:(hypx) ltac:(hypx) ltac:(hypx) ltac:(hypx) ltac:(hypx) ltac:(hypx) ltac:(hypx) ltac:(hypx) ltac:(hypx).

(** Numbers within a factor of two of each other subtract exactly, everywhere in the range. *)
Theorem C77_f32_sterbenz U a b : 32 <= U -> 0 <= a < 2 ^ 32 -> 0 <= b < 2 ^ 32 -> finite_v (decode754 8 23 a) -> finite_v (decode754 8 23 b) -> (real754 8 23 b / 2 <= real754 8 23 a <= 2 * real754 8 23 b)%R ->
  exists r, f32_add U a (flip 32 b) = Some r /\ 0 <= r < 2 ^ 32 /\ finite_v (decode754 8 23 r) /\ real754 8 23 r = (real754 8 23 a - real754 8 23 b)%R.
Proof. exact (f32_sterbenz U a b). Qed.
Print Assumptions C77_f32_sterbenz.
Example C77_f32_sterbenz_at := C77_f32_sterbenz 32 0x40400000 0x40000000 ltac:(hypx) ltac:(hypx) ltac:(hypx) ltac:(hypx) ltac:(hypx) ltac:(hypx).

(** a - b is zero exactly when a = b (which is false of the formats without subnormal numbers, C75_lost_difference_refuted). *)
Theorem C77_f32_difference_zero U a b : 32 <= U -> 0 <= a < 2 ^ 32 -> 0 <= b < 2 ^ 32 -> finite_v (decode754 8 23 a) -> finite_v (decode754 8 23 b) ->
  exists r, f32_add U a (flip 32 b) = Some r /\ (f32_eq r 0 = true <-> f32_eq a b = true).
Proof. exact (f32_sub_zero U a b). Qed.
Print Assumptions C77_f32_difference_zero.
Example C77_f32_difference_zero_at := C77_f32_difference_zero 32 0x40400000 0x40000000 ltac:(hypx) ltac:(hypx) ltac:(hypx) ltac:(hypx) ltac:(hypx).

(** Fast2Sum: for |y| <= |x| whose sum a is finite, a number b with a + b = x + y exactly. *)
Theorem C77_f32_fast_two_sum U x y a : 32 <= U -> 0 <= x < 2 ^ 32 -> 0 <= y < 2 ^ 32 -> finite_v (decode754 8 23 x) -> finite_v (decode754 8 23 y) ->
  (Rabs (real754 8 23 y) <= Rabs (real754 8 23 x))%R -> f32_add U x y = Some a -> finite_v (decode754 8 23 a) ->
  exists b, sf_fast_two_sum 32 (f32_add U) x y = Some (a, b) /\ finite_v (decode754 8 23 b) /\ (real754 8 23 a + real754 8 23 b = real754 8 23 x + real754 8 23 y)%R.
Proof. exact (f32_fast_two_sum U x y a). Qed.
Print Assumptions C77_f32_fast_two_sum.
Example C77_f32_fast_two_sum_at := C77_f32_fast_two_sum 32 0x40490FDB 0xBF800000 1074335707 ltac:(hypx) ltac:(hypx) ltac:(hypx) ltac:(hypx) ltac:(hypx) ltac:(hypx) ltac:(hypx) ltac:(hypx).

(** 2Sum: the same for operands in any order, unless y is the largest number or its negative. *)
Theorem C77_f32_two_sum U x y a : 32 <= U -> 0 <= x < 2 ^ 32 -> 0 <= y < 2 ^ 32 -> finite_v (decode754 8 23 x) -> finite_v (decode754 8 23 y) ->
  y mod 2 ^ 31 <> 2 ^ 31 - 2 ^ 23 - 1 -> f32_add U x y = Some a -> finite_v (decode754 8 23 a) ->
  exists b, sf_two_sum 32 (f32_add U) x y = Some (a, b) /\ finite_v (decode754 8 23 b) /\ (real754 8 23 a + real754 8 23 b = real754 8 23 x + real754 8 23 y)%R.
Proof. exact (f32_two_sum U x y a). Qed.
Print Assumptions C77_f32_two_sum.
Example C77_f32_two_sum_at := C77_f32_two_sum 32 0x40490FDB 0xBF800000 1074335707 ltac:(hypx) ltac:(hypx) ltac:(hypx) ltac:(hypx) ltac:(hypx) ltac:(hypx) ltac:(hypx) ltac:(hypx).

(** Without that exception 2Sum fails: the largest number plus -1.5 of its last places has a finite sum and a NaN as its error. *)
Theorem C77_f32_two_sum_refuted : exists x y a b, 0 <= x < 2 ^ 32 /\ 0 <= y < 2 ^ 32 /\ finite_v (decode754 8 23 x) /\ finite_v (decode754 8 23 y) /\
  f32_add 32 x y = Some a /\ finite_v (decode754 8 23 a) /\ sf_two_sum 32 (f32_add 32) x y = Some (a, b) /\ decode754 8 23 b = NaN.
Proof. exact f32_two_sum_overflow. Qed.
Print Assumptions C77_f32_two_sum_refuted.

(** 1 <= 1 + 2^-23, plus 2^-25 and times -2 and over 3; 1 + 2 = 3 and 6 / 2 = 3 at 2^-149 (subnormal), 1.5 * 3 = 4.5; the
    neighbours at 2^-126 differ by the smallest subnormal; 1 + (2^-24 + 2^-47) with its error. *)
Example C77_f32_instance : 32 <= 32 /\ f32_le 1065353216 1065353217 = true /\
  f32_add 32 1065353216 855638016 = Some 1065353216 /\ f32_add 32 1065353217 855638016 = Some 1065353217 /\
  f32_le 3221225472 0 = true /\ f32_mul 32 1065353216 3221225472 = Some 3221225472 /\ f32_mul 32 1065353217 3221225472 = Some 3221225473 /\ f32_le 3221225473 3221225472 = true /\
  f32_lt 0 1077936128 = true /\ f32_div 32 1065353216 1077936128 = Some 1051372203 /\ f32_div 32 1065353217 1077936128 = Some 1051372204 /\ f32_eq 1051372203 1051372203 = true /\ f32_le 1051372203 1051372204 = true /\
  f32_add 32 1 2 = Some 3 /\ f32_mul 32 1069547520 1077936128 = Some 1083179008 /\ f32_div 32 6 1073741824 = Some 3 /\
  f32_add 32 8388609 (flip 32 8388608) = Some 1 /\ f32_eq 1 0 = false /\ f32_eq 8388609 8388608 = false /\
  decode754 8 23 8388609 = Num false 8388609 (-149) /\ decode754 8 23 8388608 = Num false 8388608 (-149) /\ decode754 8 23 1 = Num false 1 (-149) /\
  sf_two_sum 32 (f32_add 32) 864026625 1065353216 = Some (1065353217, 3011510270) /\ sf_fast_two_sum 32 (f32_add 32) 1065353216 864026625 = Some (1065353217, 3011510270).
Proof. decide_example. Qed.
Example C77_f32_real_instance : (real754 8 23 8388608 / 2 <= real754 8 23 8388609 <= 2 * real754 8 23 8388608)%R /\ (real754 8 23 1 + real754 8 23 2 = real754 8 23 3)%R /\ (real754 8 23 3 <> 0)%R /\
  (Rabs (real754 8 23 1065353216) <= bpow radix2 122)%R /\ (Rabs (real754 8 23 1) <= Rabs (real754 8 23 3))%R.
Proof.
  assert (A : decode754 8 23 8388609 = Num false 8388609 (-149)) by (vm_compute; reflexivity). assert (B : decode754 8 23 8388608 = Num false 8388608 (-149)) by (vm_compute; reflexivity).
  assert (C : decode754 8 23 1 = Num false 1 (-149)) by (vm_compute; reflexivity). assert (D : decode754 8 23 2 = Num false 2 (-149)) by (vm_compute; reflexivity). assert (G : decode754 8 23 3 = Num false 3 (-149)) by (vm_compute; reflexivity).
  assert (H : decode754 8 23 1065353216 = Num false 8388608 (-23)) by (vm_compute; reflexivity).
  rewrite A, B, C, D, G, H. cbn [rv]. unfold F2R, Defs.Fnum, Defs.Fexp. pose proof (bpow_gt_0 radix2 (-149)) as P. pose proof (bpow_le radix2 0 122 ltac:(lia)) as Q. change (bpow radix2 0) with 1%R in Q.
  repeat split; try (rewrite ?Rabs_pos_eq); try nra; try (cbn [bpow]; cbn; lra).
Qed.


(** a <= b gives a + c <= b + c unless a sum is a NaN. *)
Theorem C77_f64_add_order a b c : 0 <= a < 2 ^ 64 -> 0 <= b < 2 ^ 64 -> 0 <= c < 2 ^ 64 -> f64_le a b = true ->
  exists r s, f64_add a c = Some r /\ f64_add b c = Some s /\ (f64_eq r r = true -> f64_eq s s = true -> f64_le r s = true).
Proof. exact (f64_add_order a b c). Qed.
Print Assumptions C77_f64_add_order.
Example C77_f64_add_order_at := C77_f64_add_order 0x3FF0000000000000 0x400921FB54442D18 0xBFF0000000000000 ltac:(hyp) ltac:(hyp) ltac:(hyp) ltac:(hyp).

(** a <= b gives a * c <= b * c for c >= 0 and a * c >= b * c for c <= 0. *)
Theorem C77_f64_mul_order a b c : 0 <= a < 2 ^ 64 -> 0 <= b < 2 ^ 64 -> 0 <= c < 2 ^ 64 -> f64_le a b = true ->
  exists r s, f64_mul a c = Some r /\ f64_mul b c = Some s /\
    (f64_eq r r = true -> f64_eq s s = true -> (f64_le 0 c = true -> f64_le r s = true) /\ (f64_le c 0 = true -> f64_le s r = true)).
Proof. exact (f64_mul_order a b c). Qed.
Print Assumptions C77_f64_mul_order.
Example C77_f64_mul_order_at := C77_f64_mul_order 0x3FF0000000000000 0x400921FB54442D18 0xBFF0000000000000 ltac:(hyp) ltac:(hyp) ltac:(hyp) ltac:(hyp).

(** a <= b gives a / c <= b / c for c > 0. *)
Theorem C77_f64_div_order a b c : 0 <= a < 2 ^ 64 -> 0 <= b < 2 ^ 64 -> 0 <= c < 2 ^ 64 -> f64_le a b = true -> f64_lt 0 c = true ->
  exists r s, f64_div a c = Some r /\ f64_div b c = Some s /\ (f64_eq r r = true -> f64_eq s s = true -> f64_le r s = true).
Proof. exact (f64_div_order a b c). Qed.
Print Assumptions C77_f64_div_order.
Example C77_f64_div_order_at := C77_f64_div_order 0x3FF0000000000000 0x400921FB54442D18 0x4000000000000000 ltac:(hyp) ltac:(hyp) ltac:(hyp) ltac:(hyp) ltac:(hyp).

(** A sum that the format can hold is returned exactly; if it is not zero, as its only word. *)
Theorem C77_f64_add_exact a b w : 0 <= a < 2 ^ 64 -> 0 <= b < 2 ^ 64 -> 0 <= w < 2 ^ 64 -> finite_v (decode754 11 52 a) -> finite_v (decode754 11 52 b) -> finite_v (decode754 11 52 w) -> (real754 11 52 a + real754 11 52 b = real754 11 52 w)%R ->
  exists r, f64_add a b = Some r /\ 0 <= r < 2 ^ 64 /\ finite_v (decode754 11 52 r) /\ real754 11 52 r = real754 11 52 w /\ (real754 11 52 w <> 0%R -> r = w).
Proof. exact (f64_add_exact a b w). Qed.
Print Assumptions C77_f64_add_exact.
Example C77_f64_add_exact_at := C77_f64_add_exact 0x3FF0000000000000 0x4000000000000000 0x4008000000000000 ltac:(hypx) ltac:(hypx) ltac:(hypx) ltac:(hypx) ltac:(hypx) ltac:(hypx) ltac:(hypx).

(** Likewise a product. *)
Theorem C77_f64_mul_exact a b w : 0 <= a < 2 ^ 64 -> 0 <= b < 2 ^ 64 -> 0 <= w < 2 ^ 64 -> finite_v (decode754 11 52 a) -> finite_v (decode754 11 52 b) -> finite_v (decode754 11 52 w) -> (real754 11 52 a * real754 11 52 b = real754 11 52 w)%R ->
  exists r, f64_mul a b = Some r /\ 0 <= r < 2 ^ 64 /\ finite_v (decode754 11 52 r) /\ real754 11 52 r = real754 11 52 w /\ (real754 11 52 w <> 0%R -> r = w).
Proof. exact (f64_mul_exact a b w). Qed.
Print Assumptions C77_f64_mul_exact.
Example C77_f64_mul_exact_at := C77_f64_mul_exact 0x4000000000000000 0x4008000000000000 0x4018000000000000 ltac:(hypx) ltac:(hypx) ltac:(hypx) ltac:(hypx) ltac:(hypx) ltac:(hypx) ltac:(hypx).

(** Likewise a quotient. *)
Theorem C77_f64_div_exact a b w : 0 <= a < 2 ^ 64 -> 0 <= b < 2 ^ 64 -> 0 <= w < 2 ^ 64 -> finite_v (decode754 11 52 a) -> finite_v (decode754 11 52 b) -> finite_v (decode754 11 52 w) -> real754 11 52 b <> 0%R -> (real754 11 52 a / real754 11 52 b = real754 11 52 w)%R ->
  exists r, f64_div a b = Some r /\ 0 <= r < 2 ^ 64 /\ finite_v (decode754 11 52 r) /\ real754 11 52 r = real754 11 52 w /\ (real754 11 52 w <> 0%R -> r = w).
Proof. exact (f64_div_exact a b w). Qed.
Print Assumptions C77_f64_div_exact.
Example C77_f64_div_exact_at := C77_f64_div_exact 0x4018000000000000 0x4000000000000000 0x4008000000000000 ltac:(hypx) ltac:(hypx) ltac:(hypx) ltac:(hypx) ltac:(hypx) ltac:(hypx) ltac:(hypx) ltac:(hypx).

(** Numbers within a factor of two of each other subtract exactly, everywhere in the range. *)
Theorem C77_f64_sterbenz a b : 0 <= a < 2 ^ 64 -> 0 <= b < 2 ^ 64 -> finite_v (decode754 11 52 a) -> finite_v (decode754 11 52 b) -> (real754 11 52 b / 2 <= real754 11 52 a <= 2 * real754 11 52 b)%R ->
  exists r, f64_add a (flip 64 b) = Some r /\ 0 <= r < 2 ^ 64 /\ finite_v (decode754 11 52 r) /\ real754 11 52 r = (real754 11 52 a - real754 11 52 b)%R.
Proof. exact (f64_sterbenz a b). Qed.
Print Assumptions C77_f64_sterbenz.
Example C77_f64_sterbenz_at := C77_f64_sterbenz 0x4008000000000000 0x4000000000000000 ltac:(hypx) ltac:(hypx) ltac:(hypx) ltac:(hypx) ltac:(hypx).

(** a - b is zero exactly when a = b (which is false of the formats without subnormal numbers, C75_lost_difference_refuted). *)
Theorem C77_f64_difference_zero a b : 0 <= a < 2 ^ 64 -> 0 <= b < 2 ^ 64 -> finite_v (decode754 11 52 a) -> finite_v (decode754 11 52 b) ->
  exists r, f64_add a (flip 64 b) = Some r /\ (f64_eq r 0 = true <-> f64_eq a b = true).
Proof. exact (f64_sub_zero a b). Qed.
Print Assumptions C77_f64_difference_zero.
Example C77_f64_difference_zero_at := C77_f64_difference_zero 0x4008000000000000 0x4000000000000000 ltac:(hypx) ltac:(hypx) ltac:(hypx) ltac:(hypx).

(** Fast2Sum: for |y| <= |x| whose sum a is finite, a number b with a + b = x + y exactly. *)
Theorem C77_f64_fast_two_sum x y a : 0 <= x < 2 ^ 64 -> 0 <= y < 2 ^ 64 -> finite_v (decode754 11 52 x) -> finite_v (decode754 11 52 y) ->
  (Rabs (real754 11 52 y) <= Rabs (real754 11 52 x))%R -> f64_add x y = Some a -> finite_v (decode754 11 52 a) ->
  exists b, sf_fast_two_sum 64 f64_add x y = Some (a, b) /\ finite_v (decode754 11 52 b) /\ (real754 11 52 a + real754 11 52 b = real754 11 52 x + real754 11 52 y)%R.
Proof. exact (f64_fast_two_sum x y a). Qed.
Print Assumptions C77_f64_fast_two_sum.
Example C77_f64_fast_two_sum_at := C77_f64_fast_two_sum 0x400921FB54442D18 0xBFF0000000000000 4612004856738360600 ltac:(hypx) ltac:(hypx) ltac:(hypx) ltac:(hypx) ltac:(hypx) ltac:(hypx) ltac:(hypx).

(** 2Sum: the same for operands in any order, unless y is the largest number or its negative. *)
Theorem C77_f64_two_sum x y a : 0 <= x < 2 ^ 64 -> 0 <= y < 2 ^ 64 -> finite_v (decode754 11 52 x) -> finite_v (decode754 11 52 y) ->
  y mod 2 ^ 63 <> 2 ^ 63 - 2 ^ 52 - 1 -> f64_add x y = Some a -> finite_v (decode754 11 52 a) ->
  exists b, sf_two_sum 64 f64_add x y = Some (a, b) /\ finite_v (decode754 11 52 b) /\ (real754 11 52 a + real754 11 52 b = real754 11 52 x + real754 11 52 y)%R.
Proof. exact (f64_two_sum x y a). Qed.
Print Assumptions C77_f64_two_sum.
Example C77_f64_two_sum_at := C77_f64_two_sum 0x400921FB54442D18 0xBFF0000000000000 4612004856738360600 ltac:(hypx) ltac:(hypx) ltac:(hypx) ltac:(hypx) ltac:(hypx) ltac:(hypx) ltac:(hypx).

(** Without that exception 2Sum fails: the largest number plus -1.5 of its last places has a finite sum and a NaN as its error. *)
Theorem C77_f64_two_sum_refuted : exists x y a b, 0 <= x < 2 ^ 64 /\ 0 <= y < 2 ^ 64 /\ finite_v (decode754 11 52 x) /\ finite_v (decode754 11 52 y) /\
  f64_add x y = Some a /\ finite_v (decode754 11 52 a) /\ sf_two_sum 64 f64_add x y = Some (a, b) /\ decode754 11 52 b = NaN.
Proof. exact f64_two_sum_overflow. Qed.
Print Assumptions C77_f64_two_sum_refuted.

(** The same cases in binary64. *)
Example C77_f64_instance : f64_le 4607182418800017408 4607182418800017409 = true /\
  f64_le 13835058055282163712 0 = true /\ f64_mul 4607182418800017408 13835058055282163712 = Some 13835058055282163712 /\ f64_mul 4607182418800017409 13835058055282163712 = Some 13835058055282163713 /\
  f64_lt 0 4613937818241073152 = true /\ f64_div 4607182418800017408 4613937818241073152 = Some 4599676419421066581 /\ f64_eq 4599676419421066581 4599676419421066581 = true /\
  f64_add 1 2 = Some 3 /\ f64_mul 4609434218613702656 4613937818241073152 = Some 4616752568008179712 /\ f64_div 6 4611686018427387904 = Some 3 /\
  f64_add 4503599627370497 (flip 64 4503599627370496) = Some 1 /\ f64_eq 1 0 = false /\ f64_eq 4503599627370497 4503599627370496 = false /\
  decode754 11 52 4503599627370497 = Num false 4503599627370497 (-1074) /\ decode754 11 52 4503599627370496 = Num false 4503599627370496 (-1074) /\
  sf_two_sum 64 f64_add 1 4607182418800017408 = Some (4607182418800017408, 1) /\ sf_fast_two_sum 64 f64_add 4607182418800017408 1 = Some (4607182418800017408, 1).
Proof. decide_example. Qed.
