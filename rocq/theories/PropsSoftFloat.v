(** C58, C59, C60, C62: the SoftFloat functions behind fp_softfloat32 and the softfloat policies, against the interchange
    formats of Spec754.v. decode754 gives the value of a word; add754, mul754, div754 are the exact result rounded once to
    nearest even, with subnormal numbers. U is the width of uint_fast32_t, 32 or 64 in practice. *)
From Coq Require Import ZArith Bool Lia.
From Verif Require Import Spec Spec754 SoftFloat SfProofs10.
Open Scope Z_scope.

(** binary32 addition: correctly rounded for every pair of words, subnormal numbers, infinities, zeros and NaNs included. *)
Theorem C58_f32_add U a b : 32 <= U -> 0 <= a < 2 ^ 32 -> 0 <= b < 2 ^ 32 ->
  exists r, f32_add U a b = Some r /\ 0 <= r < 2 ^ 32 /\ decode754 8 23 r = add754 8 23 (decode754 8 23 a) (decode754 8 23 b).
Proof. exact (f32_add_ok U a b). Qed.
Print Assumptions C58_f32_add.
(** 1.5 + 2^-149 (a subnormal number) is 1.5; the two smallest subnormal numbers add up exactly; 2^24+1 is a tie. *)
Example C58_f32_add_ex : f32_add 32 0x3FC00000 1 = Some 0x3FC00000 /\ f32_add 64 1 1 = Some 2 /\
  f32_add 32 0x4B800000 0x3F800000 = Some 0x4B800000 /\
  add754 8 23 (decode754 8 23 1) (decode754 8 23 1) = Num false 2 (-149).
Proof. vm_compute. auto. Qed.

(** binary64 addition. *)
Theorem C58_f64_add a b : 0 <= a < 2 ^ 64 -> 0 <= b < 2 ^ 64 ->
  exists r, f64_add a b = Some r /\ 0 <= r < 2 ^ 64 /\ decode754 11 52 r = add754 11 52 (decode754 11 52 a) (decode754 11 52 b).
Proof. exact (f64_add_ok a b). Qed.
Print Assumptions C58_f64_add.
(** 1 + 2^-53 is a tie, 1 + 3*2^-54 is above it; infinity minus infinity is not a number. *)
Example C58_f64_add_ex : f64_add 0x3FF0000000000000 0x3CA0000000000000 = Some 0x3FF0000000000000 /\
  f64_add 0x3FF0000000000000 0x3CA8000000000000 = Some 0x3FF0000000000001 /\
  decode754 11 52 0xFFF8000000000000 = NaN /\ f64_add 0x7FF0000000000000 0xFFF0000000000000 = Some 0xFFF8000000000000.
Proof. vm_compute. auto. Qed.

(** binary32 multiplication: correctly rounded for every pair of words, subnormal numbers, infinities, zeros and NaNs included. *)
Theorem C58_f32_mul U a b : 32 <= U -> 0 <= a < 2 ^ 32 -> 0 <= b < 2 ^ 32 ->
  exists r, f32_mul U a b = Some r /\ 0 <= r < 2 ^ 32 /\ decode754 8 23 r = mul754 8 23 (decode754 8 23 a) (decode754 8 23 b).
Proof. exact (f32_mul_ok U a b). Qed.
Print Assumptions C58_f32_mul.
(** 2^-126 * 0.5 is subnormal; 2^-75 * 2^-75 rounds to zero, 1.5 times that to 2^-149. *)
Example C58_f32_mul_ex : f32_mul 32 0x00800000 0x3F000000 = Some 0x00400000 /\ f32_mul 64 0x1A000000 0x1A000000 = Some 0 /\
  f32_mul 64 0x1A000000 0x1A400000 = Some 1 /\ mul754 8 23 (decode754 8 23 0x1A000000) (decode754 8 23 0x1A400000) = Num false 1 (-149).
Proof. vm_compute. auto. Qed.

(** binary64 multiplication. *)
Theorem C58_f64_mul a b : 0 <= a < 2 ^ 64 -> 0 <= b < 2 ^ 64 ->
  exists r, f64_mul a b = Some r /\ 0 <= r < 2 ^ 64 /\ decode754 11 52 r = mul754 11 52 (decode754 11 52 a) (decode754 11 52 b).
Proof. exact (f64_mul_ok a b). Qed.
Print Assumptions C58_f64_mul.
(** The largest number squared overflows; (1+2^-52)^2 is rounded. *)
Example C58_f64_mul_ex : f64_mul 0x7FEFFFFFFFFFFFFF 0xFFEFFFFFFFFFFFFF = Some 0xFFF0000000000000 /\
  f64_mul 0x3FF0000000000001 0x3FF0000000000001 = Some 0x3FF0000000000002.
Proof. vm_compute. auto. Qed.

(** binary32 division: correctly rounded for every pair of words, subnormal numbers, infinities, zeros and NaNs included. *)
Theorem C60_f32_div U a b : 32 <= U -> 0 <= a < 2 ^ 32 -> 0 <= b < 2 ^ 32 ->
  exists r, f32_div U a b = Some r /\ 0 <= r < 2 ^ 32 /\ decode754 8 23 r = div754 8 23 (decode754 8 23 a) (decode754 8 23 b).
Proof. exact (f32_div_ok U a b). Qed.
Print Assumptions C60_f32_div.
(** 1/3 and 1/10; the smallest normal number over 2 is subnormal; division by zero. *)
Example C60_f32_div_ex : f32_div 32 0x3F800000 0x40400000 = Some 0x3EAAAAAB /\ f32_div 64 0x3F800000 0x41200000 = Some 0x3DCCCCCD /\
  f32_div 32 0x00800000 0x40000000 = Some 0x00400000 /\ f32_div 32 0x3F800000 0x80000000 = Some 0xFF800000 /\
  div754 8 23 (decode754 8 23 0x3F800000) (decode754 8 23 0x40400000) = Num false 0xAAAAAB (-25).
Proof. vm_compute. auto. Qed.

(** binary64 division. *)
Theorem C60_f64_div a b : 0 <= a < 2 ^ 64 -> 0 <= b < 2 ^ 64 ->
  exists r, f64_div a b = Some r /\ 0 <= r < 2 ^ 64 /\ decode754 11 52 r = div754 11 52 (decode754 11 52 a) (decode754 11 52 b).
Proof. exact (f64_div_ok a b). Qed.
Print Assumptions C60_f64_div.
Example C60_f64_div_ex : f64_div 0x3FF0000000000000 0x4008000000000000 = Some 0x3FD5555555555555 /\
  f64_div 1 0x4000000000000000 = Some 0 /\ f64_div 3 0x4000000000000000 = Some 2 /\ f64_div 0 0 = Some 0xFFF8000000000000.
Proof. vm_compute. auto. Qed.

(** The six comparison operators on binary32 words are the comparison of the values: the zeros are equal, a NaN is unordered with everything. *)
Theorem C59_f32_compare a b : 0 <= a < 2 ^ 32 -> 0 <= b < 2 ^ 32 ->
  let c := cmp754 (decode754 8 23 a) (decode754 8 23 b) in
  f32_eq a b = match c with Some Eq => true | _ => false end /\
  f32_ne a b = match c with Some Eq => false | _ => true end /\
  f32_lt a b = match c with Some Lt => true | _ => false end /\
  f32_gt a b = match c with Some Gt => true | _ => false end /\
  f32_le a b = match c with Some Lt | Some Eq => true | _ => false end /\
  f32_ge a b = match c with Some Gt | Some Eq => true | _ => false end.
Proof. exact (f32_cmp_ok a b). Qed.
Print Assumptions C59_f32_compare.
Example C59_f32_compare_ex : f32_eq 0 0x80000000 = true /\ f32_lt 0x80000000 0 = false /\ f32_lt (0x80000000 + 0x3F800000) 1 = true /\ f32_gt 2 1 = true /\
  f32_eq 0x7FC00000 0x7FC00000 = false /\ f32_ne 0x7FC00000 0x7FC00000 = true /\ f32_ge 0x7FC00000 0x3F800000 = false.
Proof. vm_compute. repeat split. Qed.

(** The six comparison operators on binary64 words are the comparison of the values: the zeros are equal, a NaN is unordered with everything. *)
Theorem C59_f64_compare a b : 0 <= a < 2 ^ 64 -> 0 <= b < 2 ^ 64 ->
  let c := cmp754 (decode754 11 52 a) (decode754 11 52 b) in
  f64_eq a b = match c with Some Eq => true | _ => false end /\
  f64_ne a b = match c with Some Eq => false | _ => true end /\
  f64_lt a b = match c with Some Lt => true | _ => false end /\
  f64_gt a b = match c with Some Gt => true | _ => false end /\
  f64_le a b = match c with Some Lt | Some Eq => true | _ => false end /\
  f64_ge a b = match c with Some Gt | Some Eq => true | _ => false end.
Proof. exact (f64_cmp_ok a b). Qed.
Print Assumptions C59_f64_compare.
Example C59_f64_compare_ex : f64_eq 0 0x8000000000000000 = true /\ f64_lt 0x8000000000000000 0 = false /\ f64_lt (0x8000000000000000 + 0x3FF0000000000000) 1 = true /\ f64_gt 2 1 = true /\
  f64_eq 0x7FF8000000000000 0x7FF8000000000000 = false /\ f64_ne 0x7FF8000000000000 0x7FF8000000000000 = true /\ f64_ge 0x7FF8000000000000 0x3FF0000000000000 = false.
Proof. vm_compute. repeat split. Qed.

(** numeric_limits<fp_softfloat32> with NDEBUG: min is the smallest normal number, infinity is infinite, round_error is one half and denorm_min is the smallest positive number. Missing: the other constants, see below. *)
Theorem C62_limits_partial x : 0 <= x < 2 ^ 32 -> lt754 (Zero false) (decode754 8 23 x) = true ->
  decode754 8 23 sf32_min = Num false (2 ^ 23) (1 - bias 8 - 23) /\ decode754 8 23 sf32_infinity = Inf false /\
  decode754 8 23 sf32_round_error = Num false (2 ^ 23) (- 1 - 23) /\
  lt754 (Zero false) (decode754 8 23 sf32_denorm_min) = true /\ le754 (decode754 8 23 sf32_denorm_min) (decode754 8 23 x) = true.
Proof. exact (fun Hx H => conj sf32_min_ok (conj sf32_infinity_ok (conj sf32_round_error_ok (sf32_denorm_min_ok x Hx H)))). Qed.
Print Assumptions C62_limits_partial.
Example C62_limits_ex : 0 <= 5 < 2 ^ 32 /\ lt754 (Zero false) (decode754 8 23 5) = true.
Proof. split; [lia|reflexivity]. Qed.

(** max is not the largest finite number, lowest not the least, epsilon is not the step above one (it is one plus the step), and quiet_NaN is a signalling NaN. *)
Theorem C62_limits_refuted : (exists x, 0 <= x < 2 ^ 32 /\ finite_v (decode754 8 23 x) /\ lt754 (decode754 8 23 sf32_max) (decode754 8 23 x) = true) /\
  (exists x, 0 <= x < 2 ^ 32 /\ finite_v (decode754 8 23 x) /\ lt754 (decode754 8 23 x) (decode754 8 23 sf32_lowest) = true) /\
  decode754 8 23 sf32_epsilon = Num false (2 ^ 23 + 1) (- 23) /\
  decode754 8 23 sf32_quiet_NaN = NaN /\ Z.testbit sf32_quiet_NaN 22 = false.
Proof. split; [exists 0x7F7FFFFF; split; [lia|split; [exact I|reflexivity]]|]. split; [exists 0xFF7FFFFF; split; [lia|split; [exact I|reflexivity]]|]. repeat split; reflexivity. Qed.
Print Assumptions C62_limits_refuted.

