(** C88: the SoftFloat operations under each of the six rounding modes of softfloat.h:74-81, for every pair of words. decode754
    is the value of a word (Spec754.v); add754m, mul754m, div754m are the exact result rounded once in the given direction
    (Spec754Mode.v); enum_of gives the enumerator that asks for a direction, and supported says that "odd" needs the macro
    SOFTFLOAT_ROUND_ODD (SpecSfMode.v). U is the width of uint_fast32_t. *)
From Coq Require Import ZArith Bool Lia.
From Verif Require Import Spec Spec754 Spec754Mode SoftFloat SoftFloatMode SpecSfMode SfmProofs4.
Open Scope Z_scope.

(** binary32 sums. *)
Theorem C88_f32_add md odd U a b : supported md odd -> 32 <= U -> 0 <= a < 2 ^ 32 -> 0 <= b < 2 ^ 32 ->
  exists r, f32_addM (enum_of md) odd U a b = Some r /\ 0 <= r < 2 ^ 32 /\
    decode754 8 23 r = add754m md 8 23 (decode754 8 23 a) (decode754 8 23 b).
Proof. exact (f32_addM_ok md odd U a b). Qed.
Print Assumptions C88_f32_add.
(** -1 - 2^-24, halfway between two numbers; 1 - 1, whose zero is negative only when rounding down. *)
Example C88_f32_add_ex :
  f32_addM (enum_of NearEven) true 32 0xBF800000 0xB3800000 = Some 0xBF800000 /\
  f32_addM (enum_of MinMag) true 32 0xBF800000 0xB3800000 = Some 0xBF800000 /\
  f32_addM (enum_of Min) true 32 0xBF800000 0xB3800000 = Some 0xBF800001 /\
  f32_addM (enum_of Max) true 32 0xBF800000 0xB3800000 = Some 0xBF800000 /\
  f32_addM (enum_of NearMaxMag) true 32 0xBF800000 0xB3800000 = Some 0xBF800001 /\
  f32_addM (enum_of Odd) true 32 0xBF800000 0xB3800000 = Some 0xBF800001 /\
  f32_addM (enum_of NearEven) true 32 0x3F800000 0xBF800000 = Some 0 /\
  f32_addM (enum_of MinMag) true 32 0x3F800000 0xBF800000 = Some 0 /\
  f32_addM (enum_of Min) true 32 0x3F800000 0xBF800000 = Some 0x80000000 /\
  f32_addM (enum_of Max) true 32 0x3F800000 0xBF800000 = Some 0 /\
  f32_addM (enum_of NearMaxMag) true 32 0x3F800000 0xBF800000 = Some 0 /\
  f32_addM (enum_of Odd) true 32 0x3F800000 0xBF800000 = Some 0.
Proof. vm_compute. repeat split. Qed.

(** binary64 sums. *)
Theorem C88_f64_add md odd a b : supported md odd -> 0 <= a < 2 ^ 64 -> 0 <= b < 2 ^ 64 ->
  exists r, f64_addM (enum_of md) odd a b = Some r /\ 0 <= r < 2 ^ 64 /\
    decode754 11 52 r = add754m md 11 52 (decode754 11 52 a) (decode754 11 52 b).
Proof. exact (f64_addM_ok md odd a b). Qed.
Print Assumptions C88_f64_add.
(** 1 + 2^-53. *)
Example C88_f64_add_ex :
  f64_addM (enum_of NearEven) true 0x3FF0000000000000 0x3CA0000000000000 = Some 0x3FF0000000000000 /\
  f64_addM (enum_of MinMag) true 0x3FF0000000000000 0x3CA0000000000000 = Some 0x3FF0000000000000 /\
  f64_addM (enum_of Min) true 0x3FF0000000000000 0x3CA0000000000000 = Some 0x3FF0000000000000 /\
  f64_addM (enum_of Max) true 0x3FF0000000000000 0x3CA0000000000000 = Some 0x3FF0000000000001 /\
  f64_addM (enum_of NearMaxMag) true 0x3FF0000000000000 0x3CA0000000000000 = Some 0x3FF0000000000001 /\
  f64_addM (enum_of Odd) true 0x3FF0000000000000 0x3CA0000000000000 = Some 0x3FF0000000000001.
Proof. vm_compute. repeat split. Qed.

(** binary32 products. *)
Theorem C88_f32_mul md odd U a b : supported md odd -> 32 <= U -> 0 <= a < 2 ^ 32 -> 0 <= b < 2 ^ 32 ->
  exists r, f32_mulM (enum_of md) odd U a b = Some r /\ 0 <= r < 2 ^ 32 /\
    decode754 8 23 r = mul754m md 8 23 (decode754 8 23 a) (decode754 8 23 b).
Proof. exact (f32_mulM_ok md odd U a b). Qed.
Print Assumptions C88_f32_mul.
(** Minus the square of the largest number, which overflows; half the smallest subnormal number. *)
Example C88_f32_mul_ex :
  f32_mulM (enum_of NearEven) true 32 0x7F7FFFFF 0xFF7FFFFF = Some 0xFF800000 /\
  f32_mulM (enum_of MinMag) true 32 0x7F7FFFFF 0xFF7FFFFF = Some 0xFF7FFFFF /\
  f32_mulM (enum_of Min) true 32 0x7F7FFFFF 0xFF7FFFFF = Some 0xFF800000 /\
  f32_mulM (enum_of Max) true 32 0x7F7FFFFF 0xFF7FFFFF = Some 0xFF7FFFFF /\
  f32_mulM (enum_of NearMaxMag) true 32 0x7F7FFFFF 0xFF7FFFFF = Some 0xFF800000 /\
  f32_mulM (enum_of Odd) true 32 0x7F7FFFFF 0xFF7FFFFF = Some 0xFF7FFFFF /\
  f32_mulM (enum_of NearEven) true 32 1 0x3F000000 = Some 0 /\
  f32_mulM (enum_of MinMag) true 32 1 0x3F000000 = Some 0 /\
  f32_mulM (enum_of Min) true 32 1 0x3F000000 = Some 0 /\
  f32_mulM (enum_of Max) true 32 1 0x3F000000 = Some 1 /\
  f32_mulM (enum_of NearMaxMag) true 32 1 0x3F000000 = Some 1 /\
  f32_mulM (enum_of Odd) true 32 1 0x3F000000 = Some 1.
Proof. vm_compute. repeat split. Qed.

(** binary64 products. *)
Theorem C88_f64_mul md odd a b : supported md odd -> 0 <= a < 2 ^ 64 -> 0 <= b < 2 ^ 64 ->
  exists r, f64_mulM (enum_of md) odd a b = Some r /\ 0 <= r < 2 ^ 64 /\
    decode754 11 52 r = mul754m md 11 52 (decode754 11 52 a) (decode754 11 52 b).
Proof. exact (f64_mulM_ok md odd a b). Qed.
Print Assumptions C88_f64_mul.
(** The square of 1 + 2^-52. *)
Example C88_f64_mul_ex :
  f64_mulM (enum_of NearEven) true 0x3FF0000000000001 0x3FF0000000000001 = Some 0x3FF0000000000002 /\
  f64_mulM (enum_of MinMag) true 0x3FF0000000000001 0x3FF0000000000001 = Some 0x3FF0000000000002 /\
  f64_mulM (enum_of Min) true 0x3FF0000000000001 0x3FF0000000000001 = Some 0x3FF0000000000002 /\
  f64_mulM (enum_of Max) true 0x3FF0000000000001 0x3FF0000000000001 = Some 0x3FF0000000000003 /\
  f64_mulM (enum_of NearMaxMag) true 0x3FF0000000000001 0x3FF0000000000001 = Some 0x3FF0000000000002 /\
  f64_mulM (enum_of Odd) true 0x3FF0000000000001 0x3FF0000000000001 = Some 0x3FF0000000000003.
Proof. vm_compute. repeat split. Qed.

(** binary32 quotients. *)
Theorem C88_f32_div md odd U a b : supported md odd -> 32 <= U -> 0 <= a < 2 ^ 32 -> 0 <= b < 2 ^ 32 ->
  exists r, f32_divM (enum_of md) odd U a b = Some r /\ 0 <= r < 2 ^ 32 /\
    decode754 8 23 r = div754m md 8 23 (decode754 8 23 a) (decode754 8 23 b).
Proof. exact (f32_divM_ok md odd U a b). Qed.
Print Assumptions C88_f32_div.
(** 1/3. *)
Example C88_f32_div_ex :
  f32_divM (enum_of NearEven) true 32 0x3F800000 0x40400000 = Some 0x3EAAAAAB /\
  f32_divM (enum_of MinMag) true 32 0x3F800000 0x40400000 = Some 0x3EAAAAAA /\
  f32_divM (enum_of Min) true 32 0x3F800000 0x40400000 = Some 0x3EAAAAAA /\
  f32_divM (enum_of Max) true 32 0x3F800000 0x40400000 = Some 0x3EAAAAAB /\
  f32_divM (enum_of NearMaxMag) true 32 0x3F800000 0x40400000 = Some 0x3EAAAAAB /\
  f32_divM (enum_of Odd) true 32 0x3F800000 0x40400000 = Some 0x3EAAAAAB.
Proof. vm_compute. repeat split. Qed.

(** binary64 quotients. *)
Theorem C88_f64_div md odd a b : supported md odd -> 0 <= a < 2 ^ 64 -> 0 <= b < 2 ^ 64 ->
  exists r, f64_divM (enum_of md) odd a b = Some r /\ 0 <= r < 2 ^ 64 /\
    decode754 11 52 r = div754m md 11 52 (decode754 11 52 a) (decode754 11 52 b).
Proof. exact (f64_divM_ok md odd a b). Qed.
Print Assumptions C88_f64_div.
(** -1/3. *)
Example C88_f64_div_ex :
  f64_divM (enum_of NearEven) true 0xBFF0000000000000 0x4008000000000000 = Some 0xBFD5555555555555 /\
  f64_divM (enum_of MinMag) true 0xBFF0000000000000 0x4008000000000000 = Some 0xBFD5555555555555 /\
  f64_divM (enum_of Min) true 0xBFF0000000000000 0x4008000000000000 = Some 0xBFD5555555555556 /\
  f64_divM (enum_of Max) true 0xBFF0000000000000 0x4008000000000000 = Some 0xBFD5555555555555 /\
  f64_divM (enum_of NearMaxMag) true 0xBFF0000000000000 0x4008000000000000 = Some 0xBFD5555555555555 /\
  f64_divM (enum_of Odd) true 0xBFF0000000000000 0x4008000000000000 = Some 0xBFD5555555555555.
Proof. vm_compute. repeat split. Qed.

(** In the mode the library is delivered in (softfloat_state.c:40-41) these are the functions of C58, C59 and C60, word for word. *)
Theorem C88_delivered odd U a b : 32 <= U ->
  f32_addM softfloat_round_near_even odd U a b = f32_add U a b /\
  f32_mulM softfloat_round_near_even odd U a b = f32_mul U a b /\
  f32_divM softfloat_round_near_even odd U a b = f32_div U a b /\
  f64_addM softfloat_round_near_even odd a b = f64_add a b /\
  f64_mulM softfloat_round_near_even odd a b = f64_mul a b /\
  f64_divM softfloat_round_near_even odd a b = f64_div a b.
Proof. exact (delivered_ok odd U a b). Qed.
Print Assumptions C88_delivered.
Example C88_delivered_ex : f32_addM softfloat_round_near_even false 64 0x40490FDB 0x3F800000 = f32_add 64 0x40490FDB 0x3F800000 /\
  f32_add 64 0x40490FDB 0x3F800000 = Some 0x408487EE.
Proof. vm_compute. auto. Qed.

(** Without SOFTFLOAT_ROUND_ODD, which the repository never defines, the mode "odd" is accepted and truncates. *)
Theorem C88_odd_without_macro U a b :
  f32_addM softfloat_round_odd false U a b = f32_addM softfloat_round_minMag false U a b /\
  f32_mulM softfloat_round_odd false U a b = f32_mulM softfloat_round_minMag false U a b /\
  f32_divM softfloat_round_odd false U a b = f32_divM softfloat_round_minMag false U a b.
Proof. exact (odd_without_macro_ok U a b). Qed.
Print Assumptions C88_odd_without_macro.
Example C88_odd_without_macro_ex : f32_addM softfloat_round_odd false 32 0x3F800000 0x33800000 = Some 0x3F800000.
Proof. vm_compute. reflexivity. Qed.

(** So the hypothesis supported cannot be dropped. *)
Theorem C88_odd_refuted : ~ (forall odd U a b, 32 <= U -> 0 <= a < 2 ^ 32 -> 0 <= b < 2 ^ 32 ->
  exists r, f32_addM softfloat_round_odd odd U a b = Some r /\ decode754 8 23 r = add754m Odd 8 23 (decode754 8 23 a) (decode754 8 23 b)).
Proof. exact odd_refuted. Qed.
Print Assumptions C88_odd_refuted.
