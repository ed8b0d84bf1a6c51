(** C88: the same operations against Flocq's roundings (rnd_of, rounded754m, SpecFlocq754Mode.v) of the real sum, product and
    quotient. rv is the real value of a decoded word. These theorems depend on the axioms of the standard library's real
    numbers, and on no others. *)
From Coq Require Import ZArith Bool Lia Reals.
From Flocq Require Import Core.
From Verif Require Import Spec Spec754 Spec754Mode SpecFlocq SpecReal SpecFlocq754 SpecFlocq754Mode SoftFloatMode SpecSfMode SfmProofs4.
Open Scope Z_scope.

(** The binary32 sum. *)
Theorem C88_f32_add_real md odd U a b : supported md odd -> 32 <= U -> 0 <= a < 2 ^ 32 -> 0 <= b < 2 ^ 32 ->
  finite_v (decode754 8 23 a) -> finite_v (decode754 8 23 b) ->
  exists r, f32_addM (enum_of md) odd U a b = Some r /\ 0 <= r < 2 ^ 32 /\
    rounded754m md 8 23 (rv (decode754 8 23 a) + rv (decode754 8 23 b)) (decode754 8 23 r).
Proof.
  intros HS HU Ha Hb Fa Fb. destruct (f32_addM_ok md odd U a b HS HU Ha Hb) as (r & R1 & R2 & R3). exists r. split; [exact R1|]. split; [exact R2|]. rewrite R3.
  apply add754m_real; try apply decode754_number; (assumption || lia).
Qed.
Print Assumptions C88_f32_add_real.
Example C88_f32_add_real_ex : finite_v (decode754 8 23 0x3F800000) /\ finite_v (decode754 8 23 0x33800000) /\
  f32_addM (enum_of Max) true 32 0x3F800000 0x33800000 = Some 0x3F800001.
Proof. split; [exact I|]. split; [exact I|]. vm_compute. reflexivity. Qed.

(** The binary32 product. *)
Theorem C88_f32_mul_real md odd U a b : supported md odd -> 32 <= U -> 0 <= a < 2 ^ 32 -> 0 <= b < 2 ^ 32 ->
  finite_v (decode754 8 23 a) -> finite_v (decode754 8 23 b) ->
  exists r, f32_mulM (enum_of md) odd U a b = Some r /\ 0 <= r < 2 ^ 32 /\
    rounded754m md 8 23 (rv (decode754 8 23 a) * rv (decode754 8 23 b)) (decode754 8 23 r).
Proof.
  intros HS HU Ha Hb Fa Fb. destruct (f32_mulM_ok md odd U a b HS HU Ha Hb) as (r & R1 & R2 & R3). exists r. split; [exact R1|]. split; [exact R2|]. rewrite R3.
  apply mul754m_real; try apply decode754_number; (assumption || lia).
Qed.
Print Assumptions C88_f32_mul_real.
Example C88_f32_mul_real_ex : finite_v (decode754 8 23 0x7F7FFFFF) /\ finite_v (decode754 8 23 0xFF7FFFFF) /\
  f32_mulM (enum_of MinMag) true 32 0x7F7FFFFF 0xFF7FFFFF = Some 0xFF7FFFFF.
Proof. split; [exact I|]. split; [exact I|]. vm_compute. reflexivity. Qed.

(** The binary32 quotient. *)
Theorem C88_f32_div_real md odd U a b : supported md odd -> 32 <= U -> 0 <= a < 2 ^ 32 -> 0 <= b < 2 ^ 32 ->
  finite_v (decode754 8 23 a) -> finite_v (decode754 8 23 b) -> rv (decode754 8 23 b) <> 0%R ->
  exists r, f32_divM (enum_of md) odd U a b = Some r /\ 0 <= r < 2 ^ 32 /\
    rounded754m md 8 23 (rv (decode754 8 23 a) / rv (decode754 8 23 b)) (decode754 8 23 r).
Proof.
  intros HS HU Ha Hb Fa Fb N. destruct (f32_divM_ok md odd U a b HS HU Ha Hb) as (r & R1 & R2 & R3). exists r. split; [exact R1|]. split; [exact R2|]. rewrite R3.
  apply div754m_real; try apply decode754_number; (assumption || lia).
Qed.
Print Assumptions C88_f32_div_real.
Example C88_f32_div_real_ex : finite_v (decode754 8 23 0x3F800000) /\ rv (decode754 8 23 0x40400000) <> 0%R /\
  f32_divM (enum_of Min) true 32 0x3F800000 0x40400000 = Some 0x3EAAAAAA.
Proof.
  split; [exact I|]. split; [|vm_compute; reflexivity]. change (decode754 8 23 0x40400000) with (Num false 0xC00000 (-22)).
  cbn [rv]. apply Rgt_not_eq, Rmult_gt_0_compat; [apply IZR_lt; lia|apply bpow_gt_0].
Qed.

(** The binary64 sum. *)
Theorem C88_f64_add_real md odd a b : supported md odd -> 0 <= a < 2 ^ 64 -> 0 <= b < 2 ^ 64 ->
  finite_v (decode754 11 52 a) -> finite_v (decode754 11 52 b) ->
  exists r, f64_addM (enum_of md) odd a b = Some r /\ 0 <= r < 2 ^ 64 /\
    rounded754m md 11 52 (rv (decode754 11 52 a) + rv (decode754 11 52 b)) (decode754 11 52 r).
Proof.
  intros HS Ha Hb Fa Fb. destruct (f64_addM_ok md odd a b HS Ha Hb) as (r & R1 & R2 & R3). exists r. split; [exact R1|]. split; [exact R2|]. rewrite R3.
  apply add754m_real; try apply decode754_number; (assumption || lia).
Qed.
Print Assumptions C88_f64_add_real.
Example C88_f64_add_real_ex : finite_v (decode754 11 52 0x3FF0000000000000) /\ finite_v (decode754 11 52 0x3CA0000000000000) /\
  f64_addM (enum_of NearMaxMag) true 0x3FF0000000000000 0x3CA0000000000000 = Some 0x3FF0000000000001.
Proof. split; [exact I|]. split; [exact I|]. vm_compute. reflexivity. Qed.

(** The binary64 product. *)
Theorem C88_f64_mul_real md odd a b : supported md odd -> 0 <= a < 2 ^ 64 -> 0 <= b < 2 ^ 64 ->
  finite_v (decode754 11 52 a) -> finite_v (decode754 11 52 b) ->
  exists r, f64_mulM (enum_of md) odd a b = Some r /\ 0 <= r < 2 ^ 64 /\
    rounded754m md 11 52 (rv (decode754 11 52 a) * rv (decode754 11 52 b)) (decode754 11 52 r).
Proof.
  intros HS Ha Hb Fa Fb. destruct (f64_mulM_ok md odd a b HS Ha Hb) as (r & R1 & R2 & R3). exists r. split; [exact R1|]. split; [exact R2|]. rewrite R3.
  apply mul754m_real; try apply decode754_number; (assumption || lia).
Qed.
Print Assumptions C88_f64_mul_real.
Example C88_f64_mul_real_ex : finite_v (decode754 11 52 0x3FF0000000000001) /\ finite_v (decode754 11 52 0x3FF0000000000001) /\
  f64_mulM (enum_of Odd) true 0x3FF0000000000001 0x3FF0000000000001 = Some 0x3FF0000000000003.
Proof. split; [exact I|]. split; [exact I|]. vm_compute. reflexivity. Qed.

(** The binary64 quotient. *)
Theorem C88_f64_div_real md odd a b : supported md odd -> 0 <= a < 2 ^ 64 -> 0 <= b < 2 ^ 64 ->
  finite_v (decode754 11 52 a) -> finite_v (decode754 11 52 b) -> rv (decode754 11 52 b) <> 0%R ->
  exists r, f64_divM (enum_of md) odd a b = Some r /\ 0 <= r < 2 ^ 64 /\
    rounded754m md 11 52 (rv (decode754 11 52 a) / rv (decode754 11 52 b)) (decode754 11 52 r).
Proof.
  intros HS Ha Hb Fa Fb N. destruct (f64_divM_ok md odd a b HS Ha Hb) as (r & R1 & R2 & R3). exists r. split; [exact R1|]. split; [exact R2|]. rewrite R3.
  apply div754m_real; try apply decode754_number; (assumption || lia).
Qed.
Print Assumptions C88_f64_div_real.
Example C88_f64_div_real_ex : finite_v (decode754 11 52 0xBFF0000000000000) /\ rv (decode754 11 52 0x4008000000000000) <> 0%R /\
  f64_divM (enum_of Min) true 0xBFF0000000000000 0x4008000000000000 = Some 0xBFD5555555555556.
Proof.
  split; [exact I|]. split; [|vm_compute; reflexivity]. change (decode754 11 52 0x4008000000000000) with (Num false 0x18000000000000 (-51)).
  cbn [rv]. apply Rgt_not_eq, Rmult_gt_0_compat; [apply IZR_lt; lia|apply bpow_gt_0].
Qed.

