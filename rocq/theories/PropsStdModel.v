(** C95: the standard model of floating-point arithmetic. Unless overflow is requested, the word a SoftFloat operation returns for
    numbers is a number; unless underflow is requested too, its relative error is at most the unit roundoff of the rounding mode,
    and if it is, its absolute error is at most that fraction of the least normal number. With overflow the
    result is what the mode prescribes. unit_roundoff and standard_model are in
    SpecStdModel.v. These theorems depend on the axioms of the standard library's real numbers, and on no others. *)
From Coq Require Import ZArith Bool Lia Reals Lra.
From Flocq Require Import Core.
From Verif Require Import Spec Spec754 Spec754Mode SpecFlocq SpecFlocq754Mode SoftFloat SoftFloatMode SpecSfMode SoftFloatFlags SpecFlags SoftFloatFlagsMode SpecFlagsMode SpecStdModel StdModel PropsSfModeReal PropsFlagsMode Inst InstR.
Open Scope Z_scope.

(** The binary32 sum. *)
Theorem C95_f32_add md odd U a b : supported md odd -> 32 <= U -> 0 <= a < 2 ^ 32 -> 0 <= b < 2 ^ 32 -> finite 8 23 a -> finite 8 23 b ->
  exists r fl, f32_addFM (enum_of md) odd U a b = Some (r, fl) /\ standard_model md 8 23 (value 8 23 a + value 8 23 b) r fl.
Proof.
  intros HS HU Ha Hb FA FB. destruct (C94_f32_add md odd U a b HU Ha Hb) as (r & fl & Q & Q2 & S).
  destruct (C88_f32_add_real md odd U a b HS HU Ha Hb FA FB) as (r' & Q3 & _ & R). rewrite Q2 in Q3. injection Q3 as <-.
  exists r, fl. split; [exact Q|]. eapply std_model; [lia|lia| |exact S|exact R]. split; assumption.
Qed.
Print Assumptions C95_f32_add.
Example C95_f32_add_at := C95_f32_add NearEven true 32 0x3F800000 0x33800001 ltac:(hyp) ltac:(hyp) ltac:(hyp) ltac:(hyp) ltac:(hyp) ltac:(hyp).

(** The binary32 product. *)
Theorem C95_f32_mul md odd U a b : supported md odd -> 32 <= U -> 0 <= a < 2 ^ 32 -> 0 <= b < 2 ^ 32 -> finite 8 23 a -> finite 8 23 b ->
  exists r fl, f32_mulFM (enum_of md) odd U a b = Some (r, fl) /\ standard_model md 8 23 (value 8 23 a * value 8 23 b) r fl.
Proof.
  intros HS HU Ha Hb FA FB. destruct (C94_f32_mul md odd U a b HU Ha Hb) as (r & fl & Q & Q2 & S).
  destruct (C88_f32_mul_real md odd U a b HS HU Ha Hb FA FB) as (r' & Q3 & _ & R). rewrite Q2 in Q3. injection Q3 as <-.
  exists r, fl. split; [exact Q|]. eapply std_model; [lia|lia| |exact S|exact R]. split; assumption.
Qed.
Print Assumptions C95_f32_mul.
Example C95_f32_mul_at := C95_f32_mul Max true 32 0x00800001 0x3F7FFFFE ltac:(hyp) ltac:(hyp) ltac:(hyp) ltac:(hyp) ltac:(hyp) ltac:(hyp).

(** The binary32 quotient. *)
Theorem C95_f32_div md odd U a b : supported md odd -> 32 <= U -> 0 <= a < 2 ^ 32 -> 0 <= b < 2 ^ 32 -> finite 8 23 a -> finite 8 23 b -> value 8 23 b <> 0%R ->
  exists r fl, f32_divFM (enum_of md) odd U a b = Some (r, fl) /\ standard_model md 8 23 (value 8 23 a / value 8 23 b) r fl.
Proof.
  intros HS HU Ha Hb FA FB NZ. destruct (C94_f32_div md odd U a b HU Ha Hb) as (r & fl & Q & Q2 & S).
  destruct (C88_f32_div_real md odd U a b HS HU Ha Hb FA FB NZ) as (r' & Q3 & _ & R). rewrite Q2 in Q3. injection Q3 as <-.
  exists r, fl. split; [exact Q|]. eapply std_model; [lia|lia| |exact S|exact R]. split; [exact FA|]. split; assumption.
Qed.
Print Assumptions C95_f32_div.
Example C95_f32_div_at := C95_f32_div Odd true 32 0x3F800000 0x40400000 ltac:(hyp) ltac:(hyp) ltac:(hyp) ltac:(hyp) ltac:(hyp) ltac:(hyp) ltac:(unfold value; hypr).

(** The binary64 sum. *)
Theorem C95_f64_add md odd a b : supported md odd -> 0 <= a < 2 ^ 64 -> 0 <= b < 2 ^ 64 -> finite 11 52 a -> finite 11 52 b ->
  exists r fl, f64_addFM (enum_of md) odd a b = Some (r, fl) /\ standard_model md 11 52 (value 11 52 a + value 11 52 b) r fl.
Proof.
  intros HS Ha Hb FA FB. destruct (C94_f64_add md odd a b Ha Hb) as (r & fl & Q & Q2 & S).
  destruct (C88_f64_add_real md odd a b HS Ha Hb FA FB) as (r' & Q3 & _ & R). rewrite Q2 in Q3. injection Q3 as <-.
  exists r, fl. split; [exact Q|]. eapply std_model; [lia|lia| |exact S|exact R]. split; assumption.
Qed.
Print Assumptions C95_f64_add.
Example C95_f64_add_at := C95_f64_add MinMag true 0x3FF0000000000000 0x3CA0000000000001 ltac:(hyp) ltac:(hyp) ltac:(hyp) ltac:(hyp) ltac:(hyp).

(** The binary64 product. *)
Theorem C95_f64_mul md odd a b : supported md odd -> 0 <= a < 2 ^ 64 -> 0 <= b < 2 ^ 64 -> finite 11 52 a -> finite 11 52 b ->
  exists r fl, f64_mulFM (enum_of md) odd a b = Some (r, fl) /\ standard_model md 11 52 (value 11 52 a * value 11 52 b) r fl.
Proof.
  intros HS Ha Hb FA FB. destruct (C94_f64_mul md odd a b Ha Hb) as (r & fl & Q & Q2 & S).
  destruct (C88_f64_mul_real md odd a b HS Ha Hb FA FB) as (r' & Q3 & _ & R). rewrite Q2 in Q3. injection Q3 as <-.
  exists r, fl. split; [exact Q|]. eapply std_model; [lia|lia| |exact S|exact R]. split; assumption.
Qed.
Print Assumptions C95_f64_mul.
Example C95_f64_mul_at := C95_f64_mul Min true 0x0000000000000003 0x3FE0000000000000 ltac:(hyp) ltac:(hyp) ltac:(hyp) ltac:(hyp) ltac:(hyp).

(** The binary64 quotient. *)
Theorem C95_f64_div md odd a b : supported md odd -> 0 <= a < 2 ^ 64 -> 0 <= b < 2 ^ 64 -> finite 11 52 a -> finite 11 52 b -> value 11 52 b <> 0%R ->
  exists r fl, f64_divFM (enum_of md) odd a b = Some (r, fl) /\ standard_model md 11 52 (value 11 52 a / value 11 52 b) r fl.
Proof.
  intros HS Ha Hb FA FB NZ. destruct (C94_f64_div md odd a b Ha Hb) as (r & fl & Q & Q2 & S).
  destruct (C88_f64_div_real md odd a b HS Ha Hb FA FB NZ) as (r' & Q3 & _ & R). rewrite Q2 in Q3. injection Q3 as <-.
  exists r, fl. split; [exact Q|]. eapply std_model; [lia|lia| |exact S|exact R]. split; [exact FA|]. split; assumption.
Qed.
Print Assumptions C95_f64_div.
Example C95_f64_div_at := C95_f64_div NearMaxMag true 0x3FF0000000000000 0x4008000000000000 ltac:(hyp) ltac:(hyp) ltac:(hyp) ltac:(hyp) ltac:(hyp) ltac:(unfold value; hypr).

(** With overflow the binary32 sum is the infinity or largest number the mode asks for, with the sign of the exact one. *)
Theorem C95_f32_add_overflow md odd U a b r fl : supported md odd -> 32 <= U -> 0 <= a < 2 ^ 32 -> 0 <= b < 2 ^ 32 -> finite 8 23 a -> finite 8 23 b ->
  f32_addFM (enum_of md) odd U a b = Some (r, fl) -> raised fl softfloat_flag_overflow ->
  (0 < value 8 23 a + value 8 23 b)%R /\ decode754 8 23 r = overflow754 md 8 23 false \/ (value 8 23 a + value 8 23 b < 0)%R /\ decode754 8 23 r = overflow754 md 8 23 true.
Proof.
  intros HS HU Ha Hb FA FB Q0. destruct (C94_f32_add md odd U a b HU Ha Hb) as (r1 & fl1 & Q & Q2 & S). rewrite Q0 in Q. injection Q as <- <-.
  destruct (C88_f32_add_real md odd U a b HS HU Ha Hb FA FB) as (r' & Q3 & _ & R). rewrite Q2 in Q3. injection Q3 as <-.
  eapply std_overflow; [lia|lia|exact S|exact R].
Qed.
Print Assumptions C95_f32_add_overflow.
Example C95_f32_add_overflow_at := C95_f32_add_overflow Min true 32 0x7F7FFFFF 0x7F7FFFFF 0x7F7FFFFF 5 ltac:(hyp) ltac:(hyp) ltac:(hyp) ltac:(hyp) ltac:(hyp) ltac:(hyp) ltac:(vm_compute; reflexivity) ltac:(vm_compute; discriminate).

(** With overflow the binary32 product is the infinity or largest number the mode asks for, with the sign of the exact one. *)
Theorem C95_f32_mul_overflow md odd U a b r fl : supported md odd -> 32 <= U -> 0 <= a < 2 ^ 32 -> 0 <= b < 2 ^ 32 -> finite 8 23 a -> finite 8 23 b ->
  f32_mulFM (enum_of md) odd U a b = Some (r, fl) -> raised fl softfloat_flag_overflow ->
  (0 < value 8 23 a * value 8 23 b)%R /\ decode754 8 23 r = overflow754 md 8 23 false \/ (value 8 23 a * value 8 23 b < 0)%R /\ decode754 8 23 r = overflow754 md 8 23 true.
Proof.
  intros HS HU Ha Hb FA FB Q0. destruct (C94_f32_mul md odd U a b HU Ha Hb) as (r1 & fl1 & Q & Q2 & S). rewrite Q0 in Q. injection Q as <- <-.
  destruct (C88_f32_mul_real md odd U a b HS HU Ha Hb FA FB) as (r' & Q3 & _ & R). rewrite Q2 in Q3. injection Q3 as <-.
  eapply std_overflow; [lia|lia|exact S|exact R].
Qed.
Print Assumptions C95_f32_mul_overflow.
Example C95_f32_mul_overflow_at := C95_f32_mul_overflow Max true 32 0xFF7FFFFF 0x40000000 0xFF7FFFFF 5 ltac:(hyp) ltac:(hyp) ltac:(hyp) ltac:(hyp) ltac:(hyp) ltac:(hyp) ltac:(vm_compute; reflexivity) ltac:(vm_compute; discriminate).

(** With overflow the binary32 quotient is the infinity or largest number the mode asks for, with the sign of the exact one. *)
Theorem C95_f32_div_overflow md odd U a b r fl : supported md odd -> 32 <= U -> 0 <= a < 2 ^ 32 -> 0 <= b < 2 ^ 32 -> finite 8 23 a -> finite 8 23 b -> value 8 23 b <> 0%R ->
  f32_divFM (enum_of md) odd U a b = Some (r, fl) -> raised fl softfloat_flag_overflow ->
  (0 < value 8 23 a / value 8 23 b)%R /\ decode754 8 23 r = overflow754 md 8 23 false \/ (value 8 23 a / value 8 23 b < 0)%R /\ decode754 8 23 r = overflow754 md 8 23 true.
Proof.
  intros HS HU Ha Hb FA FB NZ Q0. destruct (C94_f32_div md odd U a b HU Ha Hb) as (r1 & fl1 & Q & Q2 & S). rewrite Q0 in Q. injection Q as <- <-.
  destruct (C88_f32_div_real md odd U a b HS HU Ha Hb FA FB NZ) as (r' & Q3 & _ & R). rewrite Q2 in Q3. injection Q3 as <-.
  eapply std_overflow; [lia|lia|exact S|exact R].
Qed.
Print Assumptions C95_f32_div_overflow.
Example C95_f32_div_overflow_at := C95_f32_div_overflow NearMaxMag true 32 0xFF7FFFFF 0x3F000000 0xFF800000 5 ltac:(hyp) ltac:(hyp) ltac:(hyp) ltac:(hyp) ltac:(hyp) ltac:(hyp) ltac:(unfold value; hypr) ltac:(vm_compute; reflexivity) ltac:(vm_compute; discriminate).

(** With overflow the binary64 sum is the infinity or largest number the mode asks for, with the sign of the exact one. *)
Theorem C95_f64_add_overflow md odd a b r fl : supported md odd -> 0 <= a < 2 ^ 64 -> 0 <= b < 2 ^ 64 -> finite 11 52 a -> finite 11 52 b ->
  f64_addFM (enum_of md) odd a b = Some (r, fl) -> raised fl softfloat_flag_overflow ->
  (0 < value 11 52 a + value 11 52 b)%R /\ decode754 11 52 r = overflow754 md 11 52 false \/ (value 11 52 a + value 11 52 b < 0)%R /\ decode754 11 52 r = overflow754 md 11 52 true.
Proof.
  intros HS Ha Hb FA FB Q0. destruct (C94_f64_add md odd a b Ha Hb) as (r1 & fl1 & Q & Q2 & S). rewrite Q0 in Q. injection Q as <- <-.
  destruct (C88_f64_add_real md odd a b HS Ha Hb FA FB) as (r' & Q3 & _ & R). rewrite Q2 in Q3. injection Q3 as <-.
  eapply std_overflow; [lia|lia|exact S|exact R].
Qed.
Print Assumptions C95_f64_add_overflow.
Example C95_f64_add_overflow_at := C95_f64_add_overflow MinMag true 0xFFEFFFFFFFFFFFFF 0xFFEFFFFFFFFFFFFF 0xFFEFFFFFFFFFFFFF 5 ltac:(hyp) ltac:(hyp) ltac:(hyp) ltac:(hyp) ltac:(hyp) ltac:(vm_compute; reflexivity) ltac:(vm_compute; discriminate).

(** With overflow the binary64 product is the infinity or largest number the mode asks for, with the sign of the exact one. *)
Theorem C95_f64_mul_overflow md odd a b r fl : supported md odd -> 0 <= a < 2 ^ 64 -> 0 <= b < 2 ^ 64 -> finite 11 52 a -> finite 11 52 b ->
  f64_mulFM (enum_of md) odd a b = Some (r, fl) -> raised fl softfloat_flag_overflow ->
  (0 < value 11 52 a * value 11 52 b)%R /\ decode754 11 52 r = overflow754 md 11 52 false \/ (value 11 52 a * value 11 52 b < 0)%R /\ decode754 11 52 r = overflow754 md 11 52 true.
Proof.
  intros HS Ha Hb FA FB Q0. destruct (C94_f64_mul md odd a b Ha Hb) as (r1 & fl1 & Q & Q2 & S). rewrite Q0 in Q. injection Q as <- <-.
  destruct (C88_f64_mul_real md odd a b HS Ha Hb FA FB) as (r' & Q3 & _ & R). rewrite Q2 in Q3. injection Q3 as <-.
  eapply std_overflow; [lia|lia|exact S|exact R].
Qed.
Print Assumptions C95_f64_mul_overflow.
Example C95_f64_mul_overflow_at := C95_f64_mul_overflow Max true 0x7FEFFFFFFFFFFFFF 0x4000000000000000 0x7FF0000000000000 5 ltac:(hyp) ltac:(hyp) ltac:(hyp) ltac:(hyp) ltac:(hyp) ltac:(vm_compute; reflexivity) ltac:(vm_compute; discriminate).

(** With overflow the binary64 quotient is the infinity or largest number the mode asks for, with the sign of the exact one. *)
Theorem C95_f64_div_overflow md odd a b r fl : supported md odd -> 0 <= a < 2 ^ 64 -> 0 <= b < 2 ^ 64 -> finite 11 52 a -> finite 11 52 b -> value 11 52 b <> 0%R ->
  f64_divFM (enum_of md) odd a b = Some (r, fl) -> raised fl softfloat_flag_overflow ->
  (0 < value 11 52 a / value 11 52 b)%R /\ decode754 11 52 r = overflow754 md 11 52 false \/ (value 11 52 a / value 11 52 b < 0)%R /\ decode754 11 52 r = overflow754 md 11 52 true.
Proof.
  intros HS Ha Hb FA FB NZ Q0. destruct (C94_f64_div md odd a b Ha Hb) as (r1 & fl1 & Q & Q2 & S). rewrite Q0 in Q. injection Q as <- <-.
  destruct (C88_f64_div_real md odd a b HS Ha Hb FA FB NZ) as (r' & Q3 & _ & R). rewrite Q2 in Q3. injection Q3 as <-.
  eapply std_overflow; [lia|lia|exact S|exact R].
Qed.
Print Assumptions C95_f64_div_overflow.
Example C95_f64_div_overflow_at := C95_f64_div_overflow Odd true 0x7FEFFFFFFFFFFFFF 0x3FE0000000000000 0x7FEFFFFFFFFFFFFF 5 ltac:(hyp) ltac:(hyp) ltac:(hyp) ltac:(hyp) ltac:(hyp) ltac:(unfold value; hypr) ltac:(vm_compute; reflexivity) ltac:(vm_compute; discriminate).

(** The directed modes need the larger unit: 1 plus the least number, rounded up, is wrong by almost 2^-23. No flag is requested. *)
Theorem C95_directed_unit_needed : exists a b r, f32_addFM (enum_of Max) true 32 a b = Some (r, 0) /\ finite 8 23 a /\ finite 8 23 b /\
  (bpow radix2 (- 23 - 1) * Rabs (value 8 23 a + value 8 23 b) < Rabs (value 8 23 r - (value 8 23 a + value 8 23 b)))%R.
Proof.
  exists 0x3F800000, 0x00000001, 0x3F800001. split; [vm_compute; reflexivity|]. split; [exact I|]. split; [exact I|]. unfold value. hypr.
Qed.
Print Assumptions C95_directed_unit_needed.
(** An underflow has a larger relative error: half of three times the least number, rounded down, loses a third. *)
Theorem C95_underflow_needed : exists a b r, f32_mulFM (enum_of Min) true 32 a b = Some (r, softfloat_flag_underflow) /\ finite 8 23 a /\ finite 8 23 b /\
  (Rabs (value 8 23 a * value 8 23 b) <= 3 * Rabs (value 8 23 r - value 8 23 a * value 8 23 b))%R /\ value 8 23 a <> 0%R /\ value 8 23 b <> 0%R.
Proof.
  exists 0x00000003, 0x3F000000, 0x00000001. split; [vm_compute; reflexivity|]. split; [exact I|]. split; [exact I|].
  split; [|split]; unfold value; hypr.
Qed.
Print Assumptions C95_underflow_needed.
