(** C93: what the flags of a SoftFloat operation tell about the word it returned: a NaN that was not among the operands comes
    with invalid and only then; an infinity from finite operands comes with overflow or division by zero and only then; with
    underflow the result is at most the least normal number and not exact; without it every smaller result is exact. tells is in
    SpecFlagTells.v. These theorems depend on the axioms of the standard library's real numbers, and on no others. *)
From Coq Require Import ZArith Bool Lia Reals Lra.
From Flocq Require Import Core.
From Verif Require Import Spec Spec754 SpecFlocq SpecFlocq754 SpecFlocq754Mode SoftFloat SoftFloatFlags SpecFlags SpecFlagTells FlagTells PropsSoftFloat PropsSoftFloatReal PropsFlags Inst InstR.
Open Scope Z_scope.

(** The binary32 sum. *)
Theorem C93_f32_add U a b : 32 <= U -> 0 <= a < 2 ^ 32 -> 0 <= b < 2 ^ 32 ->
  exists r fl, f32_addF U a b = Some (r, fl) /\ tells 8 23 (finite 8 23 a /\ finite 8 23 b) (value 8 23 a + value 8 23 b) a b r fl.
Proof.
  intros HU Ha Hb. destruct (C92_f32_add U a b HU Ha Hb) as (r & fl & Q & Q2 & S). destruct (C58_f32_add U a b HU Ha Hb) as (r' & Q3 & _ & D).
  rewrite Q2 in Q3. injection Q3 as <-. exists r, fl. split; [exact Q|]. apply (add_tells 8 23 32); try assumption; try lia.
  intros FA FB. destruct (C61_f32_add U a b HU Ha Hb FA FB) as (r' & Q3 & _ & R). rewrite Q2 in Q3. injection Q3 as <-. exact R.
Qed.
Print Assumptions C93_f32_add.
Example C93_f32_add_at := C93_f32_add 32 0x7F7FFFFF 0x7F7FFFFF ltac:(hyp) ltac:(hyp) ltac:(hyp).

(** The binary32 product. *)
Theorem C93_f32_mul U a b : 32 <= U -> 0 <= a < 2 ^ 32 -> 0 <= b < 2 ^ 32 ->
  exists r fl, f32_mulF U a b = Some (r, fl) /\ tells 8 23 (finite 8 23 a /\ finite 8 23 b) (value 8 23 a * value 8 23 b) a b r fl.
Proof.
  intros HU Ha Hb. destruct (C92_f32_mul U a b HU Ha Hb) as (r & fl & Q & Q2 & S). destruct (C58_f32_mul U a b HU Ha Hb) as (r' & Q3 & _ & D).
  rewrite Q2 in Q3. injection Q3 as <-. exists r, fl. split; [exact Q|]. apply (mul_tells 8 23 32); try assumption; try lia.
  intros FA FB. destruct (C61_f32_mul U a b HU Ha Hb FA FB) as (r' & Q3 & _ & R). rewrite Q2 in Q3. injection Q3 as <-. exact R.
Qed.
Print Assumptions C93_f32_mul.
Example C93_f32_mul_at := C93_f32_mul 32 0x00000001 0x3F000000 ltac:(hyp) ltac:(hyp) ltac:(hyp).

(** The binary32 quotient. *)
Theorem C93_f32_div U a b : 32 <= U -> 0 <= a < 2 ^ 32 -> 0 <= b < 2 ^ 32 ->
  exists r fl, f32_divF U a b = Some (r, fl) /\ tells 8 23 (finite 8 23 a /\ finite 8 23 b /\ value 8 23 b <> 0%R) (value 8 23 a / value 8 23 b) a b r fl.
Proof.
  intros HU Ha Hb. destruct (C92_f32_div U a b HU Ha Hb) as (r & fl & Q & Q2 & S). destruct (C60_f32_div U a b HU Ha Hb) as (r' & Q3 & _ & D).
  rewrite Q2 in Q3. injection Q3 as <-. exists r, fl. split; [exact Q|]. apply (div_tells 8 23 32); try assumption; try lia.
  intros FA FB NZ. destruct (C61_f32_div U a b HU Ha Hb FA FB NZ) as (r' & Q3 & _ & R). rewrite Q2 in Q3. injection Q3 as <-. exact R.
Qed.
Print Assumptions C93_f32_div.
Example C93_f32_div_at := C93_f32_div 32 0x3F800000 0x80000000 ltac:(hyp) ltac:(hyp) ltac:(hyp).

(** The binary64 sum. *)
Theorem C93_f64_add a b : 0 <= a < 2 ^ 64 -> 0 <= b < 2 ^ 64 ->
  exists r fl, f64_addF a b = Some (r, fl) /\ tells 11 52 (finite 11 52 a /\ finite 11 52 b) (value 11 52 a + value 11 52 b) a b r fl.
Proof.
  intros Ha Hb. destruct (C92_f64_add a b Ha Hb) as (r & fl & Q & Q2 & S). destruct (C58_f64_add a b Ha Hb) as (r' & Q3 & _ & D).
  rewrite Q2 in Q3. injection Q3 as <-. exists r, fl. split; [exact Q|]. apply (add_tells 11 52 64); try assumption; try lia.
  intros FA FB. destruct (C61_f64_add a b Ha Hb FA FB) as (r' & Q3 & _ & R). rewrite Q2 in Q3. injection Q3 as <-. exact R.
Qed.
Print Assumptions C93_f64_add.
Example C93_f64_add_at := C93_f64_add 0x7FF0000000000001 0 ltac:(hyp) ltac:(hyp).

(** The binary64 product. *)
Theorem C93_f64_mul a b : 0 <= a < 2 ^ 64 -> 0 <= b < 2 ^ 64 ->
  exists r fl, f64_mulF a b = Some (r, fl) /\ tells 11 52 (finite 11 52 a /\ finite 11 52 b) (value 11 52 a * value 11 52 b) a b r fl.
Proof.
  intros Ha Hb. destruct (C92_f64_mul a b Ha Hb) as (r & fl & Q & Q2 & S). destruct (C58_f64_mul a b Ha Hb) as (r' & Q3 & _ & D).
  rewrite Q2 in Q3. injection Q3 as <-. exists r, fl. split; [exact Q|]. apply (mul_tells 11 52 64); try assumption; try lia.
  intros FA FB. destruct (C61_f64_mul a b Ha Hb FA FB) as (r' & Q3 & _ & R). rewrite Q2 in Q3. injection Q3 as <-. exact R.
Qed.
Print Assumptions C93_f64_mul.
Example C93_f64_mul_at := C93_f64_mul 0x0000000000000001 0x3FE0000000000000 ltac:(hyp) ltac:(hyp).

(** The binary64 quotient. *)
Theorem C93_f64_div a b : 0 <= a < 2 ^ 64 -> 0 <= b < 2 ^ 64 ->
  exists r fl, f64_divF a b = Some (r, fl) /\ tells 11 52 (finite 11 52 a /\ finite 11 52 b /\ value 11 52 b <> 0%R) (value 11 52 a / value 11 52 b) a b r fl.
Proof.
  intros Ha Hb. destruct (C92_f64_div a b Ha Hb) as (r & fl & Q & Q2 & S). destruct (C60_f64_div a b Ha Hb) as (r' & Q3 & _ & D).
  rewrite Q2 in Q3. injection Q3 as <-. exists r, fl. split; [exact Q|]. apply (div_tells 11 52 64); try assumption; try lia.
  intros FA FB NZ. destruct (C61_f64_div a b Ha Hb FA FB NZ) as (r' & Q3 & _ & R). rewrite Q2 in Q3. injection Q3 as <-. exact R.
Qed.
Print Assumptions C93_f64_div.
Example C93_f64_div_at := C93_f64_div 0x3FF0000000000000 0x8000000000000000 ltac:(hyp) ltac:(hyp).

(** The four claims at work in binary32: Inf - Inf, overflow, a tiny inexact product, a subnormal exact sum. *)
Example C93_instance :
  f32_addF 64 0x7F800000 0xFF800000 = Some (0xFFC00000, 16) /\ f32_addF 64 0x7F7FFFFF 0x7F7FFFFF = Some (0x7F800000, 5) /\
  f32_mulF 64 0x00800001 0x3F000000 = Some (0x00400000, 2) /\ f32_addF 64 0x00800001 0x80800000 = Some (0x00000001, 0).
Proof. vm_compute. repeat split; reflexivity. Qed.
