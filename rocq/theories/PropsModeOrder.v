(** C96: in every rounding mode SoftFloat's operations respect the order of numbers and return exact results exactly. The order
    is the library's own comparison (its meaning is C59). In the default mode this is C77, which has infinities too. These
    theorems depend on the axioms of the standard library's real numbers, and on no others. *)
From Coq Require Import ZArith Bool Lia Reals Lra.
From Flocq Require Import Core.
From Verif Require Import Fw Spec Spec754 Spec754Mode SpecFlocq SpecFlocq754Mode SpecSf754 SoftFloat SoftFloatMode SpecSfMode SfReal4 ModeOrder PropsSfModeReal Inst InstR.
Open Scope Z_scope.

(** binary32: a <= b gives a + c <= b + c. *)
Theorem C96_f32_add_order md odd U a b c : supported md odd -> 32 <= U -> 0 <= a < 2 ^ 32 -> 0 <= b < 2 ^ 32 -> 0 <= c < 2 ^ 32 -> finite_v (decode754 8 23 a) -> finite_v (decode754 8 23 b) -> finite_v (decode754 8 23 c) -> f32_le a b = true ->
  exists r s, f32_addM (enum_of md) odd U a c = Some r /\ f32_addM (enum_of md) odd U b c = Some s /\ f32_le r s = true.
Proof.
  intros HS HU Ha Hb Hc Fa Fb Fc L. rewrite f32_ole in L by assumption. apply (le_words 8 23 ltac:(lia)) in L; try assumption.
  destruct (rword_order 8 23 ltac:(lia) ltac:(lia) f32_le md _ _ _ _ f32_ole (C88_f32_add_real md odd U a c HS HU Ha Hc Fa Fc) (C88_f32_add_real md odd U b c HS HU Hb Hc Fb Fc)) as (r & s & Q1 & Q2 & O1 & O2).
  exists r, s. split; [exact Q1|]. split; [exact Q2|].
  apply O1. lra.
Qed.
Print Assumptions C96_f32_add_order.
Example C96_f32_add_order_at := C96_f32_add_order Max true 32 0x3F800000 0x40490FDB 0xBF800000 ltac:(hyp) ltac:(hyp) ltac:(hyp) ltac:(hyp) ltac:(hyp) ltac:(hyp) ltac:(hyp) ltac:(hyp) ltac:(hyp).

(** binary32: a <= b gives a * c <= b * c for 0 <= c, and the opposite for c <= 0. *)
Theorem C96_f32_mul_order md odd U a b c : supported md odd -> 32 <= U -> 0 <= a < 2 ^ 32 -> 0 <= b < 2 ^ 32 -> 0 <= c < 2 ^ 32 -> finite_v (decode754 8 23 a) -> finite_v (decode754 8 23 b) -> finite_v (decode754 8 23 c) -> f32_le a b = true ->
  exists r s, f32_mulM (enum_of md) odd U a c = Some r /\ f32_mulM (enum_of md) odd U b c = Some s /\ (f32_le 0 c = true -> f32_le r s = true) /\ (f32_le c 0 = true -> f32_le s r = true).
Proof.
  intros HS HU Ha Hb Hc Fa Fb Fc L. rewrite f32_ole in L by assumption. apply (le_words 8 23 ltac:(lia)) in L; try assumption.
  destruct (rword_order 8 23 ltac:(lia) ltac:(lia) f32_le md _ _ _ _ f32_ole (C88_f32_mul_real md odd U a c HS HU Ha Hc Fa Fc) (C88_f32_mul_real md odd U b c HS HU Hb Hc Fb Fc)) as (r & s & Q1 & Q2 & O1 & O2).
  exists r, s. split; [exact Q1|]. split; [exact Q2|].
  assert (H0 : 0 <= 0 < 2 ^ 32) by lia. split; intros P; (rewrite f32_ole in P by assumption); (apply (le_words 8 23 ltac:(lia)) in P; [|assumption|assumption|first [assumption|exact I]|first [assumption|exact I]]);
    change (rv (decode754 8 23 0)) with 0%R in P.
  - apply O1. apply Rmult_le_compat_r; assumption.
  - apply O2. rewrite (Rmult_comm (rv (decode754 8 23 a))), (Rmult_comm (rv (decode754 8 23 b))). apply Rmult_le_compat_neg_l; assumption.
Qed.
Print Assumptions C96_f32_mul_order.
Example C96_f32_mul_order_at := C96_f32_mul_order Max true 32 0x3F800000 0x40490FDB 0xBF800000 ltac:(hyp) ltac:(hyp) ltac:(hyp) ltac:(hyp) ltac:(hyp) ltac:(hyp) ltac:(hyp) ltac:(hyp) ltac:(hyp).

(** binary32: a <= b gives a / c <= b / c for 0 < c. *)
Theorem C96_f32_div_order md odd U a b c : supported md odd -> 32 <= U -> 0 <= a < 2 ^ 32 -> 0 <= b < 2 ^ 32 -> 0 <= c < 2 ^ 32 -> finite_v (decode754 8 23 a) -> finite_v (decode754 8 23 b) -> finite_v (decode754 8 23 c) -> f32_le a b = true -> f32_lt 0 c = true ->
  exists r s, f32_divM (enum_of md) odd U a c = Some r /\ f32_divM (enum_of md) odd U b c = Some s /\ f32_le r s = true.
Proof.
  intros HS HU Ha Hb Hc Fa Fb Fc L P. rewrite f32_ole in L by assumption. apply (le_words 8 23 ltac:(lia)) in L; try assumption.
  assert (H0 : 0 <= 0 < 2 ^ 32) by lia. rewrite f32_olt in P by assumption. apply (lt_words 8 23 ltac:(lia)) in P; try assumption; [|exact I]. change (rv (decode754 8 23 0)) with 0%R in P.
  destruct (rword_order 8 23 ltac:(lia) ltac:(lia) f32_le md _ _ _ _ f32_ole (C88_f32_div_real md odd U a c HS HU Ha Hc Fa Fc ltac:(lra)) (C88_f32_div_real md odd U b c HS HU Hb Hc Fb Fc ltac:(lra))) as (r & s & Q1 & Q2 & O1 & O2).
  exists r, s. split; [exact Q1|]. split; [exact Q2|].
  apply O1. apply Rmult_le_compat_r; [apply Rlt_le, Rinv_0_lt_compat; exact P|exact L].
Qed.
Print Assumptions C96_f32_div_order.
Example C96_f32_div_order_at := C96_f32_div_order Max true 32 0x3F800000 0x40490FDB 0x40000000 ltac:(hyp) ltac:(hyp) ltac:(hyp) ltac:(hyp) ltac:(hyp) ltac:(hyp) ltac:(hyp) ltac:(hyp) ltac:(hyp) ltac:(hyp).

(** A binary32 sum that is a number of the format is returned, whatever the mode. *)
Theorem C96_f32_add_exact md odd U a b w : supported md odd -> 32 <= U -> 0 <= a < 2 ^ 32 -> 0 <= b < 2 ^ 32 -> 0 <= w < 2 ^ 32 -> finite_v (decode754 8 23 a) -> finite_v (decode754 8 23 b) -> finite_v (decode754 8 23 w) ->
  (real754 8 23 a + real754 8 23 b = real754 8 23 w)%R ->
  exists r, f32_addM (enum_of md) odd U a b = Some r /\ 0 <= r < 2 ^ 32 /\ finite_v (decode754 8 23 r) /\ real754 8 23 r = real754 8 23 w /\ (real754 8 23 w <> 0%R -> r = w).
Proof.
  intros HS HU Ha Hb Hw Fa Fb Fw Q.
  exact (rword_exact 8 23 ltac:(lia) ltac:(lia) md _ _ w Hw Fw Q (C88_f32_add_real md odd U a b HS HU Ha Hb Fa Fb)).
Qed.
Print Assumptions C96_f32_add_exact.
Example C96_f32_add_exact_at := C96_f32_add_exact Odd true 32 0x3F800000 0x40000000 0x40400000 ltac:(hyp) ltac:(hyp) ltac:(hyp) ltac:(hyp) ltac:(hyp) ltac:(hyp) ltac:(hyp) ltac:(hyp) ltac:(hypx).

(** A binary32 product that is a number of the format is returned, whatever the mode. *)
Theorem C96_f32_mul_exact md odd U a b w : supported md odd -> 32 <= U -> 0 <= a < 2 ^ 32 -> 0 <= b < 2 ^ 32 -> 0 <= w < 2 ^ 32 -> finite_v (decode754 8 23 a) -> finite_v (decode754 8 23 b) -> finite_v (decode754 8 23 w) ->
  (real754 8 23 a * real754 8 23 b = real754 8 23 w)%R ->
  exists r, f32_mulM (enum_of md) odd U a b = Some r /\ 0 <= r < 2 ^ 32 /\ finite_v (decode754 8 23 r) /\ real754 8 23 r = real754 8 23 w /\ (real754 8 23 w <> 0%R -> r = w).
Proof.
  intros HS HU Ha Hb Hw Fa Fb Fw Q.
  exact (rword_exact 8 23 ltac:(lia) ltac:(lia) md _ _ w Hw Fw Q (C88_f32_mul_real md odd U a b HS HU Ha Hb Fa Fb)).
Qed.
Print Assumptions C96_f32_mul_exact.
Example C96_f32_mul_exact_at := C96_f32_mul_exact Odd true 32 0x40000000 0x40400000 0x40C00000 ltac:(hyp) ltac:(hyp) ltac:(hyp) ltac:(hyp) ltac:(hyp) ltac:(hyp) ltac:(hyp) ltac:(hyp) ltac:(hypx).

(** A binary32 quotient that is a number of the format is returned, whatever the mode. *)
Theorem C96_f32_div_exact md odd U a b w : supported md odd -> 32 <= U -> 0 <= a < 2 ^ 32 -> 0 <= b < 2 ^ 32 -> 0 <= w < 2 ^ 32 -> finite_v (decode754 8 23 a) -> finite_v (decode754 8 23 b) -> finite_v (decode754 8 23 w) ->
  real754 8 23 b <> 0%R -> (real754 8 23 a / real754 8 23 b = real754 8 23 w)%R ->
  exists r, f32_divM (enum_of md) odd U a b = Some r /\ 0 <= r < 2 ^ 32 /\ finite_v (decode754 8 23 r) /\ real754 8 23 r = real754 8 23 w /\ (real754 8 23 w <> 0%R -> r = w).
Proof.
  intros HS HU Ha Hb Hw Fa Fb Fw NZ Q.
  exact (rword_exact 8 23 ltac:(lia) ltac:(lia) md _ _ w Hw Fw Q (C88_f32_div_real md odd U a b HS HU Ha Hb Fa Fb NZ)).
Qed.
Print Assumptions C96_f32_div_exact.
Example C96_f32_div_exact_at := C96_f32_div_exact Odd true 32 0x40C00000 0x40000000 0x40400000 ltac:(hyp) ltac:(hyp) ltac:(hyp) ltac:(hyp) ltac:(hyp) ltac:(hyp) ltac:(hyp) ltac:(hyp) ltac:(hypx) ltac:(hypx).

(** binary64: a <= b gives a + c <= b + c. *)
Theorem C96_f64_add_order md odd a b c : supported md odd -> 0 <= a < 2 ^ 64 -> 0 <= b < 2 ^ 64 -> 0 <= c < 2 ^ 64 -> finite_v (decode754 11 52 a) -> finite_v (decode754 11 52 b) -> finite_v (decode754 11 52 c) -> f64_le a b = true ->
  exists r s, f64_addM (enum_of md) odd a c = Some r /\ f64_addM (enum_of md) odd b c = Some s /\ f64_le r s = true.
Proof.
  intros HS Ha Hb Hc Fa Fb Fc L. rewrite f64_ole in L by assumption. apply (le_words 11 52 ltac:(lia)) in L; try assumption.
  destruct (rword_order 11 52 ltac:(lia) ltac:(lia) f64_le md _ _ _ _ f64_ole (C88_f64_add_real md odd a c HS Ha Hc Fa Fc) (C88_f64_add_real md odd b c HS Hb Hc Fb Fc)) as (r & s & Q1 & Q2 & O1 & O2).
  exists r, s. split; [exact Q1|]. split; [exact Q2|].
  apply O1. lra.
Qed.
Print Assumptions C96_f64_add_order.
Example C96_f64_add_order_at := C96_f64_add_order Max true 0x3FF0000000000000 0x400921FB54442D18 0xBFF0000000000000 ltac:(hyp) ltac:(hyp) ltac:(hyp) ltac:(hyp) ltac:(hyp) ltac:(hyp) ltac:(hyp) ltac:(hyp).

(** binary64: a <= b gives a * c <= b * c for 0 <= c, and the opposite for c <= 0. *)
Theorem C96_f64_mul_order md odd a b c : supported md odd -> 0 <= a < 2 ^ 64 -> 0 <= b < 2 ^ 64 -> 0 <= c < 2 ^ 64 -> finite_v (decode754 11 52 a) -> finite_v (decode754 11 52 b) -> finite_v (decode754 11 52 c) -> f64_le a b = true ->
  exists r s, f64_mulM (enum_of md) odd a c = Some r /\ f64_mulM (enum_of md) odd b c = Some s /\ (f64_le 0 c = true -> f64_le r s = true) /\ (f64_le c 0 = true -> f64_le s r = true).
Proof.
  intros HS Ha Hb Hc Fa Fb Fc L. rewrite f64_ole in L by assumption. apply (le_words 11 52 ltac:(lia)) in L; try assumption.
  destruct (rword_order 11 52 ltac:(lia) ltac:(lia) f64_le md _ _ _ _ f64_ole (C88_f64_mul_real md odd a c HS Ha Hc Fa Fc) (C88_f64_mul_real md odd b c HS Hb Hc Fb Fc)) as (r & s & Q1 & Q2 & O1 & O2).
  exists r, s. split; [exact Q1|]. split; [exact Q2|].
  assert (H0 : 0 <= 0 < 2 ^ 64) by lia. split; intros P; (rewrite f64_ole in P by assumption); (apply (le_words 11 52 ltac:(lia)) in P; [|assumption|assumption|first [assumption|exact I]|first [assumption|exact I]]);
    change (rv (decode754 11 52 0)) with 0%R in P.
  - apply O1. apply Rmult_le_compat_r; assumption.
  - apply O2. rewrite (Rmult_comm (rv (decode754 11 52 a))), (Rmult_comm (rv (decode754 11 52 b))). apply Rmult_le_compat_neg_l; assumption.
Qed.
Print Assumptions C96_f64_mul_order.
Example C96_f64_mul_order_at := C96_f64_mul_order Max true 0x3FF0000000000000 0x400921FB54442D18 0xBFF0000000000000 ltac:(hyp) ltac:(hyp) ltac:(hyp) ltac:(hyp) ltac:(hyp) ltac:(hyp) ltac:(hyp) ltac:(hyp).

(** binary64: a <= b gives a / c <= b / c for 0 < c. *)
Theorem C96_f64_div_order md odd a b c : supported md odd -> 0 <= a < 2 ^ 64 -> 0 <= b < 2 ^ 64 -> 0 <= c < 2 ^ 64 -> finite_v (decode754 11 52 a) -> finite_v (decode754 11 52 b) -> finite_v (decode754 11 52 c) -> f64_le a b = true -> f64_lt 0 c = true ->
  exists r s, f64_divM (enum_of md) odd a c = Some r /\ f64_divM (enum_of md) odd b c = Some s /\ f64_le r s = true.
Proof.
  intros HS Ha Hb Hc Fa Fb Fc L P. rewrite f64_ole in L by assumption. apply (le_words 11 52 ltac:(lia)) in L; try assumption.
  assert (H0 : 0 <= 0 < 2 ^ 64) by lia. rewrite f64_olt in P by assumption. apply (lt_words 11 52 ltac:(lia)) in P; try assumption; [|exact I]. change (rv (decode754 11 52 0)) with 0%R in P.
  destruct (rword_order 11 52 ltac:(lia) ltac:(lia) f64_le md _ _ _ _ f64_ole (C88_f64_div_real md odd a c HS Ha Hc Fa Fc ltac:(lra)) (C88_f64_div_real md odd b c HS Hb Hc Fb Fc ltac:(lra))) as (r & s & Q1 & Q2 & O1 & O2).
  exists r, s. split; [exact Q1|]. split; [exact Q2|].
  apply O1. apply Rmult_le_compat_r; [apply Rlt_le, Rinv_0_lt_compat; exact P|exact L].
Qed.
Print Assumptions C96_f64_div_order.
Example C96_f64_div_order_at := C96_f64_div_order Max true 0x3FF0000000000000 0x400921FB54442D18 0x4000000000000000 ltac:(hyp) ltac:(hyp) ltac:(hyp) ltac:(hyp) ltac:(hyp) ltac:(hyp) ltac:(hyp) ltac:(hyp) ltac:(hyp).

(** A binary64 sum that is a number of the format is returned, whatever the mode. *)
Theorem C96_f64_add_exact md odd a b w : supported md odd -> 0 <= a < 2 ^ 64 -> 0 <= b < 2 ^ 64 -> 0 <= w < 2 ^ 64 -> finite_v (decode754 11 52 a) -> finite_v (decode754 11 52 b) -> finite_v (decode754 11 52 w) ->
  (real754 11 52 a + real754 11 52 b = real754 11 52 w)%R ->
  exists r, f64_addM (enum_of md) odd a b = Some r /\ 0 <= r < 2 ^ 64 /\ finite_v (decode754 11 52 r) /\ real754 11 52 r = real754 11 52 w /\ (real754 11 52 w <> 0%R -> r = w).
Proof.
  intros HS Ha Hb Hw Fa Fb Fw Q.
  exact (rword_exact 11 52 ltac:(lia) ltac:(lia) md _ _ w Hw Fw Q (C88_f64_add_real md odd a b HS Ha Hb Fa Fb)).
Qed.
Print Assumptions C96_f64_add_exact.
Example C96_f64_add_exact_at := C96_f64_add_exact Odd true 0x3FF0000000000000 0x4000000000000000 0x4008000000000000 ltac:(hyp) ltac:(hyp) ltac:(hyp) ltac:(hyp) ltac:(hyp) ltac:(hyp) ltac:(hyp) ltac:(hypx).

(** A binary64 product that is a number of the format is returned, whatever the mode. *)
Theorem C96_f64_mul_exact md odd a b w : supported md odd -> 0 <= a < 2 ^ 64 -> 0 <= b < 2 ^ 64 -> 0 <= w < 2 ^ 64 -> finite_v (decode754 11 52 a) -> finite_v (decode754 11 52 b) -> finite_v (decode754 11 52 w) ->
  (real754 11 52 a * real754 11 52 b = real754 11 52 w)%R ->
  exists r, f64_mulM (enum_of md) odd a b = Some r /\ 0 <= r < 2 ^ 64 /\ finite_v (decode754 11 52 r) /\ real754 11 52 r = real754 11 52 w /\ (real754 11 52 w <> 0%R -> r = w).
Proof.
  intros HS Ha Hb Hw Fa Fb Fw Q.
  exact (rword_exact 11 52 ltac:(lia) ltac:(lia) md _ _ w Hw Fw Q (C88_f64_mul_real md odd a b HS Ha Hb Fa Fb)).
Qed.
Print Assumptions C96_f64_mul_exact.
Example C96_f64_mul_exact_at := C96_f64_mul_exact Odd true 0x4000000000000000 0x4008000000000000 0x4018000000000000 ltac:(hyp) ltac:(hyp) ltac:(hyp) ltac:(hyp) ltac:(hyp) ltac:(hyp) ltac:(hyp) ltac:(hypx).

(** A binary64 quotient that is a number of the format is returned, whatever the mode. *)
Theorem C96_f64_div_exact md odd a b w : supported md odd -> 0 <= a < 2 ^ 64 -> 0 <= b < 2 ^ 64 -> 0 <= w < 2 ^ 64 -> finite_v (decode754 11 52 a) -> finite_v (decode754 11 52 b) -> finite_v (decode754 11 52 w) ->
  real754 11 52 b <> 0%R -> (real754 11 52 a / real754 11 52 b = real754 11 52 w)%R ->
  exists r, f64_divM (enum_of md) odd a b = Some r /\ 0 <= r < 2 ^ 64 /\ finite_v (decode754 11 52 r) /\ real754 11 52 r = real754 11 52 w /\ (real754 11 52 w <> 0%R -> r = w).
Proof.
  intros HS Ha Hb Hw Fa Fb Fw NZ Q.
  exact (rword_exact 11 52 ltac:(lia) ltac:(lia) md _ _ w Hw Fw Q (C88_f64_div_real md odd a b HS Ha Hb Fa Fb NZ)).
Qed.
Print Assumptions C96_f64_div_exact.
Example C96_f64_div_exact_at := C96_f64_div_exact Odd true 0x4018000000000000 0x4000000000000000 0x4008000000000000 ltac:(hyp) ltac:(hyp) ltac:(hyp) ltac:(hyp) ltac:(hyp) ltac:(hyp) ltac:(hyp) ltac:(hypx) ltac:(hypx).

