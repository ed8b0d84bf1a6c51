(** C92: the exception flags the SoftFloat operations pass to softfloat_raiseFlags are those of IEEE 754: invalid operation,
    division by zero, overflow and underflow are requested exactly when the standard says so, for every pair of words. The
    function is a stub here, so a user who supplies one observes exactly this. Inexact is the exception (C92_inexact_refuted).
    raised, signalling, overflows, underflows and signals are in SpecFlags.v. These theorems depend on the axioms of the
    standard library's real numbers, and on no others. *)
From Coq Require Import ZArith Bool Lia Reals Lra.
From Flocq Require Import Core.
From Verif Require Import Spec Spec754 SpecFlocq SpecFlocq754Mode SoftFloat SoftFloatFlags SpecFlags FlagProofs3 FlagProofs4 FlagProofs5 Inst InstR.
Open Scope Z_scope.

(** The flags of the binary32 sum, with the result that goes with them. *)
Theorem C92_f32_add U a b : 32 <= U -> 0 <= a < 2 ^ 32 -> 0 <= b < 2 ^ 32 ->
  exists r fl, f32_addF U a b = Some (r, fl) /\ f32_add U a b = Some r /\
    signals 8 23 (add_invalid 8 23 a b) False (finite 8 23 a /\ finite 8 23 b) (value 8 23 a + value 8 23 b) fl.
Proof. intros HU Ha Hb. exact (okop_word _ _ _ _ _ _ _ _ (f32_addF_ok U a b HU Ha Hb) (sf_addF_fst _ _ _ _ _ _ _)). Qed.
Print Assumptions C92_f32_add.
Example C92_f32_add_at := C92_f32_add 32 0x7F7FFFFF 0x7F7FFFFF ltac:(hyp) ltac:(hyp) ltac:(hyp).

(** The flags of the binary32 product, with the result that goes with them. *)
Theorem C92_f32_mul U a b : 32 <= U -> 0 <= a < 2 ^ 32 -> 0 <= b < 2 ^ 32 ->
  exists r fl, f32_mulF U a b = Some (r, fl) /\ f32_mul U a b = Some r /\
    signals 8 23 (mul_invalid 8 23 a b) False (finite 8 23 a /\ finite 8 23 b) (value 8 23 a * value 8 23 b) fl.
Proof. intros HU Ha Hb. exact (okop_word _ _ _ _ _ _ _ _ (f32_mulF_ok U a b HU Ha Hb) (sf_mulF_fst _ _ _ _ _ _ _)). Qed.
Print Assumptions C92_f32_mul.
Example C92_f32_mul_at := C92_f32_mul 32 0x00000001 0x3F000000 ltac:(hyp) ltac:(hyp) ltac:(hyp).

(** The flags of the binary32 quotient, with the result that goes with them. *)
Theorem C92_f32_div U a b : 32 <= U -> 0 <= a < 2 ^ 32 -> 0 <= b < 2 ^ 32 ->
  exists r fl, f32_divF U a b = Some (r, fl) /\ f32_div U a b = Some r /\
    signals 8 23 (div_invalid 8 23 a b) (div_by_zero 8 23 a b) (finite 8 23 a /\ finite 8 23 b /\ value 8 23 b <> 0%R) (value 8 23 a / value 8 23 b) fl.
Proof. intros HU Ha Hb. exact (okop_word _ _ _ _ _ _ _ _ (f32_divF_ok U a b HU Ha Hb) (sf_divF_fst _ _ _ _ _ _ _)). Qed.
Print Assumptions C92_f32_div.
Example C92_f32_div_at := C92_f32_div 32 0x3F800000 0x80000000 ltac:(hyp) ltac:(hyp) ltac:(hyp).

(** A binary32 sum never underflows: a tiny sum of two words is exact. *)
Theorem C92_f32_add_no_underflow U a b r fl : 32 <= U -> 0 <= a < 2 ^ 32 -> 0 <= b < 2 ^ 32 -> f32_addF U a b = Some (r, fl) -> ~ raised fl softfloat_flag_underflow.
Proof.
  intros HU Ha Hb Q R. destruct (C92_f32_add U a b HU Ha Hb) as (r' & fl' & Q' & _ & (_ & _ & _ & S)). rewrite Q in Q'. injection Q' as <- <-.
  destruct (proj1 S R) as [_ K]. revert K. apply (add_no_underflow 8 23 32); try assumption; lia.
Qed.
Print Assumptions C92_f32_add_no_underflow.
Example C92_f32_add_no_underflow_at := C92_f32_add_no_underflow 32 1 0x80000002 0x80000001 0 ltac:(hyp) ltac:(hyp) ltac:(hyp) ltac:(vm_compute; reflexivity).

(** The binary32 operations request inexact only together with overflow. *)
Theorem C92_f32_inexact U a b r fl : 32 <= U -> 0 <= a < 2 ^ 32 -> 0 <= b < 2 ^ 32 ->
  f32_addF U a b = Some (r, fl) \/ f32_mulF U a b = Some (r, fl) \/ f32_divF U a b = Some (r, fl) ->
  (raised fl softfloat_flag_inexact <-> raised fl softfloat_flag_overflow).
Proof.
  intros HU Ha Hb [Q|[Q|Q]]; revert Q; eapply okop_inexact; [apply f32_addF_ok|apply f32_mulF_ok|apply f32_divF_ok]; assumption.
Qed.
Print Assumptions C92_f32_inexact.
Example C92_f32_inexact_at := C92_f32_inexact 32 0x7F7FFFFF 0x40000000 0x7F800000 5 ltac:(hyp) ltac:(hyp) ltac:(hyp) ltac:(right; left; vm_compute; reflexivity).

(** The binary32 comparisons: equality is quiet, it requests invalid for a signalling NaN only; the order comparisons request it
    for every NaN. No comparison requests another flag: invalid is bit 4. *)
Theorem C92_f32_cmp a b : 0 <= a < 2 ^ 32 -> 0 <= b < 2 ^ 32 ->
  (raised (f32_eq_flags a b) softfloat_flag_invalid <-> signalling 8 23 a \/ signalling 8 23 b) /\
  (raised (f32_lt_flags a b) softfloat_flag_invalid <-> decode754 8 23 a = NaN \/ decode754 8 23 b = NaN) /\
  (raised (f32_le_flags a b) softfloat_flag_invalid <-> decode754 8 23 a = NaN \/ decode754 8 23 b = NaN) /\
  (forall i, 0 <= i -> Z.testbit (f32_eq_flags a b) i = true \/ Z.testbit (f32_lt_flags a b) i = true \/ Z.testbit (f32_le_flags a b) i = true -> i = 4).
Proof.
  intros Ha Hb. destruct (sf_eq_flags_ok 8 23 32 ltac:(lia) ltac:(lia) ltac:(lia) ltac:(lia) a b Ha Hb) as [E1 E2].
  destruct (sf_lt_flags_ok 8 23 32 ltac:(lia) ltac:(lia) ltac:(lia) a b Ha Hb) as [L1 L2].
  split; [exact E1|]. split; [exact L1|]. split; [exact L1|]. intros i Hi [Q|[Q|Q]]; [exact (E2 i Hi Q)|exact (L2 i Hi Q)|exact (L2 i Hi Q)].
Qed.
Print Assumptions C92_f32_cmp.
Example C92_f32_cmp_at := C92_f32_cmp 0x7FC00000 0x7F800001 ltac:(hyp) ltac:(hyp).

(** The flags of the binary64 sum, with the result that goes with them. *)
Theorem C92_f64_add a b : 0 <= a < 2 ^ 64 -> 0 <= b < 2 ^ 64 ->
  exists r fl, f64_addF a b = Some (r, fl) /\ f64_add a b = Some r /\
    signals 11 52 (add_invalid 11 52 a b) False (finite 11 52 a /\ finite 11 52 b) (value 11 52 a + value 11 52 b) fl.
Proof. intros Ha Hb. exact (okop_word _ _ _ _ _ _ _ _ (f64_addF_ok a b Ha Hb) (sf_addF_fst _ _ _ _ _ _ _)). Qed.
Print Assumptions C92_f64_add.
Example C92_f64_add_at := C92_f64_add 0x7FF0000000000001 0 ltac:(hyp) ltac:(hyp).

(** The flags of the binary64 product, with the result that goes with them. *)
Theorem C92_f64_mul a b : 0 <= a < 2 ^ 64 -> 0 <= b < 2 ^ 64 ->
  exists r fl, f64_mulF a b = Some (r, fl) /\ f64_mul a b = Some r /\
    signals 11 52 (mul_invalid 11 52 a b) False (finite 11 52 a /\ finite 11 52 b) (value 11 52 a * value 11 52 b) fl.
Proof. intros Ha Hb. exact (okop_word _ _ _ _ _ _ _ _ (f64_mulF_ok a b Ha Hb) (sf_mulF_fst _ _ _ _ _ _ _)). Qed.
Print Assumptions C92_f64_mul.
Example C92_f64_mul_at := C92_f64_mul 0x0000000000000001 0x3FE0000000000000 ltac:(hyp) ltac:(hyp).

(** The flags of the binary64 quotient, with the result that goes with them. *)
Theorem C92_f64_div a b : 0 <= a < 2 ^ 64 -> 0 <= b < 2 ^ 64 ->
  exists r fl, f64_divF a b = Some (r, fl) /\ f64_div a b = Some r /\
    signals 11 52 (div_invalid 11 52 a b) (div_by_zero 11 52 a b) (finite 11 52 a /\ finite 11 52 b /\ value 11 52 b <> 0%R) (value 11 52 a / value 11 52 b) fl.
Proof. intros Ha Hb. exact (okop_word _ _ _ _ _ _ _ _ (f64_divF_ok a b Ha Hb) (sf_divF_fst _ _ _ _ _ _ _)). Qed.
Print Assumptions C92_f64_div.
Example C92_f64_div_at := C92_f64_div 0x3FF0000000000000 0x8000000000000000 ltac:(hyp) ltac:(hyp).

(** A binary64 sum never underflows: a tiny sum of two words is exact. *)
Theorem C92_f64_add_no_underflow a b r fl : 0 <= a < 2 ^ 64 -> 0 <= b < 2 ^ 64 -> f64_addF a b = Some (r, fl) -> ~ raised fl softfloat_flag_underflow.
Proof.
  intros Ha Hb Q R. destruct (C92_f64_add a b Ha Hb) as (r' & fl' & Q' & _ & (_ & _ & _ & S)). rewrite Q in Q'. injection Q' as <- <-.
  destruct (proj1 S R) as [_ K]. revert K. apply (add_no_underflow 11 52 64); try assumption; lia.
Qed.
Print Assumptions C92_f64_add_no_underflow.
Example C92_f64_add_no_underflow_at := C92_f64_add_no_underflow 1 0x8000000000000002 0x8000000000000001 0 ltac:(hyp) ltac:(hyp) ltac:(vm_compute; reflexivity).

(** The binary64 operations request inexact only together with overflow. *)
Theorem C92_f64_inexact a b r fl : 0 <= a < 2 ^ 64 -> 0 <= b < 2 ^ 64 ->
  f64_addF a b = Some (r, fl) \/ f64_mulF a b = Some (r, fl) \/ f64_divF a b = Some (r, fl) ->
  (raised fl softfloat_flag_inexact <-> raised fl softfloat_flag_overflow).
Proof.
  intros Ha Hb [Q|[Q|Q]]; revert Q; eapply okop_inexact; [apply f64_addF_ok|apply f64_mulF_ok|apply f64_divF_ok]; assumption.
Qed.
Print Assumptions C92_f64_inexact.
Example C92_f64_inexact_at := C92_f64_inexact 0x7FEFFFFFFFFFFFFF 0x4000000000000000 0x7FF0000000000000 5 ltac:(hyp) ltac:(hyp) ltac:(right; left; vm_compute; reflexivity).

(** The binary64 comparisons: equality is quiet, it requests invalid for a signalling NaN only; the order comparisons request it
    for every NaN. No comparison requests another flag: invalid is bit 4. *)
Theorem C92_f64_cmp a b : 0 <= a < 2 ^ 64 -> 0 <= b < 2 ^ 64 ->
  (raised (f64_eq_flags a b) softfloat_flag_invalid <-> signalling 11 52 a \/ signalling 11 52 b) /\
  (raised (f64_lt_flags a b) softfloat_flag_invalid <-> decode754 11 52 a = NaN \/ decode754 11 52 b = NaN) /\
  (raised (f64_le_flags a b) softfloat_flag_invalid <-> decode754 11 52 a = NaN \/ decode754 11 52 b = NaN) /\
  (forall i, 0 <= i -> Z.testbit (f64_eq_flags a b) i = true \/ Z.testbit (f64_lt_flags a b) i = true \/ Z.testbit (f64_le_flags a b) i = true -> i = 4).
Proof.
  intros Ha Hb. destruct (sf_eq_flags_ok 11 52 64 ltac:(lia) ltac:(lia) ltac:(lia) ltac:(lia) a b Ha Hb) as [E1 E2].
  destruct (sf_lt_flags_ok 11 52 64 ltac:(lia) ltac:(lia) ltac:(lia) a b Ha Hb) as [L1 L2].
  split; [exact E1|]. split; [exact L1|]. split; [exact L1|]. intros i Hi [Q|[Q|Q]]; [exact (E2 i Hi Q)|exact (L2 i Hi Q)|exact (L2 i Hi Q)].
Qed.
Print Assumptions C92_f64_cmp.
Example C92_f64_cmp_at := C92_f64_cmp 0x7FF8000000000000 0x7FF0000000000001 ltac:(hyp) ltac:(hyp).

(** The property a user of IEEE 754 flags would want of inexact fails: 1/3 in binary32 is rounded and requests no flag. *)
Theorem C92_inexact_refuted : ~ (forall a b r fl, 0 <= a < 2 ^ 32 -> 0 <= b < 2 ^ 32 -> finite 8 23 a -> finite 8 23 b -> value 8 23 b <> 0%R ->
  f32_divF 32 a b = Some (r, fl) -> value 8 23 r <> (value 8 23 a / value 8 23 b)%R -> raised fl softfloat_flag_inexact).
Proof.
  intros H. specialize (H 0x3F800000 0x40400000 0x3EAAAAAB 0 ltac:(lia) ltac:(lia) ltac:(exact I) ltac:(exact I)). apply H.
  - unfold value. hypr.
  - vm_compute. reflexivity.
  - unfold value. hypr.
  - reflexivity.
Qed.
Print Assumptions C92_inexact_refuted.

(** Overflow, underflow, division by zero, invalid; an exact subnormal result, and two inexact products that
    round to the least normal number, the first of them tiny after rounding with an unbounded exponent and the second not. *)
Example C92_instance :
  f32_mulF 32 0x7F7FFFFF 0x40000000 = Some (0x7F800000, 5) /\ f32_mulF 32 0x00000001 0x3F000000 = Some (0, 2) /\
  f32_mulF 32 0x00800000 0x3F000000 = Some (0x00400000, 0) /\ f32_mulF 32 0x00FFFFFF 0x3F000000 = Some (0x00800000, 2) /\ f32_mulF 32 0x00800001 0x3F7FFFFE = Some (0x00800000, 0) /\
  f32_divF 32 0x3F800000 0 = Some (0x7F800000, 8) /\ (exists q, f32_divF 32 0 0 = Some (q, 16)) /\ (exists q, f32_addF 32 0x7F800000 0xFF800000 = Some (q, 16)).
Proof. vm_compute. repeat split; try reflexivity; eexists; reflexivity. Qed.
