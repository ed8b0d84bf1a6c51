(** The operators; proofs for C78. *)
From Coq Require Import ZArith Bool Lia.
From Verif Require Import Fw FwLemmas Spec SpecLemmas Spec754 SpecFtz Flopoco Ieee Mul MulProofs Div DivProofs DivProofs3 AddDual AddDualProofs AddDualProofs5 IeeeProofs IeeeProofs2 PolicyProofs5 Sf754Lemmas SfProofs2 SoftFloat SfProofs10 FtzProofs.
Open Scope Z_scope.

Section Ops.
Context (E F : Z) (HE : 3 <= E <= 15) (HF : 1 <= F).
Notation W := (E + F + 1).
Definition ieee_op (w : Z -> Z -> option Z) (sp : fval -> fval -> fval) : Prop :=
  forall a b, wf W a -> wf W b -> exists y, w a b = Some (to_ieee E F y) /\ wf (E + F + 3) y /\ decode_ieee E F (to_ieee E F y) = sp (decode_ieee E F a) (decode_ieee E F b).
Lemma i_mul : ieee_op (w_mul E F) (mul_ieee E F).
Proof.
  intros a b Ha Hb. destruct (to_flopoco_ok E F a ltac:(lia) HF Ha) as [Wa Da]. destruct (to_flopoco_ok E F b ltac:(lia) HF Hb) as [Wb Db].
  destruct (mul_round_correct E F F F _ _ ltac:(lia) HF HF ltac:(lia) Wa Wb) as (r & R1 & R2 & R3). exists r. unfold w_mul, mul in *. rewrite R1. cbn [bind]. split; [reflexivity|]. split; [exact R2|].
  destruct (w_mul_ok E F a b ltac:(lia) HF Ha Hb) as (q & Q1 & _ & Q3). unfold w_mul, mul in Q1. rewrite R1 in Q1. cbn [bind] in Q1. injection Q1 as ->. exact Q3.
Qed.
Lemma i_div : ieee_op (w_div E F) (div_ieee E F).
Proof.
  intros a b Ha Hb. destruct (to_flopoco_ok E F a ltac:(lia) HF Ha) as [Wa Da]. destruct (to_flopoco_ok E F b ltac:(lia) HF Hb) as [Wb Db].
  destruct (div_v1_correct E F E F E F _ _ ltac:(lia) ltac:(lia) ltac:(lia) ltac:(lia) ltac:(lia) Wa Wb) as (r & R1 & R2 & R3). exists r. unfold w_div, div in *. rewrite R1. cbn [bind]. split; [reflexivity|]. split; [exact R2|].
  destruct (w_div_ok E F a b ltac:(lia) HF Ha Hb) as (q & Q1 & _ & Q3). unfold w_div, div in Q1. rewrite R1 in Q1. cbn [bind] in Q1. injection Q1 as ->. exact Q3.
Qed.
Lemma i_add : dual_ok_width E F -> ieee_op (w_add E F) (add_ieee E F).
Proof.
  intros D a b Ha Hb. destruct (to_flopoco_ok E F a ltac:(lia) HF Ha) as [Wa Da]. destruct (to_flopoco_ok E F b ltac:(lia) HF Hb) as [Wb Db].
  pose proof (add_dual_ok E F E F (to_flopoco E F a) (to_flopoco E F b) ltac:(lia) HF ltac:(lia) HF) as K. cbv zeta in K. rewrite !Z.max_id in K. destruct (K D Wa Wb) as (r & R1 & R2 & R3). exists r. unfold w_add. rewrite R1. cbn [bind]. split; [reflexivity|]. split; [exact R2|].
  destruct (w_add_ok E F a b D Ha Hb) as (q & Q1 & _ & Q3). unfold w_add in Q1. rewrite R1 in Q1. cbn [bind] in Q1. injection Q1 as ->. exact Q3.
Qed.
Lemma agree (w f : Z -> Z -> option Z) (sp sq : fval -> fval -> fval) : ieee_op w sp -> (forall x y, posn x -> posn y -> frel E F (sq x y) (sp x y)) ->
  (forall a b, 0 <= a < 2 ^ W -> 0 <= b < 2 ^ W -> exists s, f a b = Some s /\ 0 <= s < 2 ^ W /\ decode754 E F s = sq (decode754 E F a) (decode754 E F b)) ->
  forall a b, 0 <= a < 2 ^ W -> 0 <= b < 2 ^ W -> exists r s, w a b = Some r /\ f (flushed E F a) (flushed E F b) = Some s /\ ftz_result E F s r.
Proof.
  intros HW HR HS a b Ha Hb. destruct (HW a b Ha Hb) as (y & A & Wy & B). destruct (flush_dec E F HE HF a Ha) as [Wa [Da Na]]. destruct (flush_dec E F HE HF b Hb) as [Wb [Db Nb]]. destruct (HS _ _ Wa Wb) as (s & C & Ws & D). exists (to_ieee E F y), s. split; [exact A|]. split; [exact C|].
  destruct (to_ieee_ok E F y ltac:(lia) HF Wy) as [Wr _]. apply (ftz_of E F HE HF); [exact Ws|exact Wr|apply (to_ieee_canonical E F y ltac:(lia) HF Wy)|]. rewrite B, D, Da, Db. apply HR; assumption.
Qed.
End Ops.
Lemma w32 : dual_ok_width 8 23.
Proof. unfold dual_ok_width. repeat split; try lia. right; right; right; right. vm_compute. discriminate. Qed.
Lemma w64 : dual_ok_width 11 52.
Proof. unfold dual_ok_width. repeat split; try lia. right; right; right; right. vm_compute. discriminate. Qed.
Lemma z32_add U a b : 32 <= U -> 0 <= a < 2 ^ 32 -> 0 <= b < 2 ^ 32 -> exists r s, w_add 8 23 a b = Some r /\ f32_add U (flushed 8 23 a) (flushed 8 23 b) = Some s /\ ftz_result 8 23 s r.
Proof. intros HU. apply (agree 8 23 ltac:(lia) ltac:(lia) (w_add 8 23) (f32_add U) (add_ieee 8 23) (add754 8 23)); [apply i_add; [lia|lia|exact w32]|apply add_rel; lia|]. intros x y. apply f32_add_ok. exact HU. Qed.
Lemma z32_mul U a b : 32 <= U -> 0 <= a < 2 ^ 32 -> 0 <= b < 2 ^ 32 -> exists r s, w_mul 8 23 a b = Some r /\ f32_mul U (flushed 8 23 a) (flushed 8 23 b) = Some s /\ ftz_result 8 23 s r.
Proof. intros HU. apply (agree 8 23 ltac:(lia) ltac:(lia) (w_mul 8 23) (f32_mul U) (mul_ieee 8 23) (mul754 8 23)); [apply i_mul; lia|apply mul_rel; lia|]. intros x y. apply f32_mul_ok. exact HU. Qed.
Lemma z32_div U a b : 32 <= U -> 0 <= a < 2 ^ 32 -> 0 <= b < 2 ^ 32 -> exists r s, w_div 8 23 a b = Some r /\ f32_div U (flushed 8 23 a) (flushed 8 23 b) = Some s /\ ftz_result 8 23 s r.
Proof. intros HU. apply (agree 8 23 ltac:(lia) ltac:(lia) (w_div 8 23) (f32_div U) (div_ieee 8 23) (div754 8 23)); [apply i_div; lia|apply div_rel; lia|]. intros x y. apply f32_div_ok. exact HU. Qed.
Lemma z64_add a b : 0 <= a < 2 ^ 64 -> 0 <= b < 2 ^ 64 -> exists r s, w_add 11 52 a b = Some r /\ f64_add (flushed 11 52 a) (flushed 11 52 b) = Some s /\ ftz_result 11 52 s r.
Proof. apply (agree 11 52 ltac:(lia) ltac:(lia) (w_add 11 52) f64_add (add_ieee 11 52) (add754 11 52)); [apply i_add; [lia|lia|exact w64]|apply add_rel; lia|]. intros x y. apply f64_add_ok. Qed.
Lemma z64_mul a b : 0 <= a < 2 ^ 64 -> 0 <= b < 2 ^ 64 -> exists r s, w_mul 11 52 a b = Some r /\ f64_mul (flushed 11 52 a) (flushed 11 52 b) = Some s /\ ftz_result 11 52 s r.
Proof. apply (agree 11 52 ltac:(lia) ltac:(lia) (w_mul 11 52) f64_mul (mul_ieee 11 52) (mul754 11 52)); [apply i_mul; lia|apply mul_rel; lia|]. intros x y. apply f64_mul_ok. Qed.
Lemma z64_div a b : 0 <= a < 2 ^ 64 -> 0 <= b < 2 ^ 64 -> exists r s, w_div 11 52 a b = Some r /\ f64_div (flushed 11 52 a) (flushed 11 52 b) = Some s /\ ftz_result 11 52 s r.
Proof. apply (agree 11 52 ltac:(lia) ltac:(lia) (w_div 11 52) f64_div (div_ieee 11 52) (div754 11 52)); [apply i_div; lia|apply div_rel; lia|]. intros x y. apply f64_div_ok. Qed.
Lemma z32_cmp a b : 0 <= a < 2 ^ 32 -> 0 <= b < 2 ^ 32 -> let x := flushed 8 23 a in let y := flushed 8 23 b in
  w_lt 8 23 a b = Some (f32_lt x y) /\ w_le 8 23 a b = Some (f32_le x y) /\ w_gt 8 23 a b = Some (f32_gt x y) /\ w_ge 8 23 a b = Some (f32_ge x y) /\ w_eq 8 23 a b = Some (f32_eq x y) /\ w_ne 8 23 a b = Some (f32_ne x y).
Proof.
  intros Ha Hb. cbv zeta. destruct (flush_dec 8 23 ltac:(lia) ltac:(lia) a Ha) as [Wa [Da _]]. destruct (flush_dec 8 23 ltac:(lia) ltac:(lia) b Hb) as [Wb [Db _]]. pose proof (w_comparisons_ok 8 23 a b ltac:(lia) ltac:(lia) Ha Hb) as K. pose proof (f32_cmp_ok _ _ Wa Wb) as L. cbv zeta in K, L. rewrite Da, Db, cmp754_vcmp in L. unfold lt_spec, le_spec, gt_spec, ge_spec, eq_spec in K.
  destruct K as (K1 & K2 & K3 & K4 & K5 & K6). destruct L as (L1 & L2 & L3 & L4 & L5 & L6). rewrite K1, K2, K3, K4, K5, K6, L1, L2, L3, L4, L5, L6. repeat split. destruct (vcmp _ _) as [[]|]; reflexivity.
Qed.
Lemma z64_cmp a b : 0 <= a < 2 ^ 64 -> 0 <= b < 2 ^ 64 -> let x := flushed 11 52 a in let y := flushed 11 52 b in
  w_lt 11 52 a b = Some (f64_lt x y) /\ w_le 11 52 a b = Some (f64_le x y) /\ w_gt 11 52 a b = Some (f64_gt x y) /\ w_ge 11 52 a b = Some (f64_ge x y) /\ w_eq 11 52 a b = Some (f64_eq x y) /\ w_ne 11 52 a b = Some (f64_ne x y).
Proof.
  intros Ha Hb. cbv zeta. destruct (flush_dec 11 52 ltac:(lia) ltac:(lia) a Ha) as [Wa [Da _]]. destruct (flush_dec 11 52 ltac:(lia) ltac:(lia) b Hb) as [Wb [Db _]]. pose proof (w_comparisons_ok 11 52 a b ltac:(lia) ltac:(lia) Ha Hb) as K. pose proof (f64_cmp_ok _ _ Wa Wb) as L. cbv zeta in K, L. rewrite Da, Db, cmp754_vcmp in L. unfold lt_spec, le_spec, gt_spec, ge_spec, eq_spec in K.
  destruct K as (K1 & K2 & K3 & K4 & K5 & K6). destruct L as (L1 & L2 & L3 & L4 & L5 & L6). rewrite K1, K2, K3, K4, K5, K6, L1, L2, L3, L4, L5, L6. repeat split. destruct (vcmp _ _) as [[]|]; reflexivity.
Qed.
