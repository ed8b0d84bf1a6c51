(** Exact operations: conversion, fused multiply-add, Sterbenz' subtraction, identities; proofs for C75. *)
From Coq Require Import ZArith Bool Lia Reals Lra.
From Flocq Require Import Core Sterbenz.
From Verif Require Import Fw FwLemmas Spec SpecLemmas SpecFma SpecFlocq SpecReal SpecOrder Flopoco CompareProofs FlopocoProofs ConvertProofs Mul MulProofs Div DivProofs3 AddDual AddDualProofs AddDualProofs5 AddDualProofs6 Fma FmaProofs RealProofs PolicyProofs PolicyProofs2 OrderProofs OrderSingle OrderProofs2 OrderProofs3 ExactProofs.
From Verif Require ValueLemmas.
Open Scope Z_scope.

Notation rn F := (round radix2 (FLX_exp (F + 1)) ZnearestE).
Definition in_range (lo hi : Z) (x : R) : Prop := x = 0%R \/ (bpow radix2 lo <= Rabs x < bpow radix2 (hi + 1))%R.
Lemma rounded_fits lo hi F x v : 0 <= F -> lo <= hi -> fmt F x -> in_range lo hi x -> rounded lo hi F x v -> finite_v v /\ rv v = x.
Proof.
  intros HF HL G IR R. unfold rounded in R. cbv zeta in R. assert (PR : Prec_gt_0 (F + 1)) by (unfold Prec_gt_0; lia). rewrite round_generic in R; [|apply valid_rnd_N|exact G].
  pose proof (bpow_gt_0 radix2 lo) as B. pose proof (bpow_le radix2 lo (hi + 1) ltac:(lia)) as BL. destruct IR as [-> | IR].
  - rewrite Rabs_R0 in R. destruct v as [|t|t|t n f]; [contradiction|exfalso; lra|split; [exact I|reflexivity]|exfalso; lra].
  - destruct v as [|t|t|t n f]; [contradiction|exfalso; lra|exfalso; lra|]. split; [exact I|]. apply R.
Qed.
Lemma dec_range E F w : 1 <= E -> 1 <= F -> finite_v (decode E F w) -> in_range (emin E) (emax E) (rv (decode E F w)).
Proof.
  intros HE HF FW. destruct (decode E F w) as [|a|a|a m e] eqn:D; try contradiction; [left; reflexivity|right].
  pose proof (dec_clamp E F w HE HF ltac:(rewrite D; eauto)) as C. rewrite D in C. destruct C as [_ C]. exact C.
Qed.
Lemma fmt_wider F G x : 0 <= F <= G -> fmt F x -> fmt G x.
Proof. intros H. unfold fmt. apply generic_inclusion_mag. intros _. unfold FLX_exp. lia. Qed.
Lemma range_wider lo hi lo' hi' x : lo' <= lo -> hi <= hi' -> in_range lo hi x -> in_range lo' hi' x.
Proof. intros H1 H2 [-> | [A B]]; [left; reflexivity|right]. pose proof (bpow_le radix2 _ _ H1). pose proof (bpow_le radix2 (hi + 1) (hi' + 1) ltac:(lia)). lra. Qed.
Lemma em_mono E G : 1 <= E <= G -> emin G <= emin E /\ emax E <= emax G.
Proof. intros H. unfold emin, emax, bias. pose proof (pow2_le (E - 1) (G - 1) ltac:(lia)). lia. Qed.
Lemma num_finite v : number v -> finite_v v.
Proof. destruct v; cbn; tauto. Qed.
Lemma rounded_okv lo hi F x v : rounded lo hi F x v -> match v with NaN => False | _ => True end.
Proof. destruct v; cbn; tauto. Qed.

Lemma x_convert ER FR EX FX x w : 1 <= ER -> 1 <= FR -> 1 <= EX -> 1 <= FX -> wf (EX + FX + 3) x -> wf (ER + FR + 3) w -> finite_v (decode EX FX x) -> finite_v (decode ER FR w) -> rv (decode ER FR w) <> 0%R -> rv (decode EX FX x) = rv (decode ER FR w) ->
  convert ER FR EX FX x = Some w.
Proof.
  intros H1 H2 H3 H4 Wx Ww Fx Fw NZ Q. destruct (convert_r ER FR EX FX x H1 H2 H3 H4 Wx Fx ltac:(rewrite Q; exact NZ)) as [r [Ar [Wr R]]]. rewrite Ar. f_equal. destruct (rounded_exact ER FR _ _ w H1 H2 Fw Q R) as [A B]. apply (exact_word ER FR r w); try assumption. split; [exact A|]. rewrite B. exact Q.
Qed.
(** The fused multiply-add when the exact result fits the result format. *)
Lemma fma_fits wER wFR wEX wFX wEY wFY wEZ wFZ x y z :
  1 <= wER -> 1 <= wFR -> 1 <= wEX -> 1 <= wFX -> 1 <= wEY -> 1 <= wFY -> 1 <= wEZ -> 1 <= wFZ ->
  let E := Z.max (Z.max wEX wEY + 2) (wEZ + 1) in let F := Z.max (wFX + wFY + 2) wFZ in
  dual_ok_width E F -> wER <= E -> wFR <= F -> wER <> E \/ F <= wFR -> wf (wEX + wFX + 3) x -> wf (wEY + wFY + 3) y -> wf (wEZ + wFZ + 3) z ->
  finite_v (decode wEX wFX x) -> finite_v (decode wEY wFY y) -> finite_v (decode wEZ wFZ z) ->
  let v := (rv (decode wEX wFX x) * rv (decode wEY wFY y) + rv (decode wEZ wFZ z))%R in fmt wFR v -> in_range (emin wER) (emax wER) v ->
  exists r, fma wER wFR wEX wFX wEY wFY wEZ wFZ x y z = Some r /\ wf (wER + wFR + 3) r /\ finite_v (decode wER wFR r) /\ rv (decode wER wFR r) = v.
Proof.
  intros H1 H2 H3 H4 H5 H6 H7 H8 E F OK LE LF D Wx Wy Wz Fx Fy Fz v G IR. destruct (fma_two_roundings wER wFR wEX wFX wEY wFY wEZ wFZ x y z H1 H2 H3 H4 H5 H6 H7 H8 OK D Wx Wy Wz) as [r [Ar [Wr Dr]]]. fold E F in Dr. exists r. split; [exact Ar|]. split; [exact Wr|]. clear Ar. assert (1 <= E /\ 1 <= F) as [HE HF] by (unfold E, F; lia). clearbody E F. assert (HNN : 0 <= F) by lia. assert (HNR : 0 <= wFR) by lia.
  apply decode_number in Fx; try assumption. apply decode_number in Fy; try assumption. apply decode_number in Fz; try assumption. destruct (prod_number _ _ Fx Fy) as [PN PV].
  pose proof (add_real (emin E) (emax E) F ltac:(lia) (or_em E HE) _ _ PN Fz) as R. rewrite PV in R. fold v in R.
  destruct (em_mono wER E ltac:(lia)) as [M1 M2]. destruct (rounded_fits _ _ _ _ _ HNN (or_em E HE) (fmt_wider wFR F v ltac:(lia) G) (range_wider _ _ _ _ _ M1 M2 IR) R) as [A1 A2].
  assert (OA : okv (add_spec E F (prod_exact (decode wEX wFX x) (decode wEY wFY y)) (decode wEZ wFZ z))) by (apply add_okv; [lia|apply or_em; exact HE|apply prod_okv; apply dec_okv; assumption|apply dec_okv; assumption]).
  assert (NA : number (add_spec E F (prod_exact (decode wEX wFX x) (decode wEY wFY y)) (decode wEZ wFZ z))). { change (add_gen (round_range (emin E) (emax E) F)) with (add_spec E F) in A1. destruct (add_spec E F (prod_exact (decode wEX wFX x) (decode wEY wFY y)) (decode wEZ wFZ z)); try contradiction; exact OA || exact I. }
  pose proof (convert_real (emin wER) (emax wER) wFR ltac:(lia) (or_em wER H1) _ NA) as R2. change (convert_gen (round_range (emin wER) (emax wER) wFR)) with (convert_spec wER wFR) in R2. rewrite <- Dr in R2.
  change (rv (add_spec E F (prod_exact (decode wEX wFX x) (decode wEY wFY y)) (decode wEZ wFZ z)) = v) in A2. rewrite A2 in R2. exact (rounded_fits _ _ _ _ _ HNR (or_em wER H1) G IR R2).
Qed.
Lemma x_fma wER wFR wEX wFX wEY wFY wEZ wFZ x y z w :
  1 <= wER -> 1 <= wFR -> 1 <= wEX -> 1 <= wFX -> 1 <= wEY -> 1 <= wFY -> 1 <= wEZ -> 1 <= wFZ ->
  let E := Z.max (Z.max wEX wEY + 2) (wEZ + 1) in let F := Z.max (wFX + wFY + 2) wFZ in
  dual_ok_width E F -> wER <= E -> wFR <= F -> wER <> E \/ F <= wFR -> wf (wEX + wFX + 3) x -> wf (wEY + wFY + 3) y -> wf (wEZ + wFZ + 3) z -> wf (wER + wFR + 3) w ->
  finite_v (decode wEX wFX x) -> finite_v (decode wEY wFY y) -> finite_v (decode wEZ wFZ z) -> finite_v (decode wER wFR w) ->
  (rv (decode wEX wFX x) * rv (decode wEY wFY y) + rv (decode wEZ wFZ z) = rv (decode wER wFR w))%R ->
  exists r, fma wER wFR wEX wFX wEY wFY wEZ wFZ x y z = Some r /\ finite_v (decode wER wFR r) /\ rv (decode wER wFR r) = rv (decode wER wFR w) /\ (rv (decode wER wFR w) <> 0%R -> r = w).
Proof.
  intros H1 H2 H3 H4 H5 H6 H7 H8 E F OK LE LF D Wx Wy Wz Ww Fx Fy Fz Fw Q.
  destruct (fma_fits wER wFR wEX wFX wEY wFY wEZ wFZ x y z H1 H2 H3 H4 H5 H6 H7 H8 OK LE LF D Wx Wy Wz Fx Fy Fz) as [r [Ar [Wr [A B]]]]; [rewrite Q; apply dec_fmt; lia|rewrite Q; apply dec_range; assumption|].
  exists r. split; [exact Ar|]. split; [exact A|]. rewrite Q in B. split; [exact B|]. intros NZ. apply (exact_word wER wFR r w); try assumption. split; assumption.
Qed.
Lemma neg_ok E F y : 1 <= E -> 1 <= F -> wf (E + F + 3) y -> exists r, neg E F E F y = Some r /\ wf (E + F + 3) r /\ (finite_v (decode E F y) -> finite_v (decode E F r)) /\ rv (decode E F r) = (- rv (decode E F y))%R.
Proof.
  intros HE HF W. destruct (neg_same_format E F y HE HF W) as [_ [r [A [B [_ D]]]]]. exists r. split; [exact A|]. split; [exact B|]. rewrite D. split; [destruct (decode E F y); exact (fun h => h)|]. apply rv_neg.
Qed.
Lemma dual_EF E F : dual_ok_width E F -> 3 < E /\ 1 <= F.
Proof. unfold dual_ok_width. lia. Qed.
Lemma add_same_r E F x y : dual_ok_width E F -> wf (E + F + 3) x -> wf (E + F + 3) y -> finite_v (decode E F x) -> finite_v (decode E F y) ->
  exists r, add_dual E F E F E F x y = Some r /\ wf (E + F + 3) r /\ rounded (emin E) (emax E) F (rv (decode E F x) + rv (decode E F y)) (decode E F r).
Proof. intros OK Wx Wy Fx Fy. destruct (dual_EF E F OK) as [HE HF]. pose proof (add_r E F E F x y ltac:(lia) HF ltac:(lia) HF) as H. cbv zeta in H. rewrite !Z.max_id in H. apply H; assumption. Qed.
(** Sterbenz: close numbers are subtracted exactly. *)
Lemma x_sterbenz E F x y : dual_ok_width E F -> wf (E + F + 3) x -> wf (E + F + 3) y -> finite_v (decode E F x) -> finite_v (decode E F y) ->
  (rv (decode E F y) / 2 <= rv (decode E F x) <= 2 * rv (decode E F y))%R ->
  exists ny r, neg E F E F y = Some ny /\ add_dual E F E F E F x ny = Some r /\ finite_v (decode E F r) /\
    (rv (decode E F r) = (rv (decode E F x) - rv (decode E F y))%R \/ rv (decode E F r) = 0%R /\ (Rabs (rv (decode E F x) - rv (decode E F y)) < bpow radix2 (emin E))%R).
Proof.
  intros OK Wx Wy Fx Fy S. destruct (dual_EF E F OK) as [HE HF]. destruct (neg_ok E F y ltac:(lia) HF Wy) as [ny [An [Wn [Fn Vn]]]]. specialize (Fn Fy). destruct (add_same_r E F x ny OK Wx Wn Fx Fn) as [r [Ar [Wr R]]]. rewrite Vn in R. exists ny, r. split; [exact An|]. split; [exact Ar|]. clear An Ar.
  assert (PR : Prec_gt_0 (F + 1)) by (unfold Prec_gt_0; lia).
  pose proof (dec_fmt E F F x ltac:(lia) ltac:(lia)) as Gx. pose proof (dec_fmt E F F y ltac:(lia) ltac:(lia)) as Gy.
  assert (G : fmt F (rv (decode E F x) - rv (decode E F y))). { unfold fmt in *. apply sterbenz; try assumption; typeclasses eauto. }
  pose proof (dec_range E F y ltac:(lia) HF Fy) as RY. pose proof (or_em E ltac:(lia)) as EM. pose proof (bpow_gt_0 radix2 (emax E + 1)) as B0.
  set (a := rv (decode E F x)) in *. set (b := rv (decode E F y)) in *. assert (AB : (Rabs (a - b) < bpow radix2 (emax E + 1))%R). { destruct RY as [-> | [_ RY]]; [replace a with 0%R by lra; rewrite Rminus_0_r, Rabs_R0; exact B0|]. apply Rle_lt_trans with (2 := RY). rewrite (Rabs_pos_eq b) by lra. apply Rabs_le. lra. }
  destruct (Rlt_or_le (Rabs (a - b)) (bpow radix2 (emin E))) as [U | U].
  - unfold rounded in R. cbv zeta in R. change (a + - b)%R with (a - b)%R in R. rewrite round_generic in R; [|apply valid_rnd_N|exact G]. destruct (decode E F r) as [|t|t|t n f]; [contradiction|exfalso; lra| |exfalso; lra]. split; [exact I|]. right. split; [reflexivity|exact U].
  - assert (HNN : 0 <= F) by lia. destruct (rounded_fits _ _ _ _ _ HNN EM G (or_intror (conj U AB)) R) as [A B]. split; [exact A|left; exact B].
Qed.
(** No difference is lost when both operands are large enough, or zero. *)
Definition coarse (lo : Z) (x : R) : Prop := exists k, x = (IZR k * bpow radix2 lo)%R.
Lemma dec_coarse E F x : 1 <= E -> 1 <= F -> finite_v (decode E F x) -> rv (decode E F x) = 0%R \/ (bpow radix2 (emin E + F) <= Rabs (rv (decode E F x)))%R -> coarse (emin E) (rv (decode E F x)).
Proof.
  intros HE HF FX H. destruct (decode E F x) as [|a|a|a m e] eqn:D; try contradiction; [exists 0; cbn [rv]; ring|].
  destruct (dec_num E F x a m e HE HF D) as [M _]. pose proof (pow2_pos F ltac:(lia)) as P.
  assert (EE : emin E <= e). { destruct H as [H | H]. { pose proof (rv_pos a m e ltac:(lia)). destruct a; lra. }
    assert (X : Rabs (rv (Num a m e)) = (IZR m * bpow radix2 e)%R). { pose proof (rv_pos false m e ltac:(lia)) as Q. cbn [rv] in Q. rewrite rv_sgn. destruct a; cbn [sgnR]; rewrite ?Rabs_Ropp; apply Rabs_pos_eq; lra. }
    rewrite X in H. assert (L : (IZR m * bpow radix2 e < bpow radix2 (F + 1 + e))%R). { rewrite (bpow_plus radix2 (F + 1) e). apply Rmult_lt_compat_r; [apply bpow_gt_0|]. rewrite <- pow_bpow by lia. apply IZR_lt. lia. }
    assert (K : (bpow radix2 (emin E + F) < bpow radix2 (F + 1 + e))%R) by lra. apply lt_bpow in K. lia. }
  exists (sgn a (m * 2 ^ (e - emin E))). apply sgn_real. exact EE.
Qed.
Lemma coarse_sub lo x y : coarse lo x -> coarse lo y -> coarse lo (x - y).
Proof. intros [j ->] [k ->]. exists (j - k). rewrite minus_IZR. ring. Qed.
Lemma coarse_add lo x y : coarse lo x -> coarse lo y -> coarse lo (x + y).
Proof. intros [j ->] [k ->]. exists (j + k). rewrite plus_IZR. ring. Qed.
Lemma coarse_ge lo x : coarse lo x -> x <> 0%R -> (bpow radix2 lo <= Rabs x)%R.
Proof.
  intros [k ->] N. assert (k <> 0) by (intros ->; apply N; ring). rewrite Rabs_mult, (Rabs_pos_eq (bpow radix2 lo)) by (apply bpow_ge_0). rewrite <- abs_IZR. rewrite <- (Rmult_1_l (bpow radix2 lo)) at 1. apply Rmult_le_compat_r; [apply bpow_ge_0|]. apply IZR_le. lia.
Qed.
Lemma x_sub_zero E F x y : dual_ok_width E F -> wf (E + F + 3) x -> wf (E + F + 3) y -> finite_v (decode E F x) -> finite_v (decode E F y) ->
  rv (decode E F x) = 0%R \/ (bpow radix2 (emin E + F) <= Rabs (rv (decode E F x)))%R -> rv (decode E F y) = 0%R \/ (bpow radix2 (emin E + F) <= Rabs (rv (decode E F y)))%R ->
  exists ny r, neg E F E F y = Some ny /\ add_dual E F E F E F x ny = Some r /\ ((exists t, decode E F r = Zero t) <-> rv (decode E F x) = rv (decode E F y)).
Proof.
  intros OK Wx Wy Fx Fy Cx Cy. destruct (dual_EF E F OK) as [HE HF]. destruct (neg_ok E F y ltac:(lia) HF Wy) as [ny [An [Wn [Fn Vn]]]]. specialize (Fn Fy). destruct (add_same_r E F x ny OK Wx Wn Fx Fn) as [r [Ar [Wr R]]]. rewrite Vn in R. exists ny, r. split; [exact An|]. split; [exact Ar|]. clear An Ar.
  assert (PR : Prec_gt_0 (F + 1)) by (unfold Prec_gt_0; lia). apply dec_coarse in Cx; try assumption; try lia. apply dec_coarse in Cy; try assumption; try lia. set (a := rv (decode E F x)) in *. set (b := rv (decode E F y)) in *. unfold rounded in R. cbv zeta in R. change (a + - b)%R with (a - b)%R in R. pose proof (bpow_gt_0 radix2 (emin E)) as B0. pose proof (or_em E ltac:(lia)) as EM. pose proof (bpow_le radix2 (emin E) (emax E + 1) ltac:(lia)) as BL. split.
  - intros [t D]. rewrite D in R. destruct R as [_ R]. destruct (Req_dec a b) as [Q | Q]; [exact Q|exfalso]. pose proof (coarse_ge _ _ (coarse_sub _ _ _ Cx Cy) ltac:(lra)) as C.
    assert (K : (bpow radix2 (emin E) <= Rabs (rn F (a - b)))%R). { apply abs_round_ge_generic; try typeclasses eauto; try exact C. apply generic_format_bpow. unfold FLX_exp. lia. } lra.
  - intros Q. rewrite Q, Rminus_diag_eq, round_0, Rabs_R0 in R by (try reflexivity; apply valid_rnd_N). destruct (decode E F r) as [|t|t|t n f]; [contradiction|exfalso; lra|exists t; reflexivity|exfalso; lra].
Qed.
