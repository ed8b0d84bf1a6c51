(** The single-path adder preserves order although it misrounds: proofs for C74. *)
From Coq Require Import ZArith Bool Lia Reals Lra.
From Flocq Require Import Core.
From Verif Require Import Fw FwLemmas Spec SpecLemmas SpecFma SpecFlocq SpecReal OrderProofs.
From Verif Require ValueLemmas.
Open Scope Z_scope.

Section S.
Context (lo hi F : Z) (HF : 0 <= F) (HL : lo <= hi).
Notation rn := (round radix2 (FLX_exp (F + 1)) ZnearestE).
Instance prec_pos : Prec_gt_0 (F + 1).
Proof. unfold Prec_gt_0. lia. Qed.
(** The value v a rounded real r ends up as. *)
Definition clamp (r : R) (v : fval) : Prop :=
  match v with
  | Num t m e => rv v = r /\ (bpow radix2 lo <= Rabs r)%R /\ (Rabs r < bpow radix2 (hi + 1))%R
  | Zero t => (Rabs r < bpow radix2 lo)%R
  | Inf t => (t = true <-> (r < 0)%R) /\ (bpow radix2 (hi + 1) <= Rabs r)%R
  | NaN => False
  end.
Lemma rounded_clamp x v : rounded lo hi F x v -> clamp (rn x) v.
Proof.
  unfold rounded, clamp. cbv zeta. destruct v as [|t|t|t m e]; try tauto. intros [S H]. split; [|exact H].
  pose proof (bpow_gt_0 radix2 (hi + 1)). pose proof (round_nn F HF x). pose proof (round_np F HF x). rewrite S. split; intros K.
  - assert (rn x <= 0)%R by (apply H2; lra). destruct (Req_dec (rn x) 0) as [Q | Q]; [|lra]. rewrite Q, Rabs_R0 in H. lra.
  - destruct (Rlt_or_le x 0) as [Q | Q]; [exact Q|]. specialize (H1 Q). lra.
Qed.
Lemma clamp_mono r s v w : clamp r v -> clamp s w -> (r <= s)%R -> (forall t m e, v = Num t m e -> 0 < m) -> (forall t m e, w = Num t m e -> 0 < m) -> le_spec v w = true.
Proof.
  intros Hv Hw L Pv Pw. unfold clamp in *. pose proof (bpow_gt_0 radix2 lo) as B0. pose proof (bpow_le radix2 lo (hi + 1) ltac:(lia)) as B1.
  assert (AX : (r < 0 /\ Rabs r = - r \/ 0 <= r /\ Rabs r = r)%R). { destruct (Rlt_or_le r 0) as [Q | Q]; [left|right]; (split; [exact Q|]); [apply Rabs_left|apply Rabs_pos_eq]; assumption. }
  assert (AY : (s < 0 /\ Rabs s = - s \/ 0 <= s /\ Rabs s = s)%R). { destruct (Rlt_or_le s 0) as [Q | Q]; [left|right]; (split; [exact Q|]); [apply Rabs_left|apply Rabs_pos_eq]; assumption. }
  assert (K : forall (t : bool) (P : Prop), (t = true <-> P) -> ((t = true /\ P) \/ (t = false /\ ~ P))). { intros t P [H1 H2]. destruct t; [left; auto|right; split; [reflexivity|]; intros p; specialize (H2 p); discriminate]. }
  destruct v as [|a|a|a m e]; [contradiction|..]; destruct w as [|b|b|b n f]; try contradiction.
  - destruct Hv as [S1 H1], Hw as [S2 H2]. destruct (K _ _ S1) as [[-> ?] | [-> ?]], (K _ _ S2) as [[-> ?] | [-> ?]]; try reflexivity. exfalso. lra.
  - destruct Hv as [S1 H1]. destruct (K _ _ S1) as [[-> ?] | [-> ?]]; try reflexivity. exfalso. destruct AX as [[? E1] | [? E1]]; destruct AY as [[? E2] | [? E2]]; rewrite E1, E2 in *; lra.
  - destruct Hv as [S1 H1], Hw as [H2 [H3 H4]]. destruct (K _ _ S1) as [[-> ?] | [-> ?]]; try reflexivity. exfalso. destruct AX as [[? E1] | [? E1]]; destruct AY as [[? E2] | [? E2]]; rewrite E1, E2 in *; lra.
  - destruct Hw as [S2 H2]. destruct (K _ _ S2) as [[-> ?] | [-> ?]]; try reflexivity. exfalso. destruct AX as [[? E1] | [? E1]]; destruct AY as [[? E2] | [? E2]]; rewrite E1, E2 in *; lra.
  - reflexivity.
  - destruct Hw as [H2 [H3 H4]]. pose proof (rv_pos b n f (Pw _ _ _ eq_refl)) as Q. destruct b; [|reflexivity]. exfalso. rewrite H2 in Q. destruct AX as [[? E1] | [? E1]]; destruct AY as [[? E2] | [? E2]]; rewrite E1, E2 in *; lra.
  - destruct Hv as [H1 [H3 H4]], Hw as [S2 H2]. destruct (K _ _ S2) as [[-> ?] | [-> ?]]; try reflexivity. exfalso. destruct AX as [[? E1] | [? E1]]; destruct AY as [[? E2] | [? E2]]; rewrite E1, E2 in *; lra.
  - destruct Hv as [H1 [H3 H4]]. pose proof (rv_pos a m e (Pv _ _ _ eq_refl)) as Q. destruct a; [reflexivity|]. exfalso. rewrite H1 in Q. destruct AX as [[? E1] | [? E1]]; destruct AY as [[? E2] | [? E2]]; rewrite E1, E2 in *; lra.
  - destruct Hv as [H1 [H3 H4]], Hw as [H2 [H5 H6]]. unfold le_spec. cbn [vcmp]. rewrite cmp_rv, H1, H2. destruct (Rcompare_spec r s); try reflexivity. lra.
Qed.
(** x is the power of two 2^p and z is negative, between a quarter and half an ulp of x below. *)
Definition ab (p : Z) (x z : R) : Prop := x = bpow radix2 p /\ (- bpow radix2 (p - F - 1) < z < - bpow radix2 (p - F - 2))%R.
(** What the adder returns for the sum of x and z, before the range is applied. *)
Definition res (x z r : R) : Prop :=
  (exists p, (ab p x z \/ ab p z x) /\ r = bpow radix2 p) \/ (exists p, (ab p (- x) (- z) \/ ab p (- z) (- x)) /\ r = (- bpow radix2 p)%R) \/
  ((forall p, ~ ab p x z /\ ~ ab p z x /\ ~ ab p (- x) (- z) /\ ~ ab p (- z) (- x)) /\ r = rn (x + z)).
Lemma rn_pow p : rn (bpow radix2 p) = bpow radix2 p.
Proof. apply round_generic; [apply valid_rnd_N|]. apply generic_format_bpow. unfold FLX_exp. lia. Qed.
Lemma half p : bpow radix2 p = (2 * bpow radix2 (p - 1))%R.
Proof. replace p with (1 + (p - 1)) at 1 by lia. rewrite bpow_plus. reflexivity. Qed.
Lemma ab_sum p x z : ab p x z -> (bpow radix2 (p - 1) < x + z < bpow radix2 p /\ bpow radix2 p - bpow radix2 (p - F - 1) < x + z)%R.
Proof. intros [-> [H1 H2]]. pose proof (bpow_gt_0 radix2 (p - F - 2)). pose proof (bpow_le radix2 (p - F - 1) (p - 1) ltac:(lia)). rewrite (half p). lra. Qed.
Lemma rn_mid p : rn (bpow radix2 p - bpow radix2 (p - F - 2)) = bpow radix2 p.
Proof.
  unfold round, scaled_mantissa, cexp, F2R. cbn [Fnum Fexp]. set (x := (bpow radix2 p - bpow radix2 (p - F - 2))%R).
  assert (M : Core.Raux.mag radix2 x = p :> Z). { apply mag_unique_pos. unfold x. pose proof (bpow_gt_0 radix2 (p - F - 2)). pose proof (bpow_le radix2 (p - F - 2) (p - 1) ltac:(lia)). rewrite (half p). lra. }
  rewrite M. unfold FLX_exp. assert (X : (x * bpow radix2 (- (p - (F + 1))) = IZR (2 ^ (F + 2) - 1) / IZR 2)%R).
  { unfold x. rewrite Rmult_minus_distr_r, <- !bpow_plus. rewrite minus_IZR, pow_bpow by lia. replace (p - F - 2 + - (p - (F + 1))) with (- 1) by lia. replace (p + - (p - (F + 1))) with (F + 1) by lia. rewrite (half (F + 2)). replace (F + 2 - 1) with (F + 1) by lia. change (bpow radix2 (- 1)) with (/ 2)%R. field. }
  rewrite X, <- rne_flocq by lia. replace (rne_div (2 ^ (F + 2) - 1) 2) with (2 ^ (F + 1)). { rewrite pow_bpow, <- bpow_plus by lia. f_equal. lia. }
  unfold rne_div. cbv zeta. pose proof (pow2_pos F HF). assert (P : 2 ^ (F + 2) = 2 * (2 * 2 ^ F)). { rewrite (Z.pow_add_r 2 F 2) by lia. change (2 ^ 2) with 4. lia. } assert (Q : 2 ^ (F + 1) = 2 * 2 ^ F). { rewrite (Z.pow_add_r 2 F 1) by lia. lia. }
  assert (D : (2 ^ (F + 2) - 1) / 2 = 2 * 2 ^ F - 1). { symmetry. apply (Z.div_unique _ _ _ 1); lia. } assert (R : (2 ^ (F + 2) - 1) mod 2 = 1). { symmetry. apply (Z.mod_unique _ _ (2 * 2 ^ F - 1)); lia. }
  rewrite D, R. change (2 * 1 <? 2) with false. change (2 <? 2 * 1) with false. cbv iota. assert (EV : Z.even (2 * 2 ^ F - 1) = false) by (rewrite Z.even_sub, Z.even_mul; reflexivity). rewrite EV. lia.
Qed.
Lemma next_pow p y : generic_format radix2 (FLX_exp (F + 1)) y -> (bpow radix2 p < y)%R -> (bpow radix2 p + bpow radix2 (p - F) <= y)%R.
Proof.
  intros G H. assert (GP : generic_format radix2 (FLX_exp (F + 1)) (bpow radix2 p)) by (apply generic_format_bpow; unfold FLX_exp; lia).
  pose proof (succ_le_lt radix2 (FLX_exp (F + 1)) _ _ GP G H) as S. rewrite succ_eq_pos in S by (apply bpow_ge_0). rewrite ulp_bpow in S. unfold FLX_exp in S. replace (p + 1 - (F + 1)) with (p - F) in S by lia. exact S.
Qed.
Definition fmt (x : R) : Prop := generic_format radix2 (FLX_exp (F + 1)) x.
(** The result with the larger operand is not below that power of two. *)
Lemma above_pow p x y z s : fmt y -> (ab p x z \/ ab p z x) -> (x <= y)%R -> res y z s -> (bpow radix2 p <= s)%R.
Proof.
  intros G A L Rs. assert (B : (bpow radix2 (p - 1) < x + z < bpow radix2 p /\ bpow radix2 p - bpow radix2 (p - F - 1) < x + z)%R). { destruct A as [A | A]; [apply ab_sum; exact A|rewrite Rplus_comm; apply ab_sum; exact A]. }
  destruct B as [[B1 B2] B3]. pose proof (bpow_gt_0 radix2 (p - 1)) as P0. pose proof (half p) as HP. pose proof (bpow_le radix2 (p - F - 1) (p - 1) ltac:(lia)) as P1. pose proof (bpow_gt_0 radix2 (p - F - 2)) as P2.
  destruct Rs as [[q [C ->]] | [[q [C ->]] | [N ->]]].
  - assert (D : (y + z < bpow radix2 q)%R). { destruct C as [C | C]; apply ab_sum in C; lra. } assert (bpow radix2 (p - 1) < bpow radix2 q)%R by lra. apply lt_bpow in H. apply bpow_le. lia.
  - exfalso. pose proof (bpow_gt_0 radix2 (q - 1)). destruct C as [C | C]; apply ab_sum in C; lra.
  - destruct (Rle_or_lt (bpow radix2 p) (y + z)) as [Q | Q]. { rewrite <- (rn_pow p). apply (round_mono F HF). exact Q. }
    destruct A as [[-> A] | [-> A]].
    + destruct (Req_dec y (bpow radix2 p)) as [-> | NE]. { exfalso. apply (proj1 (N p)). split; [reflexivity|exact A]. }
      exfalso. assert (LT : (bpow radix2 p < y)%R) by (destruct L as [L | L]; [exact L|congruence]). pose proof (next_pow p y G LT) as S. rewrite (half (p - F)) in S. pose proof (bpow_gt_0 radix2 (p - F - 1)). lra.
    + assert (Y : (- bpow radix2 (p - F - 2) <= y)%R). { destruct (Rle_or_lt (- bpow radix2 (p - F - 2)) y) as [K | K]; [exact K|]. exfalso. apply (proj1 (proj2 (N p))). split; [reflexivity|]. lra. }
      apply Rle_trans with (rn (bpow radix2 p - bpow radix2 (p - F - 2))); [rewrite rn_mid; apply Rle_refl|]. apply (round_mono F HF). lra.
Qed.
Lemma res_opp x z r : res x z r -> res (- x) (- z) (- r).
Proof.
  intros [[p [A ->]] | [[p [A ->]] | [N ->]]].
  - right; left. exists p. rewrite !Ropp_involutive. auto.
  - left. exists p. rewrite Ropp_involutive. auto.
  - right; right. rewrite !Ropp_involutive. split; [intros p; specialize (N p); tauto|]. rewrite <- Ropp_plus_distr. symmetry. apply round_NE_opp.
Qed.
Lemma fmt_opp x : fmt x -> fmt (- x).
Proof. apply generic_format_opp. Qed.
Lemma res_mono x y z r s : fmt x -> fmt y -> res x z r -> res y z s -> (x <= y)%R -> (r <= s)%R.
Proof.
  intros Gx Gy Rx Ry L. destruct Rx as [[p [A ->]] | Rx]. { eapply above_pow; eassumption. }
  assert (RX : (r <= rn (x + z))%R). { destruct Rx as [[p [A ->]] | [N ->]]; [|apply Rle_refl]. rewrite <- (rn_pow p), <- round_NE_opp. apply (round_mono F HF). destruct A as [A | A]; apply ab_sum in A; lra. }
  destruct Ry as [[q [C ->]] | [[q [C ->]] | [N ->]]].
  - apply Rle_trans with (1 := RX). rewrite <- (rn_pow q). apply Rle_trans with (rn (y + z)); apply (round_mono F HF); [lra|]. destruct C as [C | C]; apply ab_sum in C; lra.
  - assert (K : (bpow radix2 q <= - r)%R). { apply (above_pow q (- y) (- x) (- z)); [apply fmt_opp; exact Gx|exact C|lra|]. apply res_opp. destruct Rx as [Rx | Rx]; [right; left; exact Rx|right; right; exact Rx]. } lra.
  - apply Rle_trans with (1 := RX). apply (round_mono F HF). lra.
Qed.
End S.
