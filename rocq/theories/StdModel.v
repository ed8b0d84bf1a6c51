(** The standard model of floating-point arithmetic from the flags. *)
From Coq Require Import ZArith Bool Lia Reals Lra.
From Flocq Require Import Core Relative Round_odd.
From Verif Require Import Spec Spec754 Spec754Mode Fw FwLemmas SpecLemmas SpecFlocq SpecReal SpecFlocq754Mode SoftFloat SfProofs1 SoftFloatFlags SpecFlags SpecFlagsMode SpecStdModel.
Open Scope Z_scope.
Local Existing Instance rnd_of_valid.

Section Fmt.
Context (md : rmode) (E F : Z).
Context (HE : 4 <= E <= 15) (HF : 1 <= F).
Local Notation flt := (FLT_exp (1 - bias E - F) (F + 1)).
Local Notation flx := (FLX_exp (F + 1)).
Local Notation least := (bpow radix2 (1 - bias E)).
Local Instance PP : Prec_gt_0 (F + 1).
Proof. red. lia. Qed.

Lemma flx_min_m : generic_format radix2 flx least.
Proof. apply generic_format_bpow. unfold FLX_exp. lia. Qed.
Lemma flt_min_m : generic_format radix2 flt least.
Proof. apply generic_format_bpow. unfold FLT_exp. lia. Qed.
Lemma small_of_flx_m x : (Rabs (rounded_unboundedm md F x) < least)%R -> (Rabs x < least)%R.
Proof.
  intros H. destruct (Rle_or_lt least (Rabs x)) as [L|L]; [|exact L]. exfalso.
  apply (Rlt_not_le _ _ H). apply abs_round_ge_generic; [typeclasses eauto|typeclasses eauto|exact flx_min_m|exact L].
Qed.
Lemma flx_small_m x : (Rabs x < least)%R -> (Rabs (rounded_unboundedm md F x) <= least)%R.
Proof. intros H. apply abs_round_le_generic; [typeclasses eauto|typeclasses eauto|exact flx_min_m|now apply Rlt_le]. Qed.
Lemma flt_small_m x : (Rabs x < least)%R -> (Rabs (rounded_formatm md E F x) <= least)%R.
Proof. intros H. apply abs_round_le_generic; [typeclasses eauto|typeclasses eauto|exact flt_min_m|now apply Rlt_le]. Qed.
Lemma same_above x : (least <= Rabs x)%R -> rounded_formatm md E F x = rounded_unboundedm md F x.
Proof. intros L. apply round_FLT_FLX. replace (1 - bias E - F + (F + 1) - 1) with (1 - bias E) by lia. exact L. Qed.
Lemma overflows_flt_m x : overflowsm md E F x <-> (bpow radix2 (bias E + 1) <= Rabs (rounded_formatm md E F x))%R.
Proof.
  unfold overflowsm. destruct (sf_EB E ltac:(lia)) as [_ B3]. assert (B : (least < bpow radix2 (bias E + 1))%R) by (apply bpow_lt; lia).
  destruct (Rle_or_lt least (Rabs x)) as [L|L].
  - rewrite same_above by exact L. tauto.
  - pose proof (flx_small_m x L). pose proof (flt_small_m x L). split; intros; lra.
Qed.

Lemma unit_pos : (0 < unit_roundoff md F)%R.
Proof. destruct md; apply bpow_gt_0. Qed.
Lemma half_unit : bpow radix2 (- F - 1) = (/ 2 * bpow radix2 (- F))%R.
Proof. replace (- F - 1) with (-1 + - F) by lia. rewrite bpow_plus. reflexivity. Qed.

(** With an unbounded exponent the relative error is bounded. *)
Lemma flx_error x : (Rabs (rounded_unboundedm md F x - x) <= unit_roundoff md F * Rabs x)%R.
Proof.
  unfold rounded_unboundedm. destruct (Req_dec x 0) as [->|NZ].
  - rewrite round_0 by typeclasses eauto. rewrite Rminus_0_r, Rabs_R0. lra.
  - pose proof (relative_error_FLX radix2 (F + 1) PP (rnd_of md) x NZ) as D. replace (- (F + 1) + 1) with (- F) in D by lia.
    destruct md; cbn [rnd_of unit_roundoff] in *; try (apply Rlt_le; exact D).
    + pose proof (relative_error_N_FLX radix2 (F + 1) PP (fun n => negb (Z.even n)) x) as N. replace (- (F + 1) + 1) with (- F) in N by lia. rewrite half_unit. exact N.
    + pose proof (relative_error_N_FLX radix2 (F + 1) PP (Z.leb 0) x) as N. replace (- (F + 1) + 1) with (- F) in N by lia. rewrite half_unit. exact N.
Qed.

(** Below the least normal number the absolute error is bounded. *)
Lemma flt_error x : (Rabs x < least)%R -> (Rabs (rounded_formatm md E F x - x) <= unit_roundoff md F * least)%R.
Proof.
  intros L. unfold rounded_formatm.
  assert (UL : ulp radix2 flt x = bpow radix2 (1 - bias E - F)).
  { apply ulp_FLT_small; [exact PP|]. eapply Rlt_le_trans; [exact L|]. apply bpow_le. lia. }
  assert (D : (Rabs (round radix2 flt (rnd_of md) x - x) <= bpow radix2 (- F) * least)%R).
  { rewrite <- bpow_plus. replace (- F + (1 - bias E)) with (1 - bias E - F) by lia. rewrite <- UL. apply error_le_ulp; typeclasses eauto. }
  destruct md; cbn [rnd_of unit_roundoff] in *; try exact D; rewrite half_unit, Rmult_assoc, <- bpow_plus;
    replace (- F + (1 - bias E)) with (1 - bias E - F) by lia; rewrite <- UL; apply error_le_half_ulp; typeclasses eauto.
Qed.

(** A number below the least normal one that becomes it with an unbounded exponent: no format number is closer on that side. *)
Lemma reaches_least x : (Rabs x < least)%R -> Rabs (rounded_unboundedm md F x) = least ->
  (Rabs (rounded_formatm md E F x - x) <= Rabs (rounded_unboundedm md F x - x))%R.
Proof.
  intros L K. set (fx := rounded_unboundedm md F x) in *. set (rr := rounded_formatm md E F x).
  assert (FX : fx = least \/ fx = (- least)%R) by (unfold Rabs in K; destruct (Rcase_abs fx); [right|left]; lra).
  assert (G3 : generic_format radix2 flt fx) by (destruct FX as [-> | ->]; [|apply generic_format_opp]; exact flt_min_m).
  assert (EF : fx = round radix2 flx (rnd_of md) x) by reflexivity. assert (ER : rr = round radix2 flt (rnd_of md) x) by reflexivity.
  clearbody fx rr. destruct md; cbn [rnd_of] in EF, ER.
  - destruct (round_N_pt radix2 flt (fun n => negb (Z.even n)) x) as [_ N2]. rewrite ER. exact (N2 fx G3).
  - exfalso. apply (Rlt_irrefl least). rewrite <- K at 1. eapply Rle_lt_trans; [|exact L].
    destruct (Rle_or_lt 0 x) as [P|P].
    + rewrite EF. rewrite round_ZR_DN by exact P. rewrite (Rabs_pos_eq x) by exact P. rewrite Rabs_pos_eq; [apply round_DN_pt; typeclasses eauto|].
      apply round_ge_generic; [typeclasses eauto|typeclasses eauto|apply generic_format_0|exact P].
    + apply Rlt_le in P. rewrite EF. rewrite round_ZR_UP by exact P. rewrite (Rabs_left1 x) by exact P. rewrite Rabs_left1; [apply Ropp_le_contravar, round_UP_pt; typeclasses eauto|].
      apply round_le_generic; [typeclasses eauto|typeclasses eauto|apply generic_format_0|exact P].
  - destruct (round_DN_pt radix2 flt x) as (_ & A1 & A2). destruct (round_DN_pt radix2 flx x) as (_ & B1 & _).
    rewrite <- ER in A1, A2. rewrite <- EF in B1. specialize (A2 fx G3 B1). rewrite !Rabs_left1 by lra. lra.
  - destruct (round_UP_pt radix2 flt x) as (_ & A1 & A2). destruct (round_UP_pt radix2 flx x) as (_ & B1 & _).
    rewrite <- ER in A1, A2. rewrite <- EF in B1. specialize (A2 fx G3 B1). rewrite !Rabs_pos_eq by lra. lra.
  - destruct (round_N_pt radix2 flt (Z.leb 0) x) as [_ N2]. rewrite ER. exact (N2 fx G3).
  - exfalso. assert (EX : Exists_NE radix2 flx) by (apply exists_NE_FLX; right; lia).
    destruct (round_odd_pt radix2 flx x) as [_ [Q|[_ (g & G1 & G2 & G4)]]]; rewrite <- EF in *.
    + rewrite <- Q, K in L. lra.
    + assert (C : Fexp g = 1 - bias E - F).
      { rewrite G2. unfold cexp. rewrite <- G1, <- mag_abs, K, mag_bpow. unfold FLX_exp. lia. }
      assert (M : Z.abs (Fnum g) = 2 ^ F).
      { apply eq_IZR. rewrite abs_IZR. change 2 with (radix_val radix2). rewrite IZR_Zpower by lia. apply (Rmult_eq_reg_r (bpow radix2 (1 - bias E - F))); [|apply Rgt_not_eq, bpow_gt_0].
        rewrite <- bpow_plus. replace (F + (1 - bias E - F)) with (1 - bias E) by lia. rewrite <- K, G1. unfold F2R. rewrite C, Rabs_mult. rewrite (Rabs_pos_eq (bpow _ _)) by apply bpow_ge_0. reflexivity. }
      assert (EV : Z.even (Z.abs (Fnum g)) = true) by (rewrite M, Z.even_pow by lia; reflexivity).
      destruct (Z.abs_eq_or_opp (Fnum g)) as [A|A]; rewrite A in EV; [|rewrite Z.even_opp in EV]; congruence.
Qed.

Lemma std_model (inv dz ex : Prop) x r fl : ex -> signalsm md E F inv dz ex x fl -> rounded754m md E F x (decode754 E F r) -> standard_model md E F x r fl.
Proof.
  intros EX (_ & _ & S3 & S4) (_ & _ & R) NO. fold (rounded_formatm md E F x) in R.
  destruct (Rlt_or_le (Rabs (rounded_formatm md E F x)) (bpow radix2 (bias E + 1))) as [B|B].
  2:{ exfalso. apply NO, S3. split; [exact EX|]. apply overflows_flt_m. exact B. }
  destruct (R B) as [FR V]. fold (value E F r) in V. split; [exact FR|]. rewrite V. split; intros UF.
  - destruct (Rle_or_lt least (Rabs x)) as [L|L].
    + rewrite same_above by exact L. apply flx_error.
    + destruct (Req_dec (rounded_formatm md E F x) x) as [Q|Q].
      { rewrite Q. unfold Rminus. rewrite Rplus_opp_r, Rabs_R0. apply Rmult_le_pos; [apply Rlt_le, unit_pos|apply Rabs_pos]. }
      destruct (Rlt_or_le (Rabs (rounded_unboundedm md F x)) least) as [T|T].
      { exfalso. apply UF, S4. split; [exact EX|]. split; assumption. }
      eapply Rle_trans; [apply reaches_least; [exact L|]|apply flx_error]. pose proof (flx_small_m x L). lra.
  - apply S4 in UF. destruct UF as [_ [U1 _]]. apply flt_error. apply small_of_flx_m. exact U1.
Qed.

(** With overflow, the largest number or infinity, as the mode says. *)
Lemma std_overflow (inv dz ex : Prop) x r fl : signalsm md E F inv dz ex x fl -> rounded754m md E F x (decode754 E F r) ->
  raised fl softfloat_flag_overflow -> (0 < x)%R /\ decode754 E F r = overflow754 md E F false \/ (x < 0)%R /\ decode754 E F r = overflow754 md E F true.
Proof.
  intros (_ & _ & S3 & _) (R1 & R2 & _) O. apply S3 in O. destruct O as [_ O]. apply overflows_flt_m in O. specialize (R2 O).
  assert (NZ : x <> 0%R).
  { intros ->. unfold rounded_formatm in O. rewrite round_0 in O by typeclasses eauto. rewrite Rabs_R0 in O. pose proof (bpow_gt_0 radix2 (bias E + 1)). lra. }
  specialize (R1 NZ). destruct (vsign (decode754 E F r)).
  - right. split; [now apply R1|exact R2].
  - left. split; [|exact R2]. destruct (Rtotal_order x 0) as [L|[Q|G]]; [|contradiction|exact G]. apply R1 in L. discriminate.
Qed.
End Fmt.
