(** SoftFloat: subtraction of magnitudes, addition. *)
From Coq Require Import ZArith Bool Lia.
From Verif Require Import Spec Spec754 Fw FwLemmas SpecLemmas ValueLemmas Sf754Lemmas SoftFloat SfProofs1 SfProofs2 SfProofs3 SfProofs4.
Open Scope Z_scope.

Section Add.
Context (E F U C W : Z).
Context (HW : W = E + F + 1) (HE : 4 <= E <= 15) (HF : 1 <= F) (HU : W <= U) (HC : 16 <= C) (H64 : W <= 64).
Context (Hpow : exists w, 0 <= w /\ W = 2 ^ w).
Notation mf := (mf F).

(** The larger, x, minus the smaller, y, brought to its exponent. *)
Lemma subFinal_ok s e f e' g : 0 <= e' < e -> e < 2 ^ E - 1 -> 0 <= f < 2 ^ F -> 0 <= g < 2 ^ F ->
  okr E F W (normRoundPack E F U C s (e - 1) (uw U (mf e f * 2 ^ (E - 1) - jam (mf e' g * 2 ^ (E - 1)) (2 ^ (e - e')))))
    (round754 E F s (mf e f * 2 ^ (e - e') - mf e' g) 1 (e' - bias E - F)) /\ 0 < mf e f * 2 ^ (e - e') - mf e' g.
Proof.
  intros He' He Hf Hg. pose proof (mf_bound F HF e f ltac:(lia) Hf) as [Bx Bx2]. pose proof (mf_bound F HF e' g ltac:(lia) Hg) as [By _].
  specialize (Bx2 ltac:(lia)).
  pose proof (U_W U W HU) as UW. pose proof (pow2_pos F ltac:(lia)) as PF. pose proof (pow2_pos (E - 1) ltac:(lia)) as PG.
  pose proof (pow2_pos (e - e') ltac:(lia)) as Pt. pose proof (pow2_pos (W - 3) ltac:(lia)) as PW.
  assert (Pt2 : 2 <= 2 ^ (e - e')) by (change 2 with (2 ^ 1) at 1; apply pow2_le; lia).
  assert (W2 : 2 ^ (W - 2) = 2 * 2 ^ (W - 3)) by (rewrite <- pow2_S by lia; f_equal; lia).
  assert (W2' : 2 ^ (W - 2) = 2 ^ F * 2 ^ (E - 1)) by (rewrite <- pow2_add by lia; f_equal; lia).
  assert (W1 : 2 ^ (W - 1) = 2 * 2 ^ (W - 2)) by (rewrite <- pow2_S by lia; f_equal; lia).
  assert (W0 : 2 ^ W = 2 * 2 ^ (W - 1)) by (rewrite <- pow2_S by lia; f_equal; lia).
  assert (BA : 2 ^ (W - 2) <= mf e f * 2 ^ (E - 1) < 2 ^ (W - 1)).
  { rewrite W1, W2'. split; [apply Z.mul_le_mono_nonneg_r; lia|]. rewrite Z.mul_assoc. apply Z.mul_lt_mono_pos_r; lia. }
  assert (BB : 0 <= mf e' g * 2 ^ (E - 1) < 2 ^ (W - 1)).
  { rewrite W1, W2'. split; [apply Z.mul_nonneg_nonneg; lia|]. rewrite Z.mul_assoc. apply Z.mul_lt_mono_pos_r; lia. }
  assert (EvA : Z.even (mf e f * 2 ^ (E - 1)) = true) by (rewrite Z.even_mul, even_pow2 by lia; apply orb_true_r).
  assert (EvB : Z.even (mf e' g * 2 ^ (E - 1)) = true) by (rewrite Z.even_mul, even_pow2 by lia; apply orb_true_r).
  assert (Hpos : 0 < mf e f * 2 ^ (e - e') - mf e' g).
  { clear - Bx2 By Pt2 PF. nia. }
  split; [|exact Hpos].
  assert (Hval : samev (mf e f * 2 ^ (e - e') - mf e' g) 1 (e' - bias E - F)
    (mf e f * 2 ^ (E - 1) * 2 ^ (e - e') - mf e' g * 2 ^ (E - 1)) (2 ^ (e - e')) (e - 1 + 1 - bias E - (W - 2))).
  { apply (samev_trans _ _ _ (mf e f * 2 ^ (E - 1) * 2 ^ (e - e') - mf e' g * 2 ^ (E - 1)) 1 (e' - bias E - F - (E - 1))); [lia| |].
    - replace (mf e f * 2 ^ (E - 1) * 2 ^ (e - e') - mf e' g * 2 ^ (E - 1)) with ((mf e f * 2 ^ (e - e') - mf e' g) * 2 ^ (E - 1)) by ring.
      apply samev_num. lia.
    - pose proof (samev_den (mf e f * 2 ^ (E - 1) * 2 ^ (e - e') - mf e' g * 2 ^ (E - 1)) 1 (e' - bias E - F - (E - 1)) (e - e') ltac:(lia)) as S.
      rewrite Z.mul_1_l in S. replace (e - 1 + 1 - bias E - (W - 2)) with (e' - bias E - F - (E - 1) + (e - e')) by lia. exact S. }
  remember (mf e f * 2 ^ (E - 1)) as A eqn:EA. remember (mf e' g * 2 ^ (E - 1)) as B eqn:EB.
  assert (HAd : A * 2 <= A * 2 ^ (e - e')) by (apply Z.mul_le_mono_nonneg_l; lia).
  rewrite <- jam_sub by (assumption || lia).
  remember (A * 2 ^ (e - e') - B) as n eqn:En.
  assert (Hn : 0 < n) by lia.
  pose proof (jam_pos n (2 ^ (e - e')) Hn Pt) as Jp.
  assert (J2 : jam n (2 ^ (e - e')) < 2 ^ (W - 1)).
  { apply jam_lt; [lia|lia|apply even_pow2; lia|]. rewrite En. clear - BA BB Pt. nia. }
  unfold uw. rewrite Z.mod_small by lia.
  rewrite (round754_same E F s _ _ _ n (2 ^ (e - e')) (e - 1 + 1 - bias E - (W - 2))) by (assumption || lia).
  apply normRoundPack_ok; try assumption; try lia; try reflexivity.
  destruct (Z.eq_dec (e - e') 1) as [T1|T1].
  - right. rewrite T1. change (2 ^ 1) with 2. rewrite En, T1. change (2 ^ 1) with 2.
    apply Z.even_spec in EvB. destruct EvB as [b Hb]. replace (A * 2 - B) with ((A - b) * 2) by lia. apply Z.mod_mul. lia.
  - left. assert (Pt4 : 4 <= 2 ^ (e - e')) by (change 4 with (2 ^ 2); apply pow2_le; lia).
    apply jam_ge; [lia|lia|]. rewrite En.
    assert (2 * (2 ^ (W - 3) * 2 ^ (e - e')) <= A * 2 ^ (e - e')).
    { rewrite Z.mul_assoc. apply Z.mul_le_mono_nonneg_r; lia. }
    assert (2 ^ (W - 3) * 4 <= 2 ^ (W - 3) * 2 ^ (e - e')) by (apply Z.mul_le_mono_nonneg_l; lia). lia.
Qed.

Lemma subMags_ok s e f e' g : 0 <= e < 2 ^ E -> 0 <= f < 2 ^ F -> 0 <= e' < 2 ^ E -> 0 <= g < 2 ^ F ->
  okr E F W (subMags E F U C (word E F s e f) (word E F (negb s) e' g))
    (add754 E F (decode754 E F (word E F s e f)) (decode754 E F (word E F (negb s) e' g))).
Proof.
  intros He Hf He' Hg. unfold subMags. cbv zeta.
  rewrite !expUI_word, !fracUI_word, !signUI_word by lia.
  pose proof (pow2_pos F ltac:(lia)) as PF. pose proof (U_W U W HU) as UW. destruct (sf_EB E ltac:(lia)) as [EB B3].
  assert (HE15 : 2 ^ E <= 2 ^ 15) by (apply pow2_le; lia). change (2 ^ 15) with 32768 in HE15.
  assert (W0 : 2 ^ W = 2 * 2 ^ (W - 1)) by (rewrite <- pow2_S by lia; f_equal; lia).
  assert (W2' : 2 ^ (W - 2) = 2 ^ F * 2 ^ (E - 1)) by (rewrite <- pow2_add by lia; f_equal; lia).
  assert (W1 : 2 ^ (W - 1) = 2 * 2 ^ (W - 2)) by (rewrite <- pow2_S by lia; f_equal; lia).
  assert (Wa : 0 <= word E F s e f < 2 ^ W) by (rewrite HW; apply word_wf; lia).
  assert (Wb : 0 <= word E F (negb s) e' g < 2 ^ W) by (rewrite HW; apply word_wf; lia).
  assert (FE : 2 ^ (E + F) = 2 ^ E * 2 ^ F) by (apply pow2_add; lia).
  rewrite <- HW. pose proof (pow2_pos (E - 1) ltac:(lia)) as PG.
  assert (SH : forall x, 0 <= x < 2 ^ F -> ushl U x (E - 1) = Some (x * 2 ^ (E - 1))).
  { intros x Hx. assert (x * 2 ^ (E - 1) < 2 ^ F * 2 ^ (E - 1)) by (apply Z.mul_lt_mono_pos_r; lia).
    apply ushl_ok; [lia|]. split; [apply Z.mul_nonneg_nonneg; lia|lia]. }
  destruct (Z.eqb_spec (e - e') 0) as [D0|D0].
  - assert (e' = e) by lia. subst e'. clear D0 He'.
    destruct (Z.eqb_spec e (2 ^ E - 1)) as [EX|EX].
    + subst e. rewrite lor_zero by lia. destruct (Z.eqb_spec f 0) as [F0|F0], (Z.eqb_spec g 0) as [G0|G0]; cbn [andb negb].
      * subst f g. rewrite !decode_special by lia. cbn [Z.eqb]. replace (add754 E F (Inf s) (Inf (negb s))) with NaN by (destruct s; reflexivity).
        apply okr_default; assumption.
      * rewrite nan_r by lia. apply okr_nan; try assumption. right. apply decode_nan_word; lia.
      * rewrite nan_l by lia. apply okr_nan; try assumption. left. apply decode_nan_word; lia.
      * rewrite nan_l by lia. apply okr_nan; try assumption. left. apply decode_nan_word; lia.
    + assert (HV : add754 E F (decode754 E F (word E F s e f)) (decode754 E F (word E F (negb s) e g)) =
        if f - g =? 0 then Zero false
        else round754 E F (if f - g <? 0 then negb s else s) (Z.abs (f - g)) 1 ((if e =? 0 then 1 else e) - bias E - F)).
      { rewrite !decode_fin by lia. rewrite (add754_diff E F s _ _ _ _ ((if e =? 0 then 1 else e) - bias E - F)) by (destruct (e =? 0); lia).
        cbv zeta. rewrite Z.sub_diag, Z.pow_0_r, !Z.mul_1_r.
        replace ((if e =? 0 then f else 2 ^ F + f) - (if e =? 0 then g else 2 ^ F + g)) with (f - g) by (destruct (e =? 0); lia). reflexivity. }
      rewrite HV. destruct (Z.eqb_spec (f - g) 0) as [Z0|Z0]; [apply okr_zero; assumption|].
      replace (if negb (e =? 0) then e - 1 else e) with ((if e =? 0 then 1 else e) - 1) by (destruct (Z.eqb_spec e 0); cbn [negb]; lia).
      remember (if e =? 0 then 1 else e) as ex eqn:Eex.
      assert (Hex : 1 <= ex < 2 ^ E - 1) by (subst ex; destruct (Z.eqb_spec e 0); lia).
      remember (if f - g <? 0 then negb s else s) as sz eqn:Esz.
      replace (if f - g <? 0 then - (f - g) else f - g) with (Z.abs (f - g)) by (destruct (Z.ltb_spec (f - g) 0); lia).
      remember (Z.abs (f - g)) as w eqn:Ew. assert (Bw : 0 < w < 2 ^ F) by lia.
      assert (FW : 2 ^ (F + 1) <= 2 ^ W) by (apply pow2_le; lia).
      rewrite pow2_S in FW by lia.
      rewrite clzW_eq by (try lia; rewrite <- HW; lia).
      pose proof (Z.log2_nonneg w) as Ln. assert (Lu : Z.log2 w < F) by (apply Z.log2_lt_pow2; lia).
      pose proof (log2_shift w F ltac:(lia) ltac:(lia)) as [M1 M2].
      replace (E + F - Z.log2 w - E) with (F - Z.log2 w) by lia.
      remember (F - Z.log2 w) as sd eqn:Esd.
      (* the common final argument *)
      assert (FIN : forall k, 0 <= k <= F -> k <= ex - 1 -> w * 2 ^ k < 2 ^ (F + 1) -> (ex - 1 - k = 0 \/ 2 ^ F <= w * 2 ^ k) ->
        okr E F W (do s0 <- ushl U w k; Some (packUI E F sz (ex - 1 - k) s0)) (round754 E F sz w 1 (ex - bias E - F))).
      { intros k Hk Hkx Hkl Hkc. pose proof (pow2_pos k ltac:(lia)) as Pk. rewrite pow2_S in Hkl by lia.
        assert (0 < w * 2 ^ k) by (apply Z.mul_pos_pos; lia).
        rewrite ushl_ok by lia. cbn [bind].
        assert (HT : (ex - 1 - k) * 2 ^ F + w * 2 ^ k <= (2 ^ E - 1) * 2 ^ F).
        { assert ((ex - 1 - k) * 2 ^ F <= (2 ^ E - 3) * 2 ^ F) by (apply Z.mul_le_mono_nonneg_r; lia). lia. }
        assert (HT2 : 0 <= (ex - 1 - k) * 2 ^ F + w * 2 ^ k < 2 ^ (E + F)).
        { rewrite FE. split; [|lia]. assert (0 <= (ex - 1 - k) * 2 ^ F) by (apply Z.mul_nonneg_nonneg; lia). lia. }
        rewrite packUI_eq by lia. eexists. split; [reflexivity|]. split; [apply (pack_wf E F U); try assumption; lia|].
        assert (M3 : 0 <= w * 2 ^ k <= 2 ^ (F + 1)) by (rewrite pow2_S by lia; lia).
        rewrite decode754_body by lia. symmetry. rewrite <- (rne_div_1 (w * 2 ^ k)) at 1. apply round754_char; try lia.
        - replace (ex - 1 - k + 1 - bias E - F) with (ex - bias E - F - k) by lia. apply samev_num. lia.
        - unfold qmin. lia.
        - rewrite pow2_S by lia. lia.
        - unfold qmin. destruct Hkc; [right|left]; lia. }
      destruct (Z.ltb_spec (ex - 1 - sd) 0) as [Lz|Lz].
      * assert (HL : w * 2 ^ (ex - 1) < 2 ^ (F + 1)).
        { apply Z.le_lt_trans with (2 := M2). apply Z.mul_le_mono_nonneg_l; [lia|]. apply pow2_le. lia. }
        pose proof (FIN (ex - 1) ltac:(lia) ltac:(lia) HL ltac:(left; lia)) as H.
        replace (ex - 1 - (ex - 1)) with 0 in H by lia. exact H.
      * apply FIN; try lia.
  - rewrite !SH by lia. cbn [bind]. rewrite !shl_zero by lia.
    assert (MF : forall e f, 0 <= e -> 0 <= f < 2 ^ F ->
      uw U (f * 2 ^ (E - 1) + (if negb (e =? 0) then 2 ^ (W - 2) else f * 2 ^ (E - 1))) = mf e f * 2 ^ (E - 1) /\
      0 <= mf e f * 2 ^ (E - 1) < 2 ^ W).
    { intros x y Hx Hy. pose proof (mf_bound F HF x y Hx Hy) as [B _].
      assert (B2 : 0 <= mf x y * 2 ^ (E - 1) < 2 ^ W).
      { split; [apply Z.mul_nonneg_nonneg; lia|].
        assert (mf x y * 2 ^ (E - 1) < 2 * 2 ^ F * 2 ^ (E - 1)) by (apply Z.mul_lt_mono_pos_r; lia). lia. }
      split; [|exact B2].
      assert (HH : y * 2 ^ (E - 1) + (if negb (x =? 0) then 2 ^ (W - 2) else y * 2 ^ (E - 1)) = mf x y * 2 ^ (E - 1)).
      { unfold SfProofs4.mf. rewrite W2'. destruct (x =? 0); cbn [negb]; ring. }
      rewrite HH. unfold uw. apply Z.mod_small. lia. }
    assert (LO : forall x y, x <> 0 -> 0 <= y < 2 ^ F -> Z.lor (y * 2 ^ (E - 1)) (2 ^ (W - 2)) = mf x y * 2 ^ (E - 1)).
    { intros x y Hx Hy. unfold SfProofs4.mf. replace (x =? 0) with false by (symmetry; apply Z.eqb_neq; lia).
      rewrite Z.lor_comm. rewrite <- (Z.mul_1_l (2 ^ (W - 2))). rewrite lor_join; [rewrite W2'; ring|lia|].
      split; [apply Z.mul_nonneg_nonneg; lia|]. rewrite W2'. apply Z.mul_lt_mono_pos_r; lia. }
    destruct (Z.ltb_spec (e - e') 0) as [L|L].
    + destruct (Z.eqb_spec e' (2 ^ E - 1)) as [EX|EX].
      * subst e'. destruct (Z.eqb_spec g 0) as [G0|G0]; cbn [negb].
        -- subst g. rewrite (decode_special E F HE HF (negb s) 0) by lia. cbn [Z.eqb]. rewrite add_inf_r by lia. apply okr_inf; assumption.
        -- rewrite nan_r by lia. apply okr_nan; try assumption. right. apply decode_nan_word; lia.
      * destruct (MF e f ltac:(lia) Hf) as [M1 M2]. rewrite M1, (LO e' g) by lia.
        rewrite (shiftRightJam_eq E F W) by (assumption || lia).
        unfold add754. rewrite add_gen_comm. fold (add754 E F).
        replace (word E F s e f) with (word E F (negb (negb s)) e f) by (now rewrite negb_involutive).
        rewrite add754_diff_fields by lia. cbv zeta.
        replace (- (e - e')) with (e' - e) by lia.
        destruct (subFinal_ok (negb s) e' g e f ltac:(lia) ltac:(lia) Hg Hf) as [H Hp].
        replace (_ =? 0) with false by (symmetry; apply Z.eqb_neq; lia).
        replace (mf e' g * 2 ^ (e' - e) - mf e f <? 0) with false by (symmetry; apply Z.ltb_ge; lia).
        rewrite Z.abs_eq by lia. exact H.
    + destruct (Z.eqb_spec e (2 ^ E - 1)) as [EX|EX].
      * subst e. destruct (Z.eqb_spec f 0) as [G0|G0]; cbn [negb].
        -- subst f. apply okr_word; try assumption; try lia. rewrite (decode_special E F HE HF s 0) by lia. cbn [Z.eqb]. rewrite add_inf_l by lia. reflexivity.
        -- rewrite nan_l by lia. apply okr_nan; try assumption. left. apply decode_nan_word; lia.
      * destruct (MF e' g ltac:(lia) Hg) as [M1 M2]. rewrite M1, (LO e f) by lia.
        rewrite (shiftRightJam_eq E F W) by (assumption || lia).
        rewrite add754_diff_fields by lia. cbv zeta.
        destruct (subFinal_ok s e f e' g ltac:(lia) ltac:(lia) Hf Hg) as [H Hp].
        replace (_ =? 0) with false by (symmetry; apply Z.eqb_neq; lia).
        replace (mf e f * 2 ^ (e - e') - mf e' g <? 0) with false by (symmetry; apply Z.ltb_ge; lia).
        rewrite Z.abs_eq by lia. exact H.
Qed.

Lemma lxor_top a b k : 0 <= k -> 0 <= a < 2 ^ (k + 1) -> 0 <= b < 2 ^ (k + 1) ->
  0 <= Z.lxor a b < 2 ^ (k + 1) /\ Z.lxor a b / 2 ^ k = Z.lxor (a / 2 ^ k) (b / 2 ^ k).
Proof.
  intros Hk Ha Hb. split.
  - assert (H0 : 0 <= Z.lxor a b) by (apply Z.lxor_nonneg; lia). split; [assumption|].
    destruct (Z.eq_dec (Z.lxor a b) 0) as [->|]; [apply pow2_pos; lia|].
    apply Z.log2_lt_pow2; [lia|].
    assert (HL : forall x, 0 <= x < 2 ^ (k + 1) -> Z.log2 x < k + 1).
    { intros x Hx. destruct (Z.eq_dec x 0) as [->|]; [change (Z.log2 0) with 0; lia|apply Z.log2_lt_pow2; lia]. }
    pose proof (Z.log2_lxor a b ltac:(lia) ltac:(lia)). pose proof (HL a Ha). pose proof (HL b Hb). lia.
  - rewrite <- !Z.shiftr_div_pow2 by lia. apply Z.shiftr_lxor.
Qed.

Lemma signUI_lxor s e f t e' g : 0 <= e < 2 ^ E -> 0 <= f < 2 ^ F -> 0 <= e' < 2 ^ E -> 0 <= g < 2 ^ F ->
  signUI E F (Z.lxor (word E F s e f) (word E F t e' g)) = xorb s t.
Proof.
  intros He Hf He' Hg.
  pose proof (word_wf E F ltac:(lia) HF s e f He Hf) as Wa. pose proof (word_wf E F ltac:(lia) HF t e' g He' Hg) as Wb.
  destruct (lxor_top _ _ (E + F) ltac:(lia) Wa Wb) as [B T].
  unfold signUI, uw. rewrite Z.mod_small by lia. replace (E + F + 1 - 1) with (E + F) by lia.
  rewrite Z.shiftr_div_pow2, T by lia. unfold word.
  rewrite !join_div by (try apply (word_body E F ltac:(lia) HF s); lia). destruct s, t; reflexivity.
Qed.

Theorem sf_add_ok quick a b : 0 <= a < 2 ^ W -> 0 <= b < 2 ^ W ->
  okr E F W (sf_add E F U C quick a b) (add754 E F (decode754 E F a) (decode754 E F b)).
Proof.
  intros Ha Hb. rewrite HW in Ha, Hb.
  destruct (word_split E F ltac:(lia) HF a Ha) as (s & e & f & -> & He & Hf).
  destruct (word_split E F ltac:(lia) HF b Hb) as (t & e' & g & -> & He' & Hg).
  unfold sf_add. rewrite signUI_lxor by assumption.
  destruct (xorb s t) eqn:X.
  - assert (t = negb s) by (destruct s, t; try discriminate; reflexivity). subst t. apply subMags_ok; assumption.
  - assert (t = s) by (destruct s, t; try discriminate; reflexivity). subst t. apply addMags_ok; assumption.
Qed.
End Add.
