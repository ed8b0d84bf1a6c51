(** SoftFloat: addition of magnitudes, subtraction of magnitudes, addition. *)
From Coq Require Import ZArith Bool Lia.
From Verif Require Import Spec Spec754 Fw FwLemmas SpecLemmas ValueLemmas Sf754Lemmas SoftFloat SfProofs1 SfProofs2 SfProofs3.
Open Scope Z_scope.

Section Add.
Context (E F U C W : Z).
Context (HW : W = E + F + 1) (HE : 4 <= E <= 15) (HF : 1 <= F) (HU : W <= U) (HC : 16 <= C) (H64 : W <= 64).
Context (Hpow : exists w, 0 <= w /\ W = 2 ^ w).

(** The significand at the exponent field, which for 0 counts one place less than the true exponent. *)
Definition mf (e f : Z) : Z := if e =? 0 then 2 * f else 2 ^ F + f.

Lemma decode_fin s e f : 0 <= e < 2 ^ E - 1 -> 0 <= f < 2 ^ F ->
  decode754 E F (word E F s e f) = fin_val s (if e =? 0 then f else 2 ^ F + f) ((if e =? 0 then 1 else e) - bias E - F).
Proof.
  intros He Hf. rewrite decode_word by lia.
  replace (e =? 2 ^ E - 1) with false by (symmetry; apply Z.eqb_neq; lia). unfold fin_val.
  destruct (e =? 0); [reflexivity|]. replace (2 ^ F + f =? 0) with false; [reflexivity|]. symmetry. apply Z.eqb_neq. lia.
Qed.

Lemma mf_val e f c : c <= e - bias E - F ->
  (if e =? 0 then f else 2 ^ F + f) * 2 ^ ((if e =? 0 then 1 else e) - bias E - F - c) = mf e f * 2 ^ (e - bias E - F - c).
Proof.
  intros Hc. unfold mf. destruct (Z.eqb_spec e 0) as [->|]; [|reflexivity].
  replace (1 - bias E - F - c) with (0 - bias E - F - c + 1) by lia. rewrite pow2_S by lia. ring.
Qed.

Lemma mf_bound e f : 0 <= e -> 0 <= f < 2 ^ F -> 0 <= mf e f < 2 * 2 ^ F /\ (e <> 0 -> 2 ^ F <= mf e f).
Proof. intros He Hf. unfold mf. destruct (Z.eqb_spec e 0); lia. Qed.

Lemma U_W : 2 ^ W <= 2 ^ U. Proof. apply pow2_le; lia. Qed.

(** The sum of the larger, x, and the smaller, y, brought to its exponent. *)
Lemma addFinal_ok s e f e' g : 0 <= e' < e -> e < 2 ^ E - 1 -> 0 <= f < 2 ^ F -> 0 <= g < 2 ^ F ->
  okr E F W (let sigZ := uw U (2 ^ (W - 3) + f * 2 ^ (E - 2) + jam (mf e' g * 2 ^ (E - 2)) (2 ^ (e - e'))) in
      if sigZ <? 2 ^ (W - 2) then do sigZ <- ushl U sigZ 1; roundPack E F U C s (e - 1) sigZ
      else roundPack E F U C s e sigZ)
    (round754 E F s (mf e f * 2 ^ (e - e') + mf e' g) 1 (e' - bias E - F)).
Proof.
  intros He' He Hf Hg. pose proof (mf_bound e f ltac:(lia) Hf) as [Bx Bx2]. pose proof (mf_bound e' g ltac:(lia) Hg) as [By _].
  specialize (Bx2 ltac:(lia)).
  pose proof U_W as UW. pose proof (pow2_pos F ltac:(lia)) as PF. pose proof (pow2_pos (E - 2) ltac:(lia)) as PG.
  pose proof (pow2_pos (e - e') ltac:(lia)) as Pt. pose proof (pow2_pos (W - 3) ltac:(lia)) as PW.
  assert (HE15 : 2 ^ E <= 2 ^ 15) by (apply pow2_le; lia). change (2 ^ 15) with 32768 in HE15.
  assert (Pt2 : 2 <= 2 ^ (e - e')) by (change 2 with (2 ^ 1) at 1; apply pow2_le; lia).
  assert (W3 : 2 ^ (W - 3) = 2 ^ F * 2 ^ (E - 2)) by (rewrite <- pow2_add by lia; f_equal; lia).
  assert (W2 : 2 ^ (W - 2) = 2 * 2 ^ (W - 3)) by (rewrite <- pow2_S by lia; f_equal; lia).
  assert (W1 : 2 ^ (W - 1) = 2 * 2 ^ (W - 2)) by (rewrite <- pow2_S by lia; f_equal; lia).
  assert (W0 : 2 ^ W = 2 * 2 ^ (W - 1)) by (rewrite <- pow2_S by lia; f_equal; lia).
  assert (HA : 2 ^ (W - 3) + f * 2 ^ (E - 2) = mf e f * 2 ^ (E - 2)).
  { unfold mf. replace (e =? 0) with false by (symmetry; apply Z.eqb_neq; lia). rewrite W3. ring. }
  rewrite HA.
  assert (BA : 2 ^ (W - 3) <= mf e f * 2 ^ (E - 2) < 2 ^ (W - 2)).
  { rewrite W2, W3. split; [apply Z.mul_le_mono_nonneg_r; lia|]. rewrite Z.mul_assoc. apply Z.mul_lt_mono_pos_r; lia. }
  assert (BB : 0 <= mf e' g * 2 ^ (E - 2) < 2 ^ (W - 2)).
  { rewrite W2, W3. split; [apply Z.mul_nonneg_nonneg; lia|]. rewrite Z.mul_assoc. apply Z.mul_lt_mono_pos_r; lia. }
  assert (EvA : Z.even (mf e f * 2 ^ (E - 2)) = true) by (rewrite Z.even_mul, even_pow2 by lia; apply orb_true_r).
  rewrite <- jam_add by (assumption || lia).
  remember (mf e f * 2 ^ (E - 2)) as A eqn:EA. remember (mf e' g * 2 ^ (E - 2)) as B eqn:EB.
  remember (A * 2 ^ (e - e') + B) as n eqn:En.
  assert (HAd : A * 2 <= A * 2 ^ (e - e')) by (apply Z.mul_le_mono_nonneg_l; lia).
  assert (Hn : 0 < n) by lia.
  assert (J1 : 2 ^ (W - 3) <= jam n (2 ^ (e - e'))) by (apply jam_ge; [lia|lia|]; rewrite En; assert (2 ^ (W - 3) * 2 ^ (e - e') <= A * 2 ^ (e - e')) by (apply Z.mul_le_mono_nonneg_r; lia); lia).
  assert (J2 : jam n (2 ^ (e - e')) < 2 ^ (W - 1)).
  { apply jam_lt; try lia; [apply even_pow2; lia|]. rewrite En, W1. clear - BA BB Pt2. nia. }
  unfold uw. rewrite Z.mod_small by lia. cbv zeta.
  assert (Hval : round754 E F s (mf e f * 2 ^ (e - e') + mf e' g) 1 (e' - bias E - F) =
    round754 E F s n (2 ^ (e - e')) (e + 1 - bias E - (W - 2))).
  { apply round754_same; try lia. { unfold mf in *. clear - Bx2 PF Pt By. nia. }
    apply (samev_trans _ _ _ n 1 (e' - bias E - F - (E - 2))); [lia| |].
    - rewrite En, EA, EB. replace (mf e f * 2 ^ (E - 2) * 2 ^ (e - e') + mf e' g * 2 ^ (E - 2)) with ((mf e f * 2 ^ (e - e') + mf e' g) * 2 ^ (E - 2)) by ring.
      apply samev_num. lia.
    - replace (2 ^ (e - e')) with (1 * 2 ^ (e - e')) by ring.
      replace (e + 1 - bias E - (W - 2)) with (e' - bias E - F - (E - 2) + (e - e')) by lia. apply samev_den. lia. }
  rewrite Hval. destruct (Z.ltb_spec (jam n (2 ^ (e - e'))) (2 ^ (W - 2))) as [L|L].
  - rewrite ushl_ok by lia. cbn [bind].
    destruct (roundPack_ok E F U C W HW ltac:(lia) HF HU HC Hpow s (e - 1) (jam n (2 ^ (e - e')) * 2 ^ 1) n (2 ^ (e - e')) 1) as (r & R1 & R2 & R3); try lia.
    exists r. split; [exact R1|]. split; [exact R2|]. rewrite R3. f_equal. lia.
  - destruct (roundPack_ok E F U C W HW ltac:(lia) HF HU HC Hpow s e (jam n (2 ^ (e - e'))) n (2 ^ (e - e')) 0) as (r & R1 & R2 & R3); try lia.
    exists r. split; [exact R1|]. split; [exact R2|]. rewrite R3. f_equal. lia.
Qed.

(** Spec side: the sum of two numbers of equal sign, the first with the larger exponent field. *)
Lemma add754_same_fields s e f e' g : 0 <= e' <= e -> e < 2 ^ E - 1 -> 0 <= f < 2 ^ F -> 0 <= g < 2 ^ F ->
  add754 E F (decode754 E F (word E F s e f)) (decode754 E F (word E F s e' g)) =
  if mf e f * 2 ^ (e - e') + mf e' g =? 0 then Zero s else round754 E F s (mf e f * 2 ^ (e - e') + mf e' g) 1 (e' - bias E - F).
Proof.
  intros He' He Hf Hg. rewrite !decode_fin by lia. pose proof (pow2_pos F ltac:(lia)).
  rewrite (add754_same E F s _ _ _ _ (e' - bias E - F)).
  - rewrite !mf_val by lia. replace (e - bias E - F - (e' - bias E - F)) with (e - e') by lia.
    replace (e' - bias E - F - (e' - bias E - F)) with 0 by lia. rewrite Z.pow_0_r, Z.mul_1_r. reflexivity.
  - lia.
  - destruct (e =? 0); lia.
  - destruct (e' =? 0); lia.
  - destruct (Z.eqb_spec e 0); lia.
  - destruct (Z.eqb_spec e' 0); lia.
Qed.

Lemma add754_diff_fields s e f e' g : 0 <= e' <= e -> e < 2 ^ E - 1 -> 0 <= f < 2 ^ F -> 0 <= g < 2 ^ F ->
  add754 E F (decode754 E F (word E F s e f)) (decode754 E F (word E F (negb s) e' g)) =
  let v := mf e f * 2 ^ (e - e') - mf e' g in
  if v =? 0 then Zero false else round754 E F (if v <? 0 then negb s else s) (Z.abs v) 1 (e' - bias E - F).
Proof.
  intros He' He Hf Hg. rewrite !decode_fin by lia. pose proof (pow2_pos F ltac:(lia)).
  rewrite (add754_diff E F s _ _ _ _ (e' - bias E - F)).
  - rewrite !mf_val by lia. replace (e - bias E - F - (e' - bias E - F)) with (e - e') by lia.
    replace (e' - bias E - F - (e' - bias E - F)) with 0 by lia. rewrite Z.pow_0_r, Z.mul_1_r. reflexivity.
  - lia.
  - destruct (e =? 0); lia.
  - destruct (e' =? 0); lia.
  - destruct (Z.eqb_spec e 0); lia.
  - destruct (Z.eqb_spec e' 0); lia.
Qed.

Lemma okr_nan a b : 0 <= a < 2 ^ W -> 0 <= b < 2 ^ W -> decode754 E F a = NaN \/ decode754 E F b = NaN ->
  okr E F W (Some (propagateNaN E F a b)) NaN.
Proof.
  intros Ha Hb H. rewrite HW in Ha, Hb. destruct (propagateNaN_ok E F ltac:(lia) HF a b Ha Hb H) as [R1 R2].
  exists (propagateNaN E F a b). rewrite HW. auto.
Qed.

Lemma okr_default : okr E F W (Some (defaultNaN E F)) NaN.
Proof. destruct (defaultNaN_ok E F ltac:(lia) HF) as [R1 R2]. exists (defaultNaN E F). rewrite HW. auto. Qed.

Lemma okr_inf s : okr E F W (Some (packUI E F s (2 ^ E - 1) 0)) (Inf s).
Proof. destruct (inf_ok E F ltac:(lia) HF s) as (-> & R1 & R2). exists (word E F s (2 ^ E - 1) 0). rewrite HW. auto. Qed.

Lemma okr_zero s : okr E F W (Some (packUI E F s 0 0)) (Zero s).
Proof. destruct (zero_ok E F ltac:(lia) HF s) as (-> & R1 & R2). exists (word E F s 0 0). rewrite HW. auto. Qed.

Lemma okr_word s e f v : 0 <= e < 2 ^ E -> 0 <= f < 2 ^ F -> decode754 E F (word E F s e f) = v ->
  okr E F W (Some (word E F s e f)) v.
Proof. intros He Hf H. exists (word E F s e f). rewrite HW. split; [reflexivity|]. split; [apply word_wf; lia|exact H]. Qed.

Lemma decode_special s f : 0 <= f < 2 ^ F -> decode754 E F (word E F s (2 ^ E - 1) f) = if f =? 0 then Inf s else NaN.
Proof. intros Hf. pose proof (pow2_pos E ltac:(lia)). rewrite decode_word by lia. rewrite Z.eqb_refl. reflexivity. Qed.

Lemma add_inf_l s t e g : 0 <= e < 2 ^ E - 1 -> 0 <= g < 2 ^ F ->
  add754 E F (Inf s) (decode754 E F (word E F t e g)) = Inf s.
Proof. intros He Hg. rewrite decode_fin by lia. unfold fin_val. destruct (_ =? 0); reflexivity. Qed.
Lemma add_inf_r s t e g : 0 <= e < 2 ^ E - 1 -> 0 <= g < 2 ^ F ->
  add754 E F (decode754 E F (word E F t e g)) (Inf s) = Inf s.
Proof. intros He Hg. rewrite decode_fin by lia. unfold fin_val. destruct (_ =? 0); reflexivity. Qed.

Lemma shl_zero f k : 0 <= k -> (f * 2 ^ k =? 0) = (f =? 0).
Proof. intros Hk. pose proof (pow2_pos k Hk). destruct (Z.eqb_spec f 0), (Z.eqb_spec (f * 2 ^ k) 0); nia. Qed.

Lemma nan_l e f v : 0 <= f < 2 ^ F -> f <> 0 -> e = 2 ^ E - 1 -> forall s, add754 E F (decode754 E F (word E F s e f)) v = NaN.
Proof. intros Hf Hn -> s. rewrite decode_special by lia. replace (f =? 0) with false by (symmetry; apply Z.eqb_neq; lia). reflexivity. Qed.
Lemma nan_r e f v : 0 <= f < 2 ^ F -> f <> 0 -> e = 2 ^ E - 1 -> forall s, add754 E F v (decode754 E F (word E F s e f)) = NaN.
Proof. intros Hf Hn -> s. rewrite decode_special by lia. replace (f =? 0) with false by (symmetry; apply Z.eqb_neq; lia). destruct v; reflexivity. Qed.

Lemma addMags_ok quick s e f e' g : 0 <= e < 2 ^ E -> 0 <= f < 2 ^ F -> 0 <= e' < 2 ^ E -> 0 <= g < 2 ^ F ->
  okr E F W (addMags E F U C quick (word E F s e f) (word E F s e' g))
    (add754 E F (decode754 E F (word E F s e f)) (decode754 E F (word E F s e' g))).
Proof.
  intros He Hf He' Hg. unfold addMags. cbv zeta.
  rewrite !expUI_word, !fracUI_word, !signUI_word by lia.
  pose proof (pow2_pos F ltac:(lia)) as PF. pose proof U_W as UW. destruct (sf_EB E ltac:(lia)) as [EB B3].
  assert (HE15 : 2 ^ E <= 2 ^ 15) by (apply pow2_le; lia). change (2 ^ 15) with 32768 in HE15.
  assert (WF : 2 ^ (E + F) <= 2 ^ (W - 1)) by (apply pow2_le; lia).
  assert (W0 : 2 ^ W = 2 * 2 ^ (W - 1)) by (rewrite <- pow2_S by lia; f_equal; lia).
  assert (Wa : 0 <= word E F s e f < 2 ^ W) by (rewrite HW; apply word_wf; lia).
  assert (Wb : 0 <= word E F s e' g < 2 ^ W) by (rewrite HW; apply word_wf; lia).
  assert (FE : 2 ^ (E + F) = 2 ^ E * 2 ^ F) by (apply pow2_add; lia).
  assert (G1 : E - 1 - 1 = E - 2) by lia. rewrite G1. rewrite <- HW.
  assert (SH : forall x, 0 <= x < 2 ^ F -> ushl U x (E - 2) = Some (x * 2 ^ (E - 2))).
  { intros x Hx. assert (x * 2 ^ (E - 2) < 2 ^ W).
    { replace (2 ^ W) with (2 ^ (F + 3) * 2 ^ (E - 2)) by (rewrite <- pow2_add by lia; f_equal; lia).
      assert (2 ^ F < 2 ^ (F + 3)) by (apply pow2_lt; lia). apply Z.mul_lt_mono_pos_r; [apply pow2_pos; lia|lia]. }
    apply ushl_ok; [lia|]. split; [apply Z.mul_nonneg_nonneg; [lia|apply Z.lt_le_incl, pow2_pos; lia]|lia]. }
  destruct (Z.eqb_spec (e - e') 0) as [D0|D0].
  - assert (e' = e) by lia. subst e'. clear D0 He'.
    destruct (Z.eqb_spec e 0) as [E0|E0].
    + (* both subnormal *)
      subst e. rewrite add754_same_fields by lia. unfold mf, uw. cbn [Z.eqb Z.sub Z.add Z.opp]. rewrite Z.pow_0_r, Z.mul_1_r.
      assert (HS : word E F s 0 f + g = Z.b2z s * 2 ^ (E + F) + (0 * 2 ^ F + (f + g))) by (unfold word; ring).
      rewrite HS. assert (Bfg : 0 <= 0 * 2 ^ F + (f + g) < 2 ^ (E + F)) by (rewrite FE; nia).
      pose proof (pack_wf E F U W HW ltac:(lia) HF HU Hpow s _ Bfg) as HB.
      rewrite (Z.mod_small _ (2 ^ U)) by lia. rewrite Z.mod_small by lia. eexists. split; [reflexivity|]. split; [exact HB|].
      assert (M3 : 0 <= f + g <= 2 ^ (F + 1)) by (rewrite pow2_S by lia; lia).
      assert (M4 : 0 * 2 ^ F + (f + g) <= (2 ^ E - 1) * 2 ^ F) by (clear - EB B3 Hf Hg; nia).
      rewrite decode754_body by lia.
      replace (2 * f + 2 * g =? 0) with (f + g =? 0) by (destruct (Z.eqb_spec (f + g) 0), (Z.eqb_spec (2 * f + 2 * g) 0); lia).
      destruct (Z.eqb_spec (f + g) 0) as [Z0|Z0]; [unfold fin754; rewrite Z0; reflexivity|].
      symmetry. rewrite <- (rne_div_1 (f + g)). apply round754_char; try lia.
      * replace (2 * f + 2 * g) with ((f + g) * 2 ^ 1) by lia. exists 1. repeat split; try lia.
        match goal with |- context [2 ^ (1 + ?x)] => replace (1 + x) with 0 by lia end. rewrite Z.pow_0_r. change (2 ^ 1) with 2. ring.
      * unfold qmin. lia.
      * rewrite pow2_S by lia. lia.
      * right. unfold qmin. lia.
    + destruct (Z.eqb_spec e (2 ^ E - 1)) as [EX|EX].
      * subst e. rewrite lor_zero by lia. destruct (Z.eqb_spec f 0) as [F0|F0], (Z.eqb_spec g 0) as [G0|G0]; cbn [andb negb].
        -- subst f g. apply okr_word; try lia. rewrite !decode_special by lia. cbn. now destruct s.
        -- rewrite nan_r by lia. apply okr_nan; try assumption. right. apply decode_nan_word; lia.
        -- rewrite nan_l by lia. apply okr_nan; try assumption. left. apply decode_nan_word; lia.
        -- rewrite nan_l by lia. apply okr_nan; try assumption. left. apply decode_nan_word; lia.
      * rewrite add754_same_fields by lia. replace (e - e) with 0 by lia. rewrite Z.pow_0_r, Z.mul_1_r.
        unfold mf. replace (e =? 0) with false by (symmetry; apply Z.eqb_neq; lia).
        replace (2 ^ F + f + (2 ^ F + g)) with (2 ^ (F + 1) + f + g) by (rewrite pow2_S by lia; ring).
        assert (BZ : 2 ^ (F + 1) <= 2 ^ (F + 1) + f + g < 2 ^ (F + 2)).
        { replace (F + 2) with (F + 1 + 1) by lia. rewrite !pow2_S by lia. lia. }
        assert (PF2 : 2 ^ (F + 2) <= 2 ^ W) by (apply pow2_le; lia).
        unfold uw. rewrite Z.mod_small by lia. remember (2 ^ (F + 1) + f + g) as z eqn:Ez.
        assert (PF1 : 2 ^ (F + 1) = 2 * 2 ^ F) by (apply pow2_S; lia).
        assert (PF3 : 2 ^ (F + 2) = 4 * 2 ^ F) by (replace (F + 2) with (F + 1 + 1) by lia; rewrite !pow2_S by lia; ring).
        replace (z =? 0) with false by (symmetry; apply Z.eqb_neq; lia).
        destruct (quick && (Z.land z 1 =? 0) && (e <? 2 ^ E - 1 - 1)) eqn:Q.
        -- apply andb_prop in Q. destruct Q as [Q Q3]. apply andb_prop in Q. destruct Q as [_ Q2]. apply Z.ltb_lt in Q3. apply Z.eqb_eq in Q2.
           change 1 with (2 ^ 1 - 1) in Q2 at 1. rewrite land_low in Q2 by lia. change (2 ^ 1) with 2 in Q2.
           rewrite Z.shiftr_div_pow2 by lia. change (2 ^ 1) with 2.
           pose proof (Z.div_mod z 2 ltac:(lia)) as DM. rewrite Q2, Z.add_0_r in DM. remember (z / 2) as m eqn:Em.
           assert (HT : e * 2 ^ F + m <= (2 ^ E - 1) * 2 ^ F) by (clear - DM BZ PF3 Q3 PF; nia).
           assert (HT2 : 0 <= e * 2 ^ F + m < 2 ^ (E + F)) by (rewrite FE; clear - HT DM BZ PF1 He PF; nia).
           rewrite packUI_eq by lia. eexists. split; [reflexivity|]. split; [apply (pack_wf E F U); try assumption; lia|].
           rewrite decode754_body by lia. symmetry.
           rewrite <- (rne_div_1 m) at 1. apply round754_char; try lia.
           ++ exists 1. repeat split; try lia. replace (1 + (e - bias E - F - (e + 1 - bias E - F))) with 0 by lia. lia.
           ++ unfold qmin. lia.
        -- assert (ZG : 2 ^ (W - 2) <= z * 2 ^ (E - 2) < 2 ^ (W - 1)).
           { replace (2 ^ (W - 2)) with (2 ^ (F + 1) * 2 ^ (E - 2)) by (rewrite <- pow2_add by lia; f_equal; lia).
             replace (2 ^ (W - 1)) with (2 ^ (F + 2) * 2 ^ (E - 2)) by (rewrite <- pow2_add by lia; f_equal; lia).
             pose proof (pow2_pos (E - 2) ltac:(lia)). split; [apply Z.mul_le_mono_nonneg_r|apply Z.mul_lt_mono_pos_r]; lia. }
           pose proof (pow2_pos (W - 2) ltac:(lia)).
           rewrite ushl_ok by lia. cbn [bind].
           destruct (roundPack_ok E F U C W HW ltac:(lia) HF HU HC Hpow s e (z * 2 ^ (E - 2)) (z * 2 ^ (E - 2)) 1 0) as (r & R1 & R2 & R3); try lia.
           { rewrite jam_1 by lia. ring. }
           exists r. split; [exact R1|]. split; [exact R2|]. rewrite R3. symmetry. apply round754_same; try lia.
           replace (e + 1 - bias E - (W - 2) + 0) with (e - bias E - F - (E - 2)) by lia. apply samev_num. lia.
  - rewrite !SH by lia. cbn [bind]. rewrite !shl_zero by lia.
    assert (MF : forall e f, 0 <= e -> 0 <= f < 2 ^ F ->
      uw U (f * 2 ^ (E - 2) + (if negb (e =? 0) then 2 ^ (W - 3) else f * 2 ^ (E - 2))) = mf e f * 2 ^ (E - 2) /\
      0 <= mf e f * 2 ^ (E - 2) < 2 ^ W).
    { intros x y Hx Hy. pose proof (mf_bound x y Hx Hy) as [B _].
      assert (B2 : 0 <= mf x y * 2 ^ (E - 2) < 2 ^ W).
      { pose proof (pow2_pos (E - 2) ltac:(lia)). split; [apply Z.mul_nonneg_nonneg; lia|].
        replace (2 ^ W) with (2 ^ (F + 3) * 2 ^ (E - 2)) by (rewrite <- pow2_add by lia; f_equal; lia).
        assert (2 ^ (F + 1) < 2 ^ (F + 3)) by (apply pow2_lt; lia). rewrite pow2_S in H0 by lia. apply Z.mul_lt_mono_pos_r; lia. }
      split; [|exact B2].
      assert (HH : y * 2 ^ (E - 2) + (if negb (x =? 0) then 2 ^ (W - 3) else y * 2 ^ (E - 2)) = mf x y * 2 ^ (E - 2)).
      { unfold mf. destruct (x =? 0); cbn [negb]; [ring|].
        replace (2 ^ (W - 3)) with (2 ^ F * 2 ^ (E - 2)) by (rewrite <- pow2_add by lia; f_equal; lia). ring. }
      rewrite HH. unfold uw. apply Z.mod_small. lia. }
    assert (PO : forall x y u v, 0 <= u < x -> 0 <= y < 2 ^ F -> 0 <= v < 2 ^ F -> (mf x y * 2 ^ (x - u) + mf u v =? 0) = false).
    { intros x y u v Hx Hy Hv. pose proof (mf_bound x y ltac:(lia) Hy) as [_ B]. specialize (B ltac:(lia)).
      pose proof (mf_bound u v ltac:(lia) Hv) as [B' _]. pose proof (pow2_pos (x - u) ltac:(lia)). apply Z.eqb_neq. clear - B B' H PF. nia. }
    destruct (Z.ltb_spec (e - e') 0) as [L|L].
    + destruct (Z.eqb_spec e' (2 ^ E - 1)) as [EX|EX].
      * subst e'. destruct (Z.eqb_spec g 0) as [G0|G0]; cbn [negb].
        -- subst g. rewrite (decode_special s 0) by lia. cbn [Z.eqb]. rewrite add_inf_r by lia. apply okr_inf.
        -- rewrite nan_r by lia. apply okr_nan; try assumption. right. apply decode_nan_word; lia.
      * destruct (MF e f ltac:(lia) Hf) as [M1 M2]. rewrite M1.
        rewrite (shiftRightJam_eq E F W) by (assumption || lia).
        unfold add754. rewrite add_gen_comm. fold (add754 E F). rewrite add754_same_fields by lia. rewrite PO by lia.
        pose proof (addFinal_ok s e' g e f ltac:(lia) ltac:(lia) Hg Hf) as H. cbv zeta in H.
        replace (- (e - e')) with (e' - e) by lia.
        replace (2 ^ (W - 3) + jam (mf e f * 2 ^ (E - 2)) (2 ^ (e' - e)) + g * 2 ^ (E - 2))
          with (2 ^ (W - 3) + g * 2 ^ (E - 2) + jam (mf e f * 2 ^ (E - 2)) (2 ^ (e' - e))) by ring.
        exact H.
    + destruct (Z.eqb_spec e (2 ^ E - 1)) as [EX|EX].
      * subst e. destruct (Z.eqb_spec f 0) as [G0|G0]; cbn [negb].
        -- subst f. apply okr_word; try lia. rewrite (decode_special s 0) by lia. cbn [Z.eqb]. rewrite add_inf_l by lia. reflexivity.
        -- rewrite nan_l by lia. apply okr_nan; try assumption. left. apply decode_nan_word; lia.
      * destruct (MF e' g ltac:(lia) Hg) as [M1 M2]. rewrite M1.
        rewrite (shiftRightJam_eq E F W) by (assumption || lia).
        rewrite add754_same_fields by lia. rewrite PO by lia.
        exact (addFinal_ok s e f e' g ltac:(lia) ltac:(lia) Hf Hg).
Qed.
End Add.
