(** The flags of addition in every rounding mode. Follows FlagProofs2.v. *)
From Coq Require Import ZArith Bool Lia Reals Lra.
From Flocq Require Import Core.
From Verif Require Import Spec Spec754 Spec754Mode Fw FwLemmas SpecLemmas ValueLemmas Sf754Lemmas SpecFlocq SpecReal SoftFloat SfProofs1 SfProofs2 SfProofs3 SfProofs4 SfProofs5 SoftFloatMode SpecSfMode SoftFloatFlags SpecFlags SoftFloatFlagsMode SpecFlagsMode SpecFlocq754Mode FlagProofs1 FlagmProofs1.
Open Scope Z_scope.

Lemma fl3_eq_m md E F x y fl : x = y -> fl3m md E F x fl -> fl3m md E F y fl.
Proof. intros ->. auto. Qed.

Section Add.
Context (md : rmode) (odd : bool).
Context (E F U C W : Z).
Context (HW : W = E + F + 1) (HE : 4 <= E <= 15) (HF : 1 <= F) (HU : W <= U) (HC : 16 <= C) (H64 : W <= 64).
Context (Hpow : exists w, 0 <= w /\ W = 2 ^ w).
Notation mf := (mf F).

Lemma normRoundPackFM_ok s exp sig n d : 0 < n -> 0 < d -> sig = jam n d -> sig < 2 ^ (W - 1) -> 0 <= exp < 2 ^ E ->
  (2 ^ (W - 3) <= sig \/ n mod d = 0) ->
  okfm md E F (normRoundPackFM (enum_of md) odd E F U C s exp sig) (V s n d (exp + 1 - bias E - (W - 2))).
Proof.
  intros Hn Hd Hsig Hlt He Hc. destruct (sf_EB E ltac:(lia)) as [EB B3]. pose proof (jam_pos n d Hn Hd) as Jp.
  assert (HWW : 2 ^ (W - 1) < 2 ^ W) by (apply pow2_lt; lia).
  assert (HUW : 2 ^ W <= 2 ^ U) by (apply pow2_le; lia).
  assert (HE15 : 2 ^ E <= 2 ^ 15) by (apply pow2_le; lia). change (2 ^ 15) with 32768 in HE15.
  pose proof (Z.log2_nonneg sig) as Ln. assert (Lu : Z.log2 sig < W - 1) by (apply Z.log2_lt_pow2; lia).
  unfold normRoundPackFM. cbv zeta. rewrite clzW_eq by (try lia; rewrite <- HW; lia).
  remember (E + F - Z.log2 sig - 1) as sd eqn:Esd.
  pose proof (log2_shift sig (W - 2) ltac:(lia) ltac:(lia)) as [B1 B2].
  replace (W - 2 - Z.log2 sig) with sd in B1, B2 by lia. replace (W - 2 + 1) with (W - 1) in B2 by lia.
  rewrite i16_ok by (change (2 ^ 15) with 32768; lia). cbn [bind].
  destruct (Z.leb_spec (E - 1) sd) as [Hsd|Hsd]; [|].
  - assert (Hex : n mod d = 0).
    { destruct Hc as [Hc|]; [exfalso|assumption]. apply Z.log2_le_mono in Hc. rewrite Z.log2_pow2 in Hc by lia. lia. }
    rewrite jam_exact in Hsig by lia. assert (Hnd : n = sig * d) by (pose proof (Z.div_mod n d); lia).
    assert (Hsame : samev n d (exp + 1 - bias E - (W - 2)) sig 1 (exp + 1 - bias E - (W - 2))).
    { exists 0. repeat split; try lia. replace (0 + (exp + 1 - bias E - (W - 2) - (exp + 1 - bias E - (W - 2)))) with 0 by lia. lia. }
    destruct ((exp - sd) mod 2 ^ 32 <? 2 ^ E - 1 - 2) eqn:Hq; cbn [andb].
    + apply Z.ltb_lt in Hq. change (2 ^ 32) with 4294967296 in Hq.
      assert (He0 : 0 <= exp - sd).
      { destruct (Z_lt_ge_dec (exp - sd) 0); [exfalso|lia].
        assert ((exp - sd) mod 4294967296 = exp - sd + 4294967296) by (symmetry; apply (Z.mod_unique _ _ (-1)); lia). lia. }
      rewrite Z.mod_small in Hq by lia.
      pose proof (log2_shift sig F ltac:(lia) ltac:(lia)) as [M1 M2]. replace (F - Z.log2 sig) with (sd - (E - 1)) in M1, M2 by lia.
      assert (HFU : 2 ^ (F + 1) <= 2 ^ U) by (apply pow2_le; lia).
      rewrite ushl_ok by lia. cbn [bind].
      replace (sig =? 0) with false by (symmetry; apply Z.eqb_neq; lia).
      remember (sig * 2 ^ (sd - (E - 1))) as m eqn:Em.
      pose proof (pow2_pos F ltac:(lia)) as PF. rewrite pow2_S in M2 by lia.
      assert (HT : (exp - sd) * 2 ^ F + m <= (2 ^ E - 1) * 2 ^ F) by (clear - Hq M1 M2 PF; nia).
      assert (HTT : 0 <= (exp - sd) * 2 ^ F + m < 2 ^ (E + F)) by (rewrite pow2_add by lia; clear - HT He0 M1 PF; nia).
      eexists _, _. split; [reflexivity|]. eapply fl3_eq_m; [|apply (fl3_exact_m md E F HF s m (exp - sd + 1 - bias E - F)); rewrite ?pow2_S by lia; lia]. symmetry. apply V_same; try lia.
      apply (samev_trans _ _ _ sig 1 (exp + 1 - bias E - (W - 2))); [lia|assumption|].
      rewrite Em. replace (exp - sd + 1 - bias E - F) with (exp + 1 - bias E - (W - 2) - (sd - (E - 1))) by lia. apply samev_num. lia.
    + rewrite ushl_ok by lia. cbn [bind].
      destruct (roundPackFM_ok md odd E F U C W HW ltac:(lia) HF HU HC Hpow s (exp - sd) (sig * 2 ^ sd) (sig * 2 ^ sd) 1 0) as (r & fl & R1 & R2); try lia.
      { rewrite jam_1 by lia. ring. }
      exists r, fl. split; [exact R1|]. eapply fl3_eq_m; [|exact R2]. symmetry. apply V_same; try lia.
      apply (samev_trans _ _ _ sig 1 (exp + 1 - bias E - (W - 2))); [lia|assumption|].
      replace (exp - sd + 1 - bias E - (W - 2) + 0) with (exp + 1 - bias E - (W - 2) - sd) by lia. apply samev_num. lia.
  - cbn [andb]. rewrite ushl_ok by lia. cbn [bind].
    destruct (Z_le_gt_dec sd (E - 3)) as [Hs3|Hs3].
    + destruct (roundPackFM_ok md odd E F U C W HW ltac:(lia) HF HU HC Hpow s (exp - sd) (sig * 2 ^ sd) n d sd) as (r & fl & R1 & R2); try lia.
      exists r, fl. split; [exact R1|]. eapply fl3_eq_m; [|exact R2]. f_equal. lia.
    + assert (Hex : n mod d = 0).
      { destruct Hc as [Hc|]; [exfalso|assumption]. apply Z.log2_le_mono in Hc. rewrite Z.log2_pow2 in Hc by lia. lia. }
      rewrite jam_exact in Hsig by lia. assert (Hnd : n = sig * d) by (pose proof (Z.div_mod n d); lia).
      destruct (roundPackFM_ok md odd E F U C W HW ltac:(lia) HF HU HC Hpow s (exp - sd) (sig * 2 ^ sd) (sig * 2 ^ sd) 1 0) as (r & fl & R1 & R2); try lia.
      { rewrite jam_1 by lia. ring. }
      exists r, fl. split; [exact R1|]. eapply fl3_eq_m; [|exact R2]. symmetry. apply V_same; try lia.
      apply (samev_trans _ _ _ sig 1 (exp + 1 - bias E - (W - 2))); [lia| |].
      * exists 0. repeat split; try lia. replace (0 + (exp + 1 - bias E - (W - 2) - (exp + 1 - bias E - (W - 2)))) with 0 by lia. lia.
      * replace (exp - sd + 1 - bias E - (W - 2) + 0) with (exp + 1 - bias E - (W - 2) - sd) by lia. apply samev_num. lia.
Qed.

Lemma addFinal_ok_m s e f e' g : 0 <= e' < e -> e < 2 ^ E - 1 -> 0 <= f < 2 ^ F -> 0 <= g < 2 ^ F ->
  okfm md E F (let sigZ := uw U (2 ^ (W - 3) + f * 2 ^ (E - 2) + jam (mf e' g * 2 ^ (E - 2)) (2 ^ (e - e'))) in
      if sigZ <? 2 ^ (W - 2) then do sigZ <- ushl U sigZ 1; roundPackFM (enum_of md) odd E F U C s (e - 1) sigZ
      else roundPackFM (enum_of md) odd E F U C s e sigZ)
    (V s (mf e f * 2 ^ (e - e') + mf e' g) 1 (e' - bias E - F)).
Proof.
  intros He' He Hf Hg. pose proof (mf_bound F HF e f ltac:(lia) Hf) as [Bx Bx2]. pose proof (mf_bound F HF e' g ltac:(lia) Hg) as [By _].
  specialize (Bx2 ltac:(lia)).
  pose proof (U_W U W HU) as UW. pose proof (pow2_pos F ltac:(lia)) as PF. pose proof (pow2_pos (E - 2) ltac:(lia)) as PG.
  pose proof (pow2_pos (e - e') ltac:(lia)) as Pt. pose proof (pow2_pos (W - 3) ltac:(lia)) as PW.
  assert (HE15 : 2 ^ E <= 2 ^ 15) by (apply pow2_le; lia). change (2 ^ 15) with 32768 in HE15.
  assert (Pt2 : 2 <= 2 ^ (e - e')) by (change 2 with (2 ^ 1) at 1; apply pow2_le; lia).
  assert (W3 : 2 ^ (W - 3) = 2 ^ F * 2 ^ (E - 2)) by (rewrite <- pow2_add by lia; f_equal; lia).
  assert (W2 : 2 ^ (W - 2) = 2 * 2 ^ (W - 3)) by (rewrite <- pow2_S by lia; f_equal; lia).
  assert (W1 : 2 ^ (W - 1) = 2 * 2 ^ (W - 2)) by (rewrite <- pow2_S by lia; f_equal; lia).
  assert (W0 : 2 ^ W = 2 * 2 ^ (W - 1)) by (rewrite <- pow2_S by lia; f_equal; lia).
  assert (HA : 2 ^ (W - 3) + f * 2 ^ (E - 2) = mf e f * 2 ^ (E - 2)).
  { unfold SfProofs4.mf. replace (e =? 0) with false by (symmetry; apply Z.eqb_neq; lia). rewrite W3. ring. }
  rewrite HA.
  assert (BA : 2 ^ (W - 3) <= mf e f * 2 ^ (E - 2) < 2 ^ (W - 2)).
  { rewrite W2, W3. split; [apply Z.mul_le_mono_nonneg_r; lia|]. rewrite Z.mul_assoc. apply Z.mul_lt_mono_pos_r; lia. }
  assert (BB : 0 <= mf e' g * 2 ^ (E - 2) < 2 ^ (W - 2)).
  { rewrite W2, W3. split; [apply Z.mul_nonneg_nonneg; lia|]. rewrite Z.mul_assoc. apply Z.mul_lt_mono_pos_r; lia. }
  assert (EvA : Z.even (mf e f * 2 ^ (E - 2)) = true) by (rewrite Z.even_mul, even_pow2 by lia; apply orb_true_r).
  rewrite <- jam_add by (assumption || lia).
  remember (mf e f * 2 ^ (E - 2)) as A eqn:EA. remember (mf e' g * 2 ^ (E - 2)) as B eqn:EB.
  remember (A * 2 ^ (e - e') + B) as n eqn:En.
  assert (HAd : A * 2 <= A * 2 ^ (e - e')) by (apply Z.mul_le_mono_nonneg_l; lia).
  assert (Hn : 0 < n) by lia.
  assert (J1 : 2 ^ (W - 3) <= jam n (2 ^ (e - e'))) by (apply jam_ge; [lia|lia|]; rewrite En; assert (2 ^ (W - 3) * 2 ^ (e - e') <= A * 2 ^ (e - e')) by (apply Z.mul_le_mono_nonneg_r; lia); lia).
  assert (J2 : jam n (2 ^ (e - e')) < 2 ^ (W - 1)).
  { apply jam_lt; try lia; [apply even_pow2; lia|]. rewrite En, W1. clear - BA BB Pt2. nia. }
  unfold uw. rewrite Z.mod_small by lia. cbv zeta.
  assert (Hval : V s (mf e f * 2 ^ (e - e') + mf e' g) 1 (e' - bias E - F) =
    V s n (2 ^ (e - e')) (e + 1 - bias E - (W - 2))).
  { apply V_same; try lia.
    apply (samev_trans _ _ _ n 1 (e' - bias E - F - (E - 2))); [lia| |].
    - rewrite En, EA, EB. replace (mf e f * 2 ^ (E - 2) * 2 ^ (e - e') + mf e' g * 2 ^ (E - 2)) with ((mf e f * 2 ^ (e - e') + mf e' g) * 2 ^ (E - 2)) by ring.
      apply samev_num. lia.
    - replace (2 ^ (e - e')) with (1 * 2 ^ (e - e')) by ring.
      replace (e + 1 - bias E - (W - 2)) with (e' - bias E - F - (E - 2) + (e - e')) by lia. apply samev_den. lia. }
  rewrite Hval. destruct (Z.ltb_spec (jam n (2 ^ (e - e'))) (2 ^ (W - 2))) as [L|L].
  - rewrite ushl_ok by lia. cbn [bind].
    destruct (roundPackFM_ok md odd E F U C W HW ltac:(lia) HF HU HC Hpow s (e - 1) (jam n (2 ^ (e - e')) * 2 ^ 1) n (2 ^ (e - e')) 1) as (r & fl & R1 & R2); try lia.
    exists r, fl. split; [exact R1|]. eapply fl3_eq_m; [|exact R2]. f_equal. lia.
  - destruct (roundPackFM_ok md odd E F U C W HW ltac:(lia) HF HU HC Hpow s e (jam n (2 ^ (e - e'))) n (2 ^ (e - e')) 0) as (r & fl & R1 & R2); try lia.
    exists r, fl. split; [exact R1|]. eapply fl3_eq_m; [|exact R2]. f_equal. lia.
Qed.

Lemma subFinal_ok_m s e f e' g : 0 <= e' < e -> e < 2 ^ E - 1 -> 0 <= f < 2 ^ F -> 0 <= g < 2 ^ F ->
  okfm md E F (normRoundPackFM (enum_of md) odd E F U C s (e - 1) (uw U (mf e f * 2 ^ (E - 1) - jam (mf e' g * 2 ^ (E - 1)) (2 ^ (e - e')))))
    (V s (mf e f * 2 ^ (e - e') - mf e' g) 1 (e' - bias E - F)) /\ 0 < mf e f * 2 ^ (e - e') - mf e' g.
Proof.
  intros He' He Hf Hg. pose proof (mf_bound F HF e f ltac:(lia) Hf) as [Bx Bx2]. pose proof (mf_bound F HF e' g ltac:(lia) Hg) as [By _].
  specialize (Bx2 ltac:(lia)).
  pose proof (U_W U W HU) as UW. pose proof (pow2_pos F ltac:(lia)) as PF. pose proof (pow2_pos (E - 1) ltac:(lia)) as PG.
  pose proof (pow2_pos (e - e') ltac:(lia)) as Pt. pose proof (pow2_pos (W - 3) ltac:(lia)) as PW.
  assert (Pt2 : 2 <= 2 ^ (e - e')) by (change 2 with (2 ^ 1) at 1; apply pow2_le; lia).
  assert (W2 : 2 ^ (W - 2) = 2 * 2 ^ (W - 3)) by (rewrite <- pow2_S by lia; f_equal; lia).
  assert (W2' : 2 ^ (W - 2) = 2 ^ F * 2 ^ (E - 1)) by (rewrite <- pow2_add by lia; f_equal; lia).
  assert (W1 : 2 ^ (W - 1) = 2 * 2 ^ (W - 2)) by (rewrite <- pow2_S by lia; f_equal; lia).
  assert (W0 : 2 ^ W = 2 * 2 ^ (W - 1)) by (rewrite <- pow2_S by lia; f_equal; lia).
  assert (BA : 2 ^ (W - 2) <= mf e f * 2 ^ (E - 1) < 2 ^ (W - 1)).
  { rewrite W1, W2'. split; [apply Z.mul_le_mono_nonneg_r; lia|]. rewrite Z.mul_assoc. apply Z.mul_lt_mono_pos_r; lia. }
  assert (BB : 0 <= mf e' g * 2 ^ (E - 1) < 2 ^ (W - 1)).
  { rewrite W1, W2'. split; [apply Z.mul_nonneg_nonneg; lia|]. rewrite Z.mul_assoc. apply Z.mul_lt_mono_pos_r; lia. }
  assert (EvA : Z.even (mf e f * 2 ^ (E - 1)) = true) by (rewrite Z.even_mul, even_pow2 by lia; apply orb_true_r).
  assert (EvB : Z.even (mf e' g * 2 ^ (E - 1)) = true) by (rewrite Z.even_mul, even_pow2 by lia; apply orb_true_r).
  assert (Hpos : 0 < mf e f * 2 ^ (e - e') - mf e' g).
  { clear - Bx2 By Pt2 PF. nia. }
  split; [|exact Hpos].
  assert (Hval : samev (mf e f * 2 ^ (e - e') - mf e' g) 1 (e' - bias E - F)
    (mf e f * 2 ^ (E - 1) * 2 ^ (e - e') - mf e' g * 2 ^ (E - 1)) (2 ^ (e - e')) (e - 1 + 1 - bias E - (W - 2))).
  { apply (samev_trans _ _ _ (mf e f * 2 ^ (E - 1) * 2 ^ (e - e') - mf e' g * 2 ^ (E - 1)) 1 (e' - bias E - F - (E - 1))); [lia| |].
    - replace (mf e f * 2 ^ (E - 1) * 2 ^ (e - e') - mf e' g * 2 ^ (E - 1)) with ((mf e f * 2 ^ (e - e') - mf e' g) * 2 ^ (E - 1)) by ring.
      apply samev_num. lia.
    - pose proof (samev_den (mf e f * 2 ^ (E - 1) * 2 ^ (e - e') - mf e' g * 2 ^ (E - 1)) 1 (e' - bias E - F - (E - 1)) (e - e') ltac:(lia)) as S.
      rewrite Z.mul_1_l in S. replace (e - 1 + 1 - bias E - (W - 2)) with (e' - bias E - F - (E - 1) + (e - e')) by lia. exact S. }
  remember (mf e f * 2 ^ (E - 1)) as A eqn:EA. remember (mf e' g * 2 ^ (E - 1)) as B eqn:EB.
  assert (HAd : A * 2 <= A * 2 ^ (e - e')) by (apply Z.mul_le_mono_nonneg_l; lia).
  rewrite <- jam_sub by (assumption || lia).
  remember (A * 2 ^ (e - e') - B) as n eqn:En.
  assert (Hn : 0 < n) by lia.
  pose proof (jam_pos n (2 ^ (e - e')) Hn Pt) as Jp.
  assert (J2 : jam n (2 ^ (e - e')) < 2 ^ (W - 1)).
  { apply jam_lt; [lia|lia|apply even_pow2; lia|]. rewrite En. clear - BA BB Pt. nia. }
  unfold uw. rewrite Z.mod_small by lia.
  rewrite (V_same s _ _ _ n (2 ^ (e - e')) (e - 1 + 1 - bias E - (W - 2))) by (assumption || lia).
  apply normRoundPackFM_ok; try assumption; try lia; try reflexivity.
  destruct (Z.eq_dec (e - e') 1) as [T1|T1].
  - right. rewrite T1. change (2 ^ 1) with 2. rewrite En, T1. change (2 ^ 1) with 2.
    apply Z.even_spec in EvB. destruct EvB as [b Hb]. replace (A * 2 - B) with ((A - b) * 2) by lia. apply Z.mod_mul. lia.
  - left. assert (Pt4 : 4 <= 2 ^ (e - e')) by (change 4 with (2 ^ 2); apply pow2_le; lia).
    apply jam_ge; [lia|lia|]. rewrite En.
    assert (2 * (2 ^ (W - 3) * 2 ^ (e - e')) <= A * 2 ^ (e - e')).
    { rewrite Z.mul_assoc. apply Z.mul_le_mono_nonneg_r; lia. }
    assert (2 ^ (W - 3) * 4 <= 2 ^ (W - 3) * 2 ^ (e - e')) by (apply Z.mul_le_mono_nonneg_l; lia). lia.
Qed.

(** The value of a word with a finite exponent field. *)
Definition FV (s : bool) (e f : Z) : R := sgnR s (IZR (mf e f) * bpow radix2 (e - bias E - F)).
Lemma rv_word s e f : 0 <= e < 2 ^ E - 1 -> 0 <= f < 2 ^ F -> rv (decode754 E F (word E F s e f)) = FV s e f.
Proof.
  intros He Hf. rewrite decode_fin by lia. unfold FV, fin_val, SfProofs4.mf.
  destruct (Z.eqb_spec e 0) as [->|E0].
  - destruct (Z.eqb_spec f 0) as [->|F0].
    + cbn [rv]. rewrite Z.mul_0_r, Rmult_0_l. destruct s; cbn [sgnR]; ring.
    + rewrite rv_sgn. f_equal. replace (1 - bias E - F) with (0 - bias E - F + 1) by lia. rewrite mult_IZR, bpow_plus. change (bpow radix2 1) with 2%R. ring.
  - replace (2 ^ F + f =? 0) with false by (symmetry; apply Z.eqb_neq; pose proof (pow2_pos F ltac:(lia)); lia).
    rewrite rv_sgn. reflexivity.
Qed.
Lemma FV_V s e f : FV s e f = V s (mf e f) 1 (e - bias E - F).
Proof. unfold FV, V. f_equal. field. Qed.
Lemma V_scale s n k j : 0 <= j -> V s n 1 k = V s (n * 2 ^ j) 1 (k - j).
Proof. intros Hj. apply V_same; try lia. apply samev_num. exact Hj. Qed.
Lemma V_plus s n m k : (V s n 1 k + V s m 1 k)%R = V s (n + m) 1 k.
Proof. unfold V. rewrite plus_IZR. destruct s; cbn [sgnR]; field. Qed.
Lemma V_neg s n k : V (negb s) n 1 k = V s (- n) 1 k.
Proof. unfold V. rewrite opp_IZR. destruct s; cbn [sgnR negb]; field. Qed.
Lemma FV_same s e f e' g : e' <= e -> (FV s e f + FV s e' g)%R = V s (mf e f * 2 ^ (e - e') + mf e' g) 1 (e' - bias E - F).
Proof.
  intros He. rewrite !FV_V. rewrite (V_scale s (mf e f) (e - bias E - F) (e - e')) by lia.
  replace (e - bias E - F - (e - e')) with (e' - bias E - F) by lia. apply V_plus.
Qed.
Lemma FV_diff s e f e' g : e' <= e -> (FV s e f + FV (negb s) e' g)%R = V s (mf e f * 2 ^ (e - e') - mf e' g) 1 (e' - bias E - F).
Proof.
  intros He. rewrite !FV_V, V_neg. rewrite (V_scale s (mf e f) (e - bias E - F) (e - e')) by lia.
  replace (e - bias E - F - (e - e')) with (e' - bias E - F) by lia. unfold Z.sub at 3. apply V_plus.
Qed.

Lemma addMagsFM_fin quick s e f e' g : 0 <= e < 2 ^ E - 1 -> 0 <= f < 2 ^ F -> 0 <= e' < 2 ^ E - 1 -> 0 <= g < 2 ^ F ->
  okfm md E F (addMagsFM (enum_of md) odd E F U C quick (word E F s e f) (word E F s e' g)) (FV s e f + FV s e' g).
Proof.
  intros He Hf He' Hg. unfold addMagsFM. cbv zeta.
  rewrite !expUI_word, !fracUI_word, !signUI_word by lia.
  pose proof (pow2_pos F ltac:(lia)) as PF. pose proof (U_W U W HU) as UW. destruct (sf_EB E ltac:(lia)) as [EB B3].
  assert (HE15 : 2 ^ E <= 2 ^ 15) by (apply pow2_le; lia). change (2 ^ 15) with 32768 in HE15.
  assert (WF : 2 ^ (E + F) <= 2 ^ (W - 1)) by (apply pow2_le; lia).
  assert (W0 : 2 ^ W = 2 * 2 ^ (W - 1)) by (rewrite <- pow2_S by lia; f_equal; lia).
  assert (Wa : 0 <= word E F s e f < 2 ^ W) by (rewrite HW; apply word_wf; lia).
  assert (Wb : 0 <= word E F s e' g < 2 ^ W) by (rewrite HW; apply word_wf; lia).
  assert (FE : 2 ^ (E + F) = 2 ^ E * 2 ^ F) by (apply pow2_add; lia).
  assert (G1 : E - 1 - 1 = E - 2) by lia. rewrite G1. rewrite <- HW.
  assert (SH : forall x, 0 <= x < 2 ^ F -> ushl U x (E - 2) = Some (x * 2 ^ (E - 2))).
  { intros x Hx. assert (x * 2 ^ (E - 2) < 2 ^ W).
    { replace (2 ^ W) with (2 ^ (F + 3) * 2 ^ (E - 2)) by (rewrite <- pow2_add by lia; f_equal; lia).
      assert (2 ^ F < 2 ^ (F + 3)) by (apply pow2_lt; lia). apply Z.mul_lt_mono_pos_r; [apply pow2_pos; lia|lia]. }
    apply ushl_ok; [lia|]. split; [apply Z.mul_nonneg_nonneg; [lia|apply Z.lt_le_incl, pow2_pos; lia]|lia]. }
  replace (e =? 2 ^ E - 1) with false by (symmetry; apply Z.eqb_neq; lia). replace (e' =? 2 ^ E - 1) with false by (symmetry; apply Z.eqb_neq; lia).
  destruct (Z.eqb_spec (e - e') 0) as [D0|D0].
  - assert (e' = e) by lia. subst e'. clear D0 He'. rewrite FV_same by lia. replace (e - e) with 0 by lia. rewrite Z.pow_0_r, Z.mul_1_r.
    unfold SfProofs4.mf. destruct (Z.eqb_spec e 0) as [E0|E0].
    + subst e. eexists _, _. split; [reflexivity|]. eapply fl3_eq_m; [|apply (fl3_exact_m md E F HF s (f + g) (1 - bias E - F)); rewrite ?pow2_S by lia; lia].
      rewrite (V_scale s (f + g) (1 - bias E - F) 1) by lia. change (2 ^ 1) with 2. f_equal; lia.
    + replace (2 ^ F + f + (2 ^ F + g)) with (2 ^ (F + 1) + f + g) by (rewrite pow2_S by lia; ring).
      assert (BZ : 2 ^ (F + 1) <= 2 ^ (F + 1) + f + g < 2 ^ (F + 2)).
      { replace (F + 2) with (F + 1 + 1) by lia. rewrite !pow2_S by lia. lia. }
      assert (PF2 : 2 ^ (F + 2) <= 2 ^ W) by (apply pow2_le; lia).
      unfold uw. rewrite Z.mod_small by lia. remember (2 ^ (F + 1) + f + g) as z eqn:Ez.
      assert (PF1 : 2 ^ (F + 1) = 2 * 2 ^ F) by (apply pow2_S; lia).
      assert (PF3 : 2 ^ (F + 2) = 4 * 2 ^ F) by (replace (F + 2) with (F + 1 + 1) by lia; rewrite !pow2_S by lia; ring).
      destruct (quick && (Z.land z 1 =? 0) && (e <? 2 ^ E - 1 - 1)) eqn:Q.
      -- apply andb_prop in Q. destruct Q as [Q Q3]. apply andb_prop in Q. destruct Q as [_ Q2]. apply Z.ltb_lt in Q3. apply Z.eqb_eq in Q2.
         change 1 with (2 ^ 1 - 1) in Q2 at 1. rewrite land_low in Q2 by lia. change (2 ^ 1) with 2 in Q2.
         rewrite Z.shiftr_div_pow2 by lia. change (2 ^ 1) with 2.
         pose proof (Z.div_mod z 2 ltac:(lia)) as DM. rewrite Q2, Z.add_0_r in DM. remember (z / 2) as m eqn:Em.
         assert (HT : e * 2 ^ F + m <= (2 ^ E - 1) * 2 ^ F) by (clear - DM BZ PF3 Q3 PF; nia).
         assert (HT2 : 0 <= e * 2 ^ F + m < 2 ^ (E + F)) by (rewrite FE; clear - HT DM BZ PF1 He PF; nia).
         eexists _, _. split; [reflexivity|]. eapply fl3_eq_m; [|apply (fl3_exact_m md E F HF s m (e + 1 - bias E - F)); rewrite ?pow2_S by lia; lia].
         rewrite (V_scale s m (e + 1 - bias E - F) 1) by lia. change (2 ^ 1) with 2. f_equal; lia.
      -- assert (ZG : 2 ^ (W - 2) <= z * 2 ^ (E - 2) < 2 ^ (W - 1)).
         { replace (2 ^ (W - 2)) with (2 ^ (F + 1) * 2 ^ (E - 2)) by (rewrite <- pow2_add by lia; f_equal; lia).
           replace (2 ^ (W - 1)) with (2 ^ (F + 2) * 2 ^ (E - 2)) by (rewrite <- pow2_add by lia; f_equal; lia).
           pose proof (pow2_pos (E - 2) ltac:(lia)). split; [apply Z.mul_le_mono_nonneg_r|apply Z.mul_lt_mono_pos_r]; lia. }
         pose proof (pow2_pos (W - 2) ltac:(lia)).
         rewrite ushl_ok by lia. cbn [bind].
         destruct (roundPackFM_ok md odd E F U C W HW ltac:(lia) HF HU HC Hpow s e (z * 2 ^ (E - 2)) (z * 2 ^ (E - 2)) 1 0) as (r & fl & R1 & R2); try lia.
         { rewrite jam_1 by lia. ring. }
         exists r, fl. split; [exact R1|]. eapply fl3_eq_m; [|exact R2]. symmetry. apply V_same; try lia.
         replace (e + 1 - bias E - (W - 2) + 0) with (e - bias E - F - (E - 2)) by lia. apply samev_num. lia.
  - rewrite !SH by lia. cbn [bind].
    assert (MF : forall e f, 0 <= e -> 0 <= f < 2 ^ F ->
      uw U (f * 2 ^ (E - 2) + (if negb (e =? 0) then 2 ^ (W - 3) else f * 2 ^ (E - 2))) = mf e f * 2 ^ (E - 2) /\
      0 <= mf e f * 2 ^ (E - 2) < 2 ^ W).
    { intros x y Hx Hy. pose proof (mf_bound F HF x y Hx Hy) as [B _].
      assert (B2 : 0 <= mf x y * 2 ^ (E - 2) < 2 ^ W).
      { pose proof (pow2_pos (E - 2) ltac:(lia)). split; [apply Z.mul_nonneg_nonneg; lia|].
        replace (2 ^ W) with (2 ^ (F + 3) * 2 ^ (E - 2)) by (rewrite <- pow2_add by lia; f_equal; lia).
        assert (2 ^ (F + 1) < 2 ^ (F + 3)) by (apply pow2_lt; lia). rewrite pow2_S in H0 by lia. apply Z.mul_lt_mono_pos_r; lia. }
      split; [|exact B2].
      assert (HH : y * 2 ^ (E - 2) + (if negb (x =? 0) then 2 ^ (W - 3) else y * 2 ^ (E - 2)) = mf x y * 2 ^ (E - 2)).
      { unfold SfProofs4.mf. destruct (x =? 0); cbn [negb]; [ring|].
        replace (2 ^ (W - 3)) with (2 ^ F * 2 ^ (E - 2)) by (rewrite <- pow2_add by lia; f_equal; lia). ring. }
      rewrite HH. unfold uw. apply Z.mod_small. lia. }
    destruct (Z.ltb_spec (e - e') 0) as [L|L].
    + destruct (MF e f ltac:(lia) Hf) as [M1 M2]. rewrite M1.
      rewrite (shiftRightJam_eq E F W) by (assumption || lia).
      rewrite Rplus_comm, FV_same by lia.
      pose proof (addFinal_ok_m s e' g e f ltac:(lia) ltac:(lia) Hg Hf) as H. cbv zeta in H.
      replace (- (e - e')) with (e' - e) by lia.
      replace (2 ^ (W - 3) + jam (mf e f * 2 ^ (E - 2)) (2 ^ (e' - e)) + g * 2 ^ (E - 2))
        with (2 ^ (W - 3) + g * 2 ^ (E - 2) + jam (mf e f * 2 ^ (E - 2)) (2 ^ (e' - e))) by ring.
      exact H.
    + destruct (MF e' g ltac:(lia) Hg) as [M1 M2]. rewrite M1.
      rewrite (shiftRightJam_eq E F W) by (assumption || lia).
      rewrite FV_same by lia.
      exact (addFinal_ok_m s e f e' g ltac:(lia) ltac:(lia) Hf Hg).
Qed.

Lemma subMagsFM_fin s e f e' g : 0 <= e < 2 ^ E - 1 -> 0 <= f < 2 ^ F -> 0 <= e' < 2 ^ E - 1 -> 0 <= g < 2 ^ F ->
  okfm md E F (subMagsFM (enum_of md) odd E F U C (word E F s e f) (word E F (negb s) e' g)) (FV s e f + FV (negb s) e' g).
Proof.
  intros He Hf He' Hg. unfold subMagsFM. cbv zeta.
  rewrite !expUI_word, !fracUI_word, !signUI_word by lia.
  pose proof (pow2_pos F ltac:(lia)) as PF. pose proof (U_W U W HU) as UW. destruct (sf_EB E ltac:(lia)) as [EB B3].
  assert (HE15 : 2 ^ E <= 2 ^ 15) by (apply pow2_le; lia). change (2 ^ 15) with 32768 in HE15.
  assert (W0 : 2 ^ W = 2 * 2 ^ (W - 1)) by (rewrite <- pow2_S by lia; f_equal; lia).
  assert (W2' : 2 ^ (W - 2) = 2 ^ F * 2 ^ (E - 1)) by (rewrite <- pow2_add by lia; f_equal; lia).
  assert (W1 : 2 ^ (W - 1) = 2 * 2 ^ (W - 2)) by (rewrite <- pow2_S by lia; f_equal; lia).
  assert (Wa : 0 <= word E F s e f < 2 ^ W) by (rewrite HW; apply word_wf; lia).
  assert (Wb : 0 <= word E F (negb s) e' g < 2 ^ W) by (rewrite HW; apply word_wf; lia).
  assert (FE : 2 ^ (E + F) = 2 ^ E * 2 ^ F) by (apply pow2_add; lia).
  rewrite <- HW. pose proof (pow2_pos (E - 1) ltac:(lia)) as PG.
  assert (SH : forall x, 0 <= x < 2 ^ F -> ushl U x (E - 1) = Some (x * 2 ^ (E - 1))).
  { intros x Hx. assert (x * 2 ^ (E - 1) < 2 ^ F * 2 ^ (E - 1)) by (apply Z.mul_lt_mono_pos_r; lia).
    apply ushl_ok; [lia|]. split; [apply Z.mul_nonneg_nonneg; lia|lia]. }
  replace (e =? 2 ^ E - 1) with false by (symmetry; apply Z.eqb_neq; lia). replace (e' =? 2 ^ E - 1) with false by (symmetry; apply Z.eqb_neq; lia).
  destruct (Z.eqb_spec (e - e') 0) as [D0|D0].
  - assert (e' = e) by lia. subst e'. clear D0 He'. rewrite FV_diff by lia. replace (e - e) with 0 by lia. rewrite Z.pow_0_r, Z.mul_1_r.
    assert (X0 : fl3m md E F (V s (mf e f - mf e g) 1 (e - bias E - F)) 0).
    { destruct (Z.le_gt_cases g f) as [L|L].
      - eapply fl3_eq_m; [|apply (fl3_exact_m md E F HF s (f - g) ((if e =? 0 then 1 else e) - bias E - F)); rewrite ?pow2_S by lia; destruct (Z.eqb_spec e 0); lia].
        unfold SfProofs4.mf. destruct (Z.eqb_spec e 0) as [->|]; [rewrite (V_scale s (f - g) (1 - bias E - F) 1) by lia; change (2 ^ 1) with 2|]; f_equal; lia.
      - eapply fl3_eq_m; [|apply (fl3_exact_m md E F HF (negb s) (g - f) ((if e =? 0 then 1 else e) - bias E - F)); rewrite ?pow2_S by lia; destruct (Z.eqb_spec e 0); lia].
        rewrite V_neg. unfold SfProofs4.mf. destruct (Z.eqb_spec e 0) as [->|]; [rewrite (V_scale s (- (g - f)) (1 - bias E - F) 1) by lia; change (2 ^ 1) with 2|]; f_equal; lia. }
    destruct (Z.eqb_spec (f - g) 0) as [Z0|Z0]; [eexists _, _; split; [reflexivity|exact X0]|].
    match goal with |- okfm _ _ _ (bind (ushl _ ?a ?b) _) _ => assert (SS : exists y, ushl U a b = Some y) end.
    { unfold ushl, assert_. assert (HR : 0 <= (if (if negb (e =? 0) then e - 1 else e) - (clzW E F (if f - g <? 0 then - (f - g) else f - g) - E) <? 0 then if negb (e =? 0) then e - 1 else e else clzW E F (if f - g <? 0 then - (f - g) else f - g) - E) < U).
      { assert (Bw : 0 < (if f - g <? 0 then - (f - g) else f - g) < 2 ^ F) by (destruct (Z.ltb_spec (f - g) 0); lia).
        remember (if f - g <? 0 then - (f - g) else f - g) as w eqn:Ew. clear Ew.
        assert (FW : 2 ^ (F + 1) <= 2 ^ W) by (apply pow2_le; lia). rewrite pow2_S in FW by lia.
        rewrite clzW_eq by (try lia; rewrite <- HW; lia).
        pose proof (Z.log2_nonneg w) as Ln. assert (Lu : Z.log2 w < F) by (apply Z.log2_lt_pow2; lia).
        destruct (Z.eqb_spec e 0); cbn [negb]; match goal with |- context [?a <? ?b] => destruct (Z.ltb_spec a b) end; lia. }
      eexists. replace (_ && _) with true; [reflexivity|]. symmetry. apply andb_true_iff. rewrite Z.leb_le, Z.ltb_lt. exact HR. }
    destruct SS as [y ->]. cbn [bind]. eexists _, _. split; [reflexivity|exact X0].
  - rewrite !SH by lia. cbn [bind].
    assert (MF : forall e f, 0 <= e -> 0 <= f < 2 ^ F ->
      uw U (f * 2 ^ (E - 1) + (if negb (e =? 0) then 2 ^ (W - 2) else f * 2 ^ (E - 1))) = mf e f * 2 ^ (E - 1) /\
      0 <= mf e f * 2 ^ (E - 1) < 2 ^ W).
    { intros x y Hx Hy. pose proof (mf_bound F HF x y Hx Hy) as [B _].
      assert (B2 : 0 <= mf x y * 2 ^ (E - 1) < 2 ^ W).
      { split; [apply Z.mul_nonneg_nonneg; lia|].
        assert (mf x y * 2 ^ (E - 1) < 2 * 2 ^ F * 2 ^ (E - 1)) by (apply Z.mul_lt_mono_pos_r; lia). lia. }
      split; [|exact B2].
      assert (HH : y * 2 ^ (E - 1) + (if negb (x =? 0) then 2 ^ (W - 2) else y * 2 ^ (E - 1)) = mf x y * 2 ^ (E - 1)).
      { unfold SfProofs4.mf. rewrite W2'. destruct (x =? 0); cbn [negb]; ring. }
      rewrite HH. unfold uw. apply Z.mod_small. lia. }
    assert (LO : forall x y, x <> 0 -> 0 <= y < 2 ^ F -> Z.lor (y * 2 ^ (E - 1)) (2 ^ (W - 2)) = mf x y * 2 ^ (E - 1)).
    { intros x y Hx Hy. unfold SfProofs4.mf. replace (x =? 0) with false by (symmetry; apply Z.eqb_neq; lia).
      rewrite Z.lor_comm. rewrite <- (Z.mul_1_l (2 ^ (W - 2))). rewrite lor_join; [rewrite W2'; ring|lia|].
      split; [apply Z.mul_nonneg_nonneg; lia|]. rewrite W2'. apply Z.mul_lt_mono_pos_r; lia. }
    destruct (Z.ltb_spec (e - e') 0) as [L|L].
    + destruct (MF e f ltac:(lia) Hf) as [M1 M2]. rewrite M1, (LO e' g) by lia.
      rewrite (shiftRightJam_eq E F W) by (assumption || lia).
      replace (FV s e f) with (FV (negb (negb s)) e f) by (now rewrite negb_involutive).
      rewrite Rplus_comm, FV_diff by lia.
      replace (- (e - e')) with (e' - e) by lia.
      destruct (subFinal_ok_m (negb s) e' g e f ltac:(lia) ltac:(lia) Hg Hf) as [H Hp]. exact H.
    + destruct (MF e' g ltac:(lia) Hg) as [M1 M2]. rewrite M1, (LO e f) by lia.
      rewrite (shiftRightJam_eq E F W) by (assumption || lia).
      rewrite FV_diff by lia.
      destruct (subFinal_ok_m s e f e' g ltac:(lia) ltac:(lia) Hf Hg) as [H Hp]. exact H.
Qed.
End Add.
