(** SoftFloat in every rounding mode: addition. Follows SfProofs3.v, SfProofs4.v and SfProofs5.v. *)
From Coq Require Import ZArith Bool Lia.
From Verif Require Import Spec Spec754 Spec754Mode Fw FwLemmas SpecLemmas ValueLemmas Sf754Lemmas SoftFloat SoftFloatMode SpecSfMode SfProofs1 SfProofs2 SfProofs3 SfProofs4 SfProofs5 SfmProofs1 SfmProofs2.
Open Scope Z_scope.

Lemma round754m_scale md E F s n k c : 0 <= F -> 0 < n -> c <= k -> round754m md E F s n 1 k = round754m md E F s (n * 2 ^ (k - c)) 1 c.
Proof.
  intros HF Hn Hc. pose proof (pow2_pos (k - c) ltac:(lia)). apply round754m_same; try lia.
  replace c with (k - (k - c)) at 2 by lia. apply samev_num. lia.
Qed.

Lemma add754m_same md E F s m q m' q' c : 0 <= F -> 0 <= m -> 0 <= m' -> c <= q -> c <= q' ->
  add754m md E F (fin_val s m q) (fin_val s m' q') =
  if m * 2 ^ (q - c) + m' * 2 ^ (q' - c) =? 0 then Zero s else round754m md E F s (m * 2 ^ (q - c) + m' * 2 ^ (q' - c)) 1 c.
Proof.
  intros HF Hm Hm' Hq Hq'. unfold add754m, fin_val.
  pose proof (pow2_pos (q - c) ltac:(lia)) as P1. pose proof (pow2_pos (q' - c) ltac:(lia)) as P2.
  assert (0 <= m * 2 ^ (q - c)) by nia. assert (0 <= m' * 2 ^ (q' - c)) by nia.
  destruct (Z.eqb_spec m 0) as [->|Hz]; destruct (Z.eqb_spec m' 0) as [->|Hz'].
  - cbn. destruct s; reflexivity.
  - assert (0 < m' * 2 ^ (q' - c)) by nia. rewrite Z.mul_0_l, Z.add_0_l in *.
    replace (m' * 2 ^ (q' - c) =? 0) with false by (symmetry; apply Z.eqb_neq; lia).
    cbn [add_gen]. apply round754m_scale; lia.
  - assert (0 < m * 2 ^ (q - c)) by nia. rewrite Z.mul_0_l, Z.add_0_r in *.
    replace (m * 2 ^ (q - c) =? 0) with false by (symmetry; apply Z.eqb_neq; lia).
    cbn [add_gen]. apply round754m_scale; lia.
  - assert (0 < m * 2 ^ (q - c)) by nia. assert (0 < m' * 2 ^ (q' - c)) by nia.
    replace (m * 2 ^ (q - c) + m' * 2 ^ (q' - c) =? 0) with false by (symmetry; apply Z.eqb_neq; lia).
    cbn [add_gen]. cbv zeta. remember (Z.min q q') as k eqn:Ek.
    pose proof (pow2_pos (q - k) ltac:(lia)) as P3. pose proof (pow2_pos (q' - k) ltac:(lia)) as P4.
    assert (Hs : 0 < m * 2 ^ (q - k) + m' * 2 ^ (q' - k)) by nia.
    replace (sgn s (m * 2 ^ (q - k)) + sgn s (m' * 2 ^ (q' - k))) with (sgn s (m * 2 ^ (q - k) + m' * 2 ^ (q' - k)))
      by (unfold sgn; destruct s; lia).
    replace (sgn s (m * 2 ^ (q - k) + m' * 2 ^ (q' - k)) =? 0) with false
      by (symmetry; apply Z.eqb_neq; unfold sgn; destruct s; lia).
    replace (sgn s (m * 2 ^ (q - k) + m' * 2 ^ (q' - k)) <? 0) with s
      by (unfold sgn; destruct s; symmetry; [apply Z.ltb_lt|apply Z.ltb_ge]; lia).
    replace (Z.abs (sgn s (m * 2 ^ (q - k) + m' * 2 ^ (q' - k)))) with (m * 2 ^ (q - k) + m' * 2 ^ (q' - k))
      by (unfold sgn; destruct s; lia).
    rewrite (round754m_scale md E F s _ k c) by lia. f_equal.
    rewrite Z.mul_add_distr_r, <- !Z.mul_assoc, <- !pow2_add by lia. f_equal; do 2 f_equal; lia.
Qed.

Lemma add754m_diff md E F s m q m' q' c : 0 <= F -> 0 <= m -> 0 <= m' -> c <= q -> c <= q' ->
  add754m md E F (fin_val s m q) (fin_val (negb s) m' q') =
  let v := m * 2 ^ (q - c) - m' * 2 ^ (q' - c) in
  if v =? 0 then zero_sum md else round754m md E F (if v <? 0 then negb s else s) (Z.abs v) 1 c.
Proof.
  intros HF Hm Hm' Hq Hq'. unfold add754m, fin_val. cbv zeta.
  pose proof (pow2_pos (q - c) ltac:(lia)) as P1. pose proof (pow2_pos (q' - c) ltac:(lia)) as P2.
  assert (0 <= m * 2 ^ (q - c)) by nia. assert (0 <= m' * 2 ^ (q' - c)) by nia.
  destruct (Z.eqb_spec m 0) as [->|Hz]; destruct (Z.eqb_spec m' 0) as [->|Hz'].
  - cbn. destruct s; reflexivity.
  - assert (0 < m' * 2 ^ (q' - c)) by nia. rewrite Z.mul_0_l, Z.sub_0_l in *.
    replace (- (m' * 2 ^ (q' - c)) =? 0) with false by (symmetry; apply Z.eqb_neq; lia).
    replace (- (m' * 2 ^ (q' - c)) <? 0) with true by (symmetry; apply Z.ltb_lt; lia).
    rewrite Z.abs_opp, Z.abs_eq by lia. cbn [add_gen]. apply round754m_scale; lia.
  - assert (0 < m * 2 ^ (q - c)) by nia. rewrite Z.mul_0_l, Z.sub_0_r in *.
    replace (m * 2 ^ (q - c) =? 0) with false by (symmetry; apply Z.eqb_neq; lia).
    replace (m * 2 ^ (q - c) <? 0) with false by (symmetry; apply Z.ltb_ge; lia).
    rewrite Z.abs_eq by lia. cbn [add_gen]. apply round754m_scale; lia.
  - cbn [add_gen]. cbv zeta. remember (Z.min q q') as k eqn:Ek.
    pose proof (pow2_pos (q - k) ltac:(lia)) as P3. pose proof (pow2_pos (q' - k) ltac:(lia)) as P4.
    pose proof (pow2_pos (k - c) ltac:(lia)) as P5.
    remember (m * 2 ^ (q - k) - m' * 2 ^ (q' - k)) as w eqn:Ew.
    assert (Hv : m * 2 ^ (q - c) - m' * 2 ^ (q' - c) = w * 2 ^ (k - c)).
    { rewrite Ew, Z.mul_sub_distr_r, <- !Z.mul_assoc, <- !pow2_add by lia. f_equal; do 2 f_equal; lia. }
    rewrite Hv.
    replace (sgn s (m * 2 ^ (q - k)) + sgn (negb s) (m' * 2 ^ (q' - k))) with (sgn s w)
      by (unfold sgn; destruct s; cbn [negb]; lia).
    replace (w * 2 ^ (k - c) =? 0) with (w =? 0) by (destruct (Z.eqb_spec w 0), (Z.eqb_spec (w * 2 ^ (k - c)) 0); nia).
    replace (w * 2 ^ (k - c) <? 0) with (w <? 0) by (destruct (Z.ltb_spec w 0), (Z.ltb_spec (w * 2 ^ (k - c)) 0); nia).
    rewrite Z.abs_mul, (Z.abs_eq (2 ^ (k - c))) by lia.
    replace (sgn s w =? 0) with (w =? 0) by (unfold sgn; destruct s; [destruct (Z.eqb_spec w 0), (Z.eqb_spec (- w) 0); lia|reflexivity]).
    destruct (Z.eqb_spec w 0) as [|Hw]; [reflexivity|].
    replace (sgn s w <? 0) with (if w <? 0 then negb s else s).
    2: { unfold sgn; destruct s; cbn [negb]; [destruct (Z.ltb_spec w 0), (Z.ltb_spec (- w) 0); lia|now destruct (w <? 0)]. }
    replace (Z.abs (sgn s w)) with (Z.abs w) by (unfold sgn; destruct s; lia).
    apply round754m_scale; lia.
Qed.

Lemma add754m_comm md E F x y : add754m md E F x y = add754m md E F y x.
Proof.
  destruct x as [|s|s|s m e], y as [|t|t|t n f]; unfold add754m; cbn [add_gen]; try reflexivity.
  - destruct s, t; reflexivity.
  - destruct s, t; reflexivity.
  - cbv zeta. rewrite (Z.min_comm f e), (Z.add_comm (sgn t _)). reflexivity.
Qed.

Section Add.
Context (md : rmode) (odd : bool) (Hodd : md = Odd -> odd = true).
Context (E F U C W : Z).
Context (HW : W = E + F + 1) (HE : 4 <= E <= 15) (HF : 1 <= F) (HU : W <= U) (HC : 16 <= C) (H64 : W <= 64).
Context (Hpow : exists w, 0 <= w /\ W = 2 ^ w).
Notation mf := (mf F).

Lemma normRoundPackM_ok s exp sig n d : 0 < n -> 0 < d -> sig = jam n d -> sig < 2 ^ (W - 1) -> 0 <= exp < 2 ^ E ->
  (2 ^ (W - 3) <= sig \/ n mod d = 0) ->
  okr E F W (normRoundPackM (enum_of md) odd E F U C s exp sig) (round754m md E F s n d (exp + 1 - bias E - (W - 2))).
Proof.
  intros Hn Hd Hsig Hlt He Hc. destruct (sf_EB E ltac:(lia)) as [EB B3]. pose proof (jam_pos n d Hn Hd) as Jp.
  assert (HWW : 2 ^ (W - 1) < 2 ^ W) by (apply pow2_lt; lia).
  assert (HUW : 2 ^ W <= 2 ^ U) by (apply pow2_le; lia).
  assert (HE15 : 2 ^ E <= 2 ^ 15) by (apply pow2_le; lia). change (2 ^ 15) with 32768 in HE15.
  pose proof (Z.log2_nonneg sig) as Ln. assert (Lu : Z.log2 sig < W - 1) by (apply Z.log2_lt_pow2; lia).
  unfold normRoundPackM. cbv zeta. rewrite clzW_eq by (try lia; rewrite <- HW; lia).
  remember (E + F - Z.log2 sig - 1) as sd eqn:Esd.
  pose proof (log2_shift sig (W - 2) ltac:(lia) ltac:(lia)) as [B1 B2].
  replace (W - 2 - Z.log2 sig) with sd in B1, B2 by lia. replace (W - 2 + 1) with (W - 1) in B2 by lia.
  rewrite i16_ok by (change (2 ^ 15) with 32768; lia). cbn [bind].
  destruct (Z.leb_spec (E - 1) sd) as [Hsd|Hsd]; [|].
  - assert (Hex : n mod d = 0).
    { destruct Hc as [Hc|]; [exfalso|assumption]. apply Z.log2_le_mono in Hc. rewrite Z.log2_pow2 in Hc by lia. lia. }
    rewrite jam_exact in Hsig by lia. assert (Hnd : n = sig * d) by (pose proof (Z.div_mod n d); lia).
    assert (Hsame : samev n d (exp + 1 - bias E - (W - 2)) sig 1 (exp + 1 - bias E - (W - 2))).
    { exists 0. repeat split; try lia. replace (0 + (exp + 1 - bias E - (W - 2) - (exp + 1 - bias E - (W - 2)))) with 0 by lia. lia. }
    destruct ((exp - sd) mod 2 ^ 32 <? 2 ^ E - 1 - 2) eqn:Hq; cbn [andb].
    + apply Z.ltb_lt in Hq. change (2 ^ 32) with 4294967296 in Hq.
      assert (He0 : 0 <= exp - sd).
      { destruct (Z_lt_ge_dec (exp - sd) 0); [exfalso|lia].
        assert ((exp - sd) mod 4294967296 = exp - sd + 4294967296) by (symmetry; apply (Z.mod_unique _ _ (-1)); lia). lia. }
      rewrite Z.mod_small in Hq by lia.
      pose proof (log2_shift sig F ltac:(lia) ltac:(lia)) as [M1 M2]. replace (F - Z.log2 sig) with (sd - (E - 1)) in M1, M2 by lia.
      assert (HFU : 2 ^ (F + 1) <= 2 ^ U) by (apply pow2_le; lia).
      rewrite ushl_ok by lia. cbn [bind].
      replace (sig =? 0) with false by (symmetry; apply Z.eqb_neq; lia).
      remember (sig * 2 ^ (sd - (E - 1))) as m eqn:Em.
      pose proof (pow2_pos F ltac:(lia)) as PF. rewrite pow2_S in M2 by lia.
      assert (HT : (exp - sd) * 2 ^ F + m <= (2 ^ E - 1) * 2 ^ F) by (clear - Hq M1 M2 PF; nia).
      assert (HTT : 0 <= (exp - sd) * 2 ^ F + m < 2 ^ (E + F)) by (rewrite pow2_add by lia; clear - HT He0 M1 PF; nia).
      eexists. split; [reflexivity|]. rewrite packUI_eq by lia.
      split; [apply (pack_wf E F U); try assumption; lia|].
      assert (M3 : 0 <= m <= 2 ^ (F + 1)) by (rewrite pow2_S by lia; lia).
      rewrite decode754_body by lia. rewrite <- (fin754m_fin md) by (rewrite ?(pow2_S F) by lia; match goal with |- context [?a =? ?b] => destruct (Z.eqb_spec a b) end; lia).
      symmetry. rewrite <- (rnd_div_1 md s m) at 1. apply round754m_char; try lia.
      * apply (samev_trans _ _ _ sig 1 (exp + 1 - bias E - (W - 2))); [lia|assumption|].
        rewrite Em. replace (exp - sd + 1 - bias E - F) with (exp + 1 - bias E - (W - 2) - (sd - (E - 1))) by lia. apply samev_num. lia.
      * unfold qmin. lia.
      * rewrite pow2_S by lia. lia.
    + rewrite ushl_ok by lia. cbn [bind].
      destruct (roundPackM_ok md odd Hodd E F U C W HW ltac:(lia) HF HU HC Hpow s (exp - sd) (sig * 2 ^ sd) (sig * 2 ^ sd) 1 0) as (r & R1 & R2 & R3); try lia.
      { rewrite jam_1 by lia. ring. }
      exists r. split; [exact R1|]. split; [exact R2|]. rewrite R3. symmetry. apply round754m_same; try lia.
      apply (samev_trans _ _ _ sig 1 (exp + 1 - bias E - (W - 2))); [lia|assumption|].
      replace (exp - sd + 1 - bias E - (W - 2) + 0) with (exp + 1 - bias E - (W - 2) - sd) by lia. apply samev_num. lia.
  - cbn [andb]. rewrite ushl_ok by lia. cbn [bind].
    destruct (Z_le_gt_dec sd (E - 3)) as [Hs3|Hs3].
    + destruct (roundPackM_ok md odd Hodd E F U C W HW ltac:(lia) HF HU HC Hpow s (exp - sd) (sig * 2 ^ sd) n d sd) as (r & R1 & R2 & R3); try lia.
      exists r. split; [exact R1|]. split; [exact R2|]. rewrite R3. f_equal. lia.
    + assert (Hex : n mod d = 0).
      { destruct Hc as [Hc|]; [exfalso|assumption]. apply Z.log2_le_mono in Hc. rewrite Z.log2_pow2 in Hc by lia. lia. }
      rewrite jam_exact in Hsig by lia. assert (Hnd : n = sig * d) by (pose proof (Z.div_mod n d); lia).
      destruct (roundPackM_ok md odd Hodd E F U C W HW ltac:(lia) HF HU HC Hpow s (exp - sd) (sig * 2 ^ sd) (sig * 2 ^ sd) 1 0) as (r & R1 & R2 & R3); try lia.
      { rewrite jam_1 by lia. ring. }
      exists r. split; [exact R1|]. split; [exact R2|]. rewrite R3. symmetry. apply round754m_same; try lia.
      apply (samev_trans _ _ _ sig 1 (exp + 1 - bias E - (W - 2))); [lia| |].
      * exists 0. repeat split; try lia. replace (0 + (exp + 1 - bias E - (W - 2) - (exp + 1 - bias E - (W - 2)))) with 0 by lia. lia.
      * replace (exp - sd + 1 - bias E - (W - 2) + 0) with (exp + 1 - bias E - (W - 2) - sd) by lia. apply samev_num. lia.
Qed.
(** The sum of the larger, x, and the smaller, y, brought to its exponent. *)
Lemma addFinal_ok s e f e' g : 0 <= e' < e -> e < 2 ^ E - 1 -> 0 <= f < 2 ^ F -> 0 <= g < 2 ^ F ->
  okr E F W (let sigZ := uw U (2 ^ (W - 3) + f * 2 ^ (E - 2) + jam (mf e' g * 2 ^ (E - 2)) (2 ^ (e - e'))) in
      if sigZ <? 2 ^ (W - 2) then do sigZ <- ushl U sigZ 1; roundPackM (enum_of md) odd E F U C s (e - 1) sigZ
      else roundPackM (enum_of md) odd E F U C s e sigZ)
    (round754m md E F s (mf e f * 2 ^ (e - e') + mf e' g) 1 (e' - bias E - F)).
Proof.
  intros He' He Hf Hg. pose proof (mf_bound F HF e f ltac:(lia) Hf) as [Bx Bx2]. pose proof (mf_bound F HF e' g ltac:(lia) Hg) as [By _].
  specialize (Bx2 ltac:(lia)).
  pose proof (U_W U W HU) as UW. pose proof (pow2_pos F ltac:(lia)) as PF. pose proof (pow2_pos (E - 2) ltac:(lia)) as PG.
  pose proof (pow2_pos (e - e') ltac:(lia)) as Pt. pose proof (pow2_pos (W - 3) ltac:(lia)) as PW.
  assert (HE15 : 2 ^ E <= 2 ^ 15) by (apply pow2_le; lia). change (2 ^ 15) with 32768 in HE15.
  assert (Pt2 : 2 <= 2 ^ (e - e')) by (change 2 with (2 ^ 1) at 1; apply pow2_le; lia).
  assert (W3 : 2 ^ (W - 3) = 2 ^ F * 2 ^ (E - 2)) by (rewrite <- pow2_add by lia; f_equal; lia).
  assert (W2 : 2 ^ (W - 2) = 2 * 2 ^ (W - 3)) by (rewrite <- pow2_S by lia; f_equal; lia).
  assert (W1 : 2 ^ (W - 1) = 2 * 2 ^ (W - 2)) by (rewrite <- pow2_S by lia; f_equal; lia).
  assert (W0 : 2 ^ W = 2 * 2 ^ (W - 1)) by (rewrite <- pow2_S by lia; f_equal; lia).
  assert (HA : 2 ^ (W - 3) + f * 2 ^ (E - 2) = mf e f * 2 ^ (E - 2)).
  { unfold SfProofs4.mf. replace (e =? 0) with false by (symmetry; apply Z.eqb_neq; lia). rewrite W3. ring. }
  rewrite HA.
  assert (BA : 2 ^ (W - 3) <= mf e f * 2 ^ (E - 2) < 2 ^ (W - 2)).
  { rewrite W2, W3. split; [apply Z.mul_le_mono_nonneg_r; lia|]. rewrite Z.mul_assoc. apply Z.mul_lt_mono_pos_r; lia. }
  assert (BB : 0 <= mf e' g * 2 ^ (E - 2) < 2 ^ (W - 2)).
  { rewrite W2, W3. split; [apply Z.mul_nonneg_nonneg; lia|]. rewrite Z.mul_assoc. apply Z.mul_lt_mono_pos_r; lia. }
  assert (EvA : Z.even (mf e f * 2 ^ (E - 2)) = true) by (rewrite Z.even_mul, even_pow2 by lia; apply orb_true_r).
  rewrite <- jam_add by (assumption || lia).
  remember (mf e f * 2 ^ (E - 2)) as A eqn:EA. remember (mf e' g * 2 ^ (E - 2)) as B eqn:EB.
  remember (A * 2 ^ (e - e') + B) as n eqn:En.
  assert (HAd : A * 2 <= A * 2 ^ (e - e')) by (apply Z.mul_le_mono_nonneg_l; lia).
  assert (Hn : 0 < n) by lia.
  assert (J1 : 2 ^ (W - 3) <= jam n (2 ^ (e - e'))) by (apply jam_ge; [lia|lia|]; rewrite En; assert (2 ^ (W - 3) * 2 ^ (e - e') <= A * 2 ^ (e - e')) by (apply Z.mul_le_mono_nonneg_r; lia); lia).
  assert (J2 : jam n (2 ^ (e - e')) < 2 ^ (W - 1)).
  { apply jam_lt; try lia; [apply even_pow2; lia|]. rewrite En, W1. clear - BA BB Pt2. nia. }
  unfold uw. rewrite Z.mod_small by lia. cbv zeta.
  assert (Hval : round754m md E F s (mf e f * 2 ^ (e - e') + mf e' g) 1 (e' - bias E - F) =
    round754m md E F s n (2 ^ (e - e')) (e + 1 - bias E - (W - 2))).
  { apply round754m_same; try lia. { unfold SfProofs4.mf in *. clear - Bx2 PF Pt By. nia. }
    apply (samev_trans _ _ _ n 1 (e' - bias E - F - (E - 2))); [lia| |].
    - rewrite En, EA, EB. replace (mf e f * 2 ^ (E - 2) * 2 ^ (e - e') + mf e' g * 2 ^ (E - 2)) with ((mf e f * 2 ^ (e - e') + mf e' g) * 2 ^ (E - 2)) by ring.
      apply samev_num. lia.
    - replace (2 ^ (e - e')) with (1 * 2 ^ (e - e')) by ring.
      replace (e + 1 - bias E - (W - 2)) with (e' - bias E - F - (E - 2) + (e - e')) by lia. apply samev_den. lia. }
  rewrite Hval. destruct (Z.ltb_spec (jam n (2 ^ (e - e'))) (2 ^ (W - 2))) as [L|L].
  - rewrite ushl_ok by lia. cbn [bind].
    destruct (roundPackM_ok md odd Hodd E F U C W HW ltac:(lia) HF HU HC Hpow s (e - 1) (jam n (2 ^ (e - e')) * 2 ^ 1) n (2 ^ (e - e')) 1) as (r & R1 & R2 & R3); try lia.
    exists r. split; [exact R1|]. split; [exact R2|]. rewrite R3. f_equal. lia.
  - destruct (roundPackM_ok md odd Hodd E F U C W HW ltac:(lia) HF HU HC Hpow s e (jam n (2 ^ (e - e'))) n (2 ^ (e - e')) 0) as (r & R1 & R2 & R3); try lia.
    exists r. split; [exact R1|]. split; [exact R2|]. rewrite R3. f_equal. lia.
Qed.

(** Spec side: the sum of two numbers of equal sign, the first with the larger exponent field. *)
Lemma add754m_same_fields s e f e' g : 0 <= e' <= e -> e < 2 ^ E - 1 -> 0 <= f < 2 ^ F -> 0 <= g < 2 ^ F ->
  add754m md E F (decode754 E F (word E F s e f)) (decode754 E F (word E F s e' g)) =
  if mf e f * 2 ^ (e - e') + mf e' g =? 0 then Zero s else round754m md E F s (mf e f * 2 ^ (e - e') + mf e' g) 1 (e' - bias E - F).
Proof.
  intros He' He Hf Hg. rewrite !decode_fin by lia. pose proof (pow2_pos F ltac:(lia)).
  rewrite (add754m_same md E F s _ _ _ _ (e' - bias E - F)).
  - rewrite !mf_val by lia. replace (e - bias E - F - (e' - bias E - F)) with (e - e') by lia.
    replace (e' - bias E - F - (e' - bias E - F)) with 0 by lia. rewrite Z.pow_0_r, Z.mul_1_r. reflexivity.
  - lia.
  - destruct (e =? 0); lia.
  - destruct (e' =? 0); lia.
  - destruct (Z.eqb_spec e 0); lia.
  - destruct (Z.eqb_spec e' 0); lia.
Qed.

Lemma add754m_diff_fields s e f e' g : 0 <= e' <= e -> e < 2 ^ E - 1 -> 0 <= f < 2 ^ F -> 0 <= g < 2 ^ F ->
  add754m md E F (decode754 E F (word E F s e f)) (decode754 E F (word E F (negb s) e' g)) =
  let v := mf e f * 2 ^ (e - e') - mf e' g in
  if v =? 0 then zero_sum md else round754m md E F (if v <? 0 then negb s else s) (Z.abs v) 1 (e' - bias E - F).
Proof.
  intros He' He Hf Hg. rewrite !decode_fin by lia. pose proof (pow2_pos F ltac:(lia)).
  rewrite (add754m_diff md E F s _ _ _ _ (e' - bias E - F)).
  - rewrite !mf_val by lia. replace (e - bias E - F - (e' - bias E - F)) with (e - e') by lia.
    replace (e' - bias E - F - (e' - bias E - F)) with 0 by lia. rewrite Z.pow_0_r, Z.mul_1_r. reflexivity.
  - lia.
  - destruct (e =? 0); lia.
  - destruct (e' =? 0); lia.
  - destruct (Z.eqb_spec e 0); lia.
  - destruct (Z.eqb_spec e' 0); lia.
Qed.

Lemma add_inf_l s t e g : 0 <= e < 2 ^ E - 1 -> 0 <= g < 2 ^ F ->
  add754m md E F (Inf s) (decode754 E F (word E F t e g)) = Inf s.
Proof. intros He Hg. rewrite decode_fin by lia. unfold fin_val. destruct (_ =? 0); reflexivity. Qed.
Lemma add_inf_r s t e g : 0 <= e < 2 ^ E - 1 -> 0 <= g < 2 ^ F ->
  add754m md E F (decode754 E F (word E F t e g)) (Inf s) = Inf s.
Proof. intros He Hg. rewrite decode_fin by lia. unfold fin_val. destruct (_ =? 0); reflexivity. Qed.

Lemma nan_l e f v : 0 <= f < 2 ^ F -> f <> 0 -> e = 2 ^ E - 1 -> forall s, add754m md E F (decode754 E F (word E F s e f)) v = NaN.
Proof. intros Hf Hn -> s. rewrite decode_special by lia. replace (f =? 0) with false by (symmetry; apply Z.eqb_neq; lia). reflexivity. Qed.
Lemma nan_r e f v : 0 <= f < 2 ^ F -> f <> 0 -> e = 2 ^ E - 1 -> forall s, add754m md E F v (decode754 E F (word E F s e f)) = NaN.
Proof. intros Hf Hn -> s. rewrite decode_special by lia. replace (f =? 0) with false by (symmetry; apply Z.eqb_neq; lia). destruct v; reflexivity. Qed.

Lemma addMagsM_ok quick s e f e' g : 0 <= e < 2 ^ E -> 0 <= f < 2 ^ F -> 0 <= e' < 2 ^ E -> 0 <= g < 2 ^ F ->
  okr E F W (addMagsM (enum_of md) odd E F U C quick (word E F s e f) (word E F s e' g))
    (add754m md E F (decode754 E F (word E F s e f)) (decode754 E F (word E F s e' g))).
Proof.
  intros He Hf He' Hg. unfold addMagsM. cbv zeta.
  rewrite !expUI_word, !fracUI_word, !signUI_word by lia.
  pose proof (pow2_pos F ltac:(lia)) as PF. pose proof (U_W U W HU) as UW. destruct (sf_EB E ltac:(lia)) as [EB B3].
  assert (HE15 : 2 ^ E <= 2 ^ 15) by (apply pow2_le; lia). change (2 ^ 15) with 32768 in HE15.
  assert (WF : 2 ^ (E + F) <= 2 ^ (W - 1)) by (apply pow2_le; lia).
  assert (W0 : 2 ^ W = 2 * 2 ^ (W - 1)) by (rewrite <- pow2_S by lia; f_equal; lia).
  assert (Wa : 0 <= word E F s e f < 2 ^ W) by (rewrite HW; apply word_wf; lia).
  assert (Wb : 0 <= word E F s e' g < 2 ^ W) by (rewrite HW; apply word_wf; lia).
  assert (FE : 2 ^ (E + F) = 2 ^ E * 2 ^ F) by (apply pow2_add; lia).
  assert (G1 : E - 1 - 1 = E - 2) by lia. rewrite G1. rewrite <- HW.
  assert (SH : forall x, 0 <= x < 2 ^ F -> ushl U x (E - 2) = Some (x * 2 ^ (E - 2))).
  { intros x Hx. assert (x * 2 ^ (E - 2) < 2 ^ W).
    { replace (2 ^ W) with (2 ^ (F + 3) * 2 ^ (E - 2)) by (rewrite <- pow2_add by lia; f_equal; lia).
      assert (2 ^ F < 2 ^ (F + 3)) by (apply pow2_lt; lia). apply Z.mul_lt_mono_pos_r; [apply pow2_pos; lia|lia]. }
    apply ushl_ok; [lia|]. split; [apply Z.mul_nonneg_nonneg; [lia|apply Z.lt_le_incl, pow2_pos; lia]|lia]. }
  destruct (Z.eqb_spec (e - e') 0) as [D0|D0].
  - assert (e' = e) by lia. subst e'. clear D0 He'.
    destruct (Z.eqb_spec e 0) as [E0|E0].
    + (* both subnormal *)
      subst e. rewrite add754m_same_fields by lia. unfold SfProofs4.mf, uw. cbn [Z.eqb Z.sub Z.add Z.opp]. rewrite Z.pow_0_r, Z.mul_1_r.
      assert (HS : word E F s 0 f + g = Z.b2z s * 2 ^ (E + F) + (0 * 2 ^ F + (f + g))) by (unfold word; ring).
      rewrite HS. assert (Bfg : 0 <= 0 * 2 ^ F + (f + g) < 2 ^ (E + F)) by (rewrite FE; nia).
      pose proof (pack_wf E F U W HW ltac:(lia) HF HU Hpow s _ Bfg) as HB.
      rewrite (Z.mod_small _ (2 ^ U)) by lia. rewrite Z.mod_small by lia. eexists. split; [reflexivity|]. split; [exact HB|].
      assert (M3 : 0 <= f + g <= 2 ^ (F + 1)) by (rewrite pow2_S by lia; lia).
      assert (M4 : 0 * 2 ^ F + (f + g) <= (2 ^ E - 1) * 2 ^ F) by (clear - EB B3 Hf Hg; nia).
      rewrite decode754_body by lia. rewrite <- (fin754m_fin md) by (rewrite ?(pow2_S F) by lia; match goal with |- context [?a =? ?b] => destruct (Z.eqb_spec a b) end; lia).
      replace (2 * f + 2 * g =? 0) with (f + g =? 0) by (destruct (Z.eqb_spec (f + g) 0), (Z.eqb_spec (2 * f + 2 * g) 0); lia).
      destruct (Z.eqb_spec (f + g) 0) as [Z0|Z0]; [unfold fin754; rewrite Z0; reflexivity|].
      symmetry. rewrite <- (rnd_div_1 md s (f + g)). apply round754m_char; try lia.
      * replace (2 * f + 2 * g) with ((f + g) * 2 ^ 1) by lia. exists 1. repeat split; try lia.
        match goal with |- context [2 ^ (1 + ?x)] => replace (1 + x) with 0 by lia end. rewrite Z.pow_0_r. change (2 ^ 1) with 2. ring.
      * unfold qmin. lia.
      * rewrite pow2_S by lia. lia.
      * right. unfold qmin. lia.
    + destruct (Z.eqb_spec e (2 ^ E - 1)) as [EX|EX].
      * subst e. rewrite lor_zero by lia. destruct (Z.eqb_spec f 0) as [F0|F0], (Z.eqb_spec g 0) as [G0|G0]; cbn [andb negb].
        -- subst f g. apply okr_word; try assumption; try lia. rewrite !decode_special by lia. cbn. now destruct s.
        -- rewrite nan_r by lia. apply okr_nan; try assumption. right. apply decode_nan_word; lia.
        -- rewrite nan_l by lia. apply okr_nan; try assumption. left. apply decode_nan_word; lia.
        -- rewrite nan_l by lia. apply okr_nan; try assumption. left. apply decode_nan_word; lia.
      * rewrite add754m_same_fields by lia. replace (e - e) with 0 by lia. rewrite Z.pow_0_r, Z.mul_1_r.
        unfold SfProofs4.mf. replace (e =? 0) with false by (symmetry; apply Z.eqb_neq; lia).
        replace (2 ^ F + f + (2 ^ F + g)) with (2 ^ (F + 1) + f + g) by (rewrite pow2_S by lia; ring).
        assert (BZ : 2 ^ (F + 1) <= 2 ^ (F + 1) + f + g < 2 ^ (F + 2)).
        { replace (F + 2) with (F + 1 + 1) by lia. rewrite !pow2_S by lia. lia. }
        assert (PF2 : 2 ^ (F + 2) <= 2 ^ W) by (apply pow2_le; lia).
        unfold uw. rewrite Z.mod_small by lia. remember (2 ^ (F + 1) + f + g) as z eqn:Ez.
        assert (PF1 : 2 ^ (F + 1) = 2 * 2 ^ F) by (apply pow2_S; lia).
        assert (PF3 : 2 ^ (F + 2) = 4 * 2 ^ F) by (replace (F + 2) with (F + 1 + 1) by lia; rewrite !pow2_S by lia; ring).
        replace (z =? 0) with false by (symmetry; apply Z.eqb_neq; lia).
        destruct (quick && (Z.land z 1 =? 0) && (e <? 2 ^ E - 1 - 1)) eqn:Q.
        -- apply andb_prop in Q. destruct Q as [Q Q3]. apply andb_prop in Q. destruct Q as [_ Q2]. apply Z.ltb_lt in Q3. apply Z.eqb_eq in Q2.
           change 1 with (2 ^ 1 - 1) in Q2 at 1. rewrite land_low in Q2 by lia. change (2 ^ 1) with 2 in Q2.
           rewrite Z.shiftr_div_pow2 by lia. change (2 ^ 1) with 2.
           pose proof (Z.div_mod z 2 ltac:(lia)) as DM. rewrite Q2, Z.add_0_r in DM. remember (z / 2) as m eqn:Em.
           assert (HT : e * 2 ^ F + m <= (2 ^ E - 1) * 2 ^ F) by (clear - DM BZ PF3 Q3 PF; nia).
           assert (HT2 : 0 <= e * 2 ^ F + m < 2 ^ (E + F)) by (rewrite FE; clear - HT DM BZ PF1 He PF; nia).
           rewrite packUI_eq by lia. eexists. split; [reflexivity|]. split; [apply (pack_wf E F U); try assumption; lia|].
           rewrite decode754_body by lia. rewrite <- (fin754m_fin md) by (rewrite ?(pow2_S F) by lia; match goal with |- context [?a =? ?b] => destruct (Z.eqb_spec a b) end; lia). symmetry.
           rewrite <- (rnd_div_1 md s m) at 1. apply round754m_char; try lia.
           ++ exists 1. repeat split; try lia. replace (1 + (e - bias E - F - (e + 1 - bias E - F))) with 0 by lia. lia.
           ++ unfold qmin. lia.
        -- assert (ZG : 2 ^ (W - 2) <= z * 2 ^ (E - 2) < 2 ^ (W - 1)).
           { replace (2 ^ (W - 2)) with (2 ^ (F + 1) * 2 ^ (E - 2)) by (rewrite <- pow2_add by lia; f_equal; lia).
             replace (2 ^ (W - 1)) with (2 ^ (F + 2) * 2 ^ (E - 2)) by (rewrite <- pow2_add by lia; f_equal; lia).
             pose proof (pow2_pos (E - 2) ltac:(lia)). split; [apply Z.mul_le_mono_nonneg_r|apply Z.mul_lt_mono_pos_r]; lia. }
           pose proof (pow2_pos (W - 2) ltac:(lia)).
           rewrite ushl_ok by lia. cbn [bind].
           destruct (roundPackM_ok md odd Hodd E F U C W HW ltac:(lia) HF HU HC Hpow s e (z * 2 ^ (E - 2)) (z * 2 ^ (E - 2)) 1 0) as (r & R1 & R2 & R3); try lia.
           { rewrite jam_1 by lia. ring. }
           exists r. split; [exact R1|]. split; [exact R2|]. rewrite R3. symmetry. apply round754m_same; try lia.
           replace (e + 1 - bias E - (W - 2) + 0) with (e - bias E - F - (E - 2)) by lia. apply samev_num. lia.
  - rewrite !SH by lia. cbn [bind]. rewrite !shl_zero by lia.
    assert (MF : forall e f, 0 <= e -> 0 <= f < 2 ^ F ->
      uw U (f * 2 ^ (E - 2) + (if negb (e =? 0) then 2 ^ (W - 3) else f * 2 ^ (E - 2))) = mf e f * 2 ^ (E - 2) /\
      0 <= mf e f * 2 ^ (E - 2) < 2 ^ W).
    { intros x y Hx Hy. pose proof (mf_bound F HF x y Hx Hy) as [B _].
      assert (B2 : 0 <= mf x y * 2 ^ (E - 2) < 2 ^ W).
      { pose proof (pow2_pos (E - 2) ltac:(lia)). split; [apply Z.mul_nonneg_nonneg; lia|].
        replace (2 ^ W) with (2 ^ (F + 3) * 2 ^ (E - 2)) by (rewrite <- pow2_add by lia; f_equal; lia).
        assert (2 ^ (F + 1) < 2 ^ (F + 3)) by (apply pow2_lt; lia). rewrite pow2_S in H0 by lia. apply Z.mul_lt_mono_pos_r; lia. }
      split; [|exact B2].
      assert (HH : y * 2 ^ (E - 2) + (if negb (x =? 0) then 2 ^ (W - 3) else y * 2 ^ (E - 2)) = mf x y * 2 ^ (E - 2)).
      { unfold SfProofs4.mf. destruct (x =? 0); cbn [negb]; [ring|].
        replace (2 ^ (W - 3)) with (2 ^ F * 2 ^ (E - 2)) by (rewrite <- pow2_add by lia; f_equal; lia). ring. }
      rewrite HH. unfold uw. apply Z.mod_small. lia. }
    assert (PO : forall x y u v, 0 <= u < x -> 0 <= y < 2 ^ F -> 0 <= v < 2 ^ F -> (mf x y * 2 ^ (x - u) + mf u v =? 0) = false).
    { intros x y u v Hx Hy Hv. pose proof (mf_bound F HF x y ltac:(lia) Hy) as [_ B]. specialize (B ltac:(lia)).
      pose proof (mf_bound F HF u v ltac:(lia) Hv) as [B' _]. pose proof (pow2_pos (x - u) ltac:(lia)). apply Z.eqb_neq. clear - B B' H PF. nia. }
    destruct (Z.ltb_spec (e - e') 0) as [L|L].
    + destruct (Z.eqb_spec e' (2 ^ E - 1)) as [EX|EX].
      * subst e'. destruct (Z.eqb_spec g 0) as [G0|G0]; cbn [negb].
        -- subst g. rewrite (decode_special E F HE HF s 0) by lia. cbn [Z.eqb]. rewrite add_inf_r by lia. apply okr_inf; assumption.
        -- rewrite nan_r by lia. apply okr_nan; try assumption. right. apply decode_nan_word; lia.
      * destruct (MF e f ltac:(lia) Hf) as [M1 M2]. rewrite M1.
        rewrite (shiftRightJam_eq E F W) by (assumption || lia).
        rewrite add754m_comm. rewrite add754m_same_fields by lia. rewrite PO by lia.
        pose proof (addFinal_ok s e' g e f ltac:(lia) ltac:(lia) Hg Hf) as H. cbv zeta in H.
        replace (- (e - e')) with (e' - e) by lia.
        replace (2 ^ (W - 3) + jam (mf e f * 2 ^ (E - 2)) (2 ^ (e' - e)) + g * 2 ^ (E - 2))
          with (2 ^ (W - 3) + g * 2 ^ (E - 2) + jam (mf e f * 2 ^ (E - 2)) (2 ^ (e' - e))) by ring.
        exact H.
    + destruct (Z.eqb_spec e (2 ^ E - 1)) as [EX|EX].
      * subst e. destruct (Z.eqb_spec f 0) as [G0|G0]; cbn [negb].
        -- subst f. apply okr_word; try assumption; try lia. rewrite (decode_special E F HE HF s 0) by lia. cbn [Z.eqb]. rewrite add_inf_l by lia. reflexivity.
        -- rewrite nan_l by lia. apply okr_nan; try assumption. left. apply decode_nan_word; lia.
      * destruct (MF e' g ltac:(lia) Hg) as [M1 M2]. rewrite M1.
        rewrite (shiftRightJam_eq E F W) by (assumption || lia).
        rewrite add754m_same_fields by lia. rewrite PO by lia.
        exact (addFinal_ok s e f e' g ltac:(lia) ltac:(lia) Hf Hg).
Qed.
(** The larger, x, minus the smaller, y, brought to its exponent. *)
Lemma subFinal_ok s e f e' g : 0 <= e' < e -> e < 2 ^ E - 1 -> 0 <= f < 2 ^ F -> 0 <= g < 2 ^ F ->
  okr E F W (normRoundPackM (enum_of md) odd E F U C s (e - 1) (uw U (mf e f * 2 ^ (E - 1) - jam (mf e' g * 2 ^ (E - 1)) (2 ^ (e - e')))))
    (round754m md E F s (mf e f * 2 ^ (e - e') - mf e' g) 1 (e' - bias E - F)) /\ 0 < mf e f * 2 ^ (e - e') - mf e' g.
Proof.
  intros He' He Hf Hg. pose proof (mf_bound F HF e f ltac:(lia) Hf) as [Bx Bx2]. pose proof (mf_bound F HF e' g ltac:(lia) Hg) as [By _].
  specialize (Bx2 ltac:(lia)).
  pose proof (U_W U W HU) as UW. pose proof (pow2_pos F ltac:(lia)) as PF. pose proof (pow2_pos (E - 1) ltac:(lia)) as PG.
  pose proof (pow2_pos (e - e') ltac:(lia)) as Pt. pose proof (pow2_pos (W - 3) ltac:(lia)) as PW.
  assert (Pt2 : 2 <= 2 ^ (e - e')) by (change 2 with (2 ^ 1) at 1; apply pow2_le; lia).
  assert (W2 : 2 ^ (W - 2) = 2 * 2 ^ (W - 3)) by (rewrite <- pow2_S by lia; f_equal; lia).
  assert (W2' : 2 ^ (W - 2) = 2 ^ F * 2 ^ (E - 1)) by (rewrite <- pow2_add by lia; f_equal; lia).
  assert (W1 : 2 ^ (W - 1) = 2 * 2 ^ (W - 2)) by (rewrite <- pow2_S by lia; f_equal; lia).
  assert (W0 : 2 ^ W = 2 * 2 ^ (W - 1)) by (rewrite <- pow2_S by lia; f_equal; lia).
  assert (BA : 2 ^ (W - 2) <= mf e f * 2 ^ (E - 1) < 2 ^ (W - 1)).
  { rewrite W1, W2'. split; [apply Z.mul_le_mono_nonneg_r; lia|]. rewrite Z.mul_assoc. apply Z.mul_lt_mono_pos_r; lia. }
  assert (BB : 0 <= mf e' g * 2 ^ (E - 1) < 2 ^ (W - 1)).
  { rewrite W1, W2'. split; [apply Z.mul_nonneg_nonneg; lia|]. rewrite Z.mul_assoc. apply Z.mul_lt_mono_pos_r; lia. }
  assert (EvA : Z.even (mf e f * 2 ^ (E - 1)) = true) by (rewrite Z.even_mul, even_pow2 by lia; apply orb_true_r).
  assert (EvB : Z.even (mf e' g * 2 ^ (E - 1)) = true) by (rewrite Z.even_mul, even_pow2 by lia; apply orb_true_r).
  assert (Hpos : 0 < mf e f * 2 ^ (e - e') - mf e' g).
  { clear - Bx2 By Pt2 PF. nia. }
  split; [|exact Hpos].
  assert (Hval : samev (mf e f * 2 ^ (e - e') - mf e' g) 1 (e' - bias E - F)
    (mf e f * 2 ^ (E - 1) * 2 ^ (e - e') - mf e' g * 2 ^ (E - 1)) (2 ^ (e - e')) (e - 1 + 1 - bias E - (W - 2))).
  { apply (samev_trans _ _ _ (mf e f * 2 ^ (E - 1) * 2 ^ (e - e') - mf e' g * 2 ^ (E - 1)) 1 (e' - bias E - F - (E - 1))); [lia| |].
    - replace (mf e f * 2 ^ (E - 1) * 2 ^ (e - e') - mf e' g * 2 ^ (E - 1)) with ((mf e f * 2 ^ (e - e') - mf e' g) * 2 ^ (E - 1)) by ring.
      apply samev_num. lia.
    - pose proof (samev_den (mf e f * 2 ^ (E - 1) * 2 ^ (e - e') - mf e' g * 2 ^ (E - 1)) 1 (e' - bias E - F - (E - 1)) (e - e') ltac:(lia)) as S.
      rewrite Z.mul_1_l in S. replace (e - 1 + 1 - bias E - (W - 2)) with (e' - bias E - F - (E - 1) + (e - e')) by lia. exact S. }
  remember (mf e f * 2 ^ (E - 1)) as A eqn:EA. remember (mf e' g * 2 ^ (E - 1)) as B eqn:EB.
  assert (HAd : A * 2 <= A * 2 ^ (e - e')) by (apply Z.mul_le_mono_nonneg_l; lia).
  rewrite <- jam_sub by (assumption || lia).
  remember (A * 2 ^ (e - e') - B) as n eqn:En.
  assert (Hn : 0 < n) by lia.
  pose proof (jam_pos n (2 ^ (e - e')) Hn Pt) as Jp.
  assert (J2 : jam n (2 ^ (e - e')) < 2 ^ (W - 1)).
  { apply jam_lt; [lia|lia|apply even_pow2; lia|]. rewrite En. clear - BA BB Pt. nia. }
  unfold uw. rewrite Z.mod_small by lia.
  rewrite (round754m_same md E F s _ _ _ n (2 ^ (e - e')) (e - 1 + 1 - bias E - (W - 2))) by (assumption || lia).
  apply normRoundPackM_ok; try assumption; try lia; try reflexivity.
  destruct (Z.eq_dec (e - e') 1) as [T1|T1].
  - right. rewrite T1. change (2 ^ 1) with 2. rewrite En, T1. change (2 ^ 1) with 2.
    apply Z.even_spec in EvB. destruct EvB as [b Hb]. replace (A * 2 - B) with ((A - b) * 2) by lia. apply Z.mod_mul. lia.
  - left. assert (Pt4 : 4 <= 2 ^ (e - e')) by (change 4 with (2 ^ 2); apply pow2_le; lia).
    apply jam_ge; [lia|lia|]. rewrite En.
    assert (2 * (2 ^ (W - 3) * 2 ^ (e - e')) <= A * 2 ^ (e - e')).
    { rewrite Z.mul_assoc. apply Z.mul_le_mono_nonneg_r; lia. }
    assert (2 ^ (W - 3) * 4 <= 2 ^ (W - 3) * 2 ^ (e - e')) by (apply Z.mul_le_mono_nonneg_l; lia). lia.
Qed.

Lemma subMagsM_ok s e f e' g : 0 <= e < 2 ^ E -> 0 <= f < 2 ^ F -> 0 <= e' < 2 ^ E -> 0 <= g < 2 ^ F ->
  okr E F W (subMagsM (enum_of md) odd E F U C (word E F s e f) (word E F (negb s) e' g))
    (add754m md E F (decode754 E F (word E F s e f)) (decode754 E F (word E F (negb s) e' g))).
Proof.
  intros He Hf He' Hg. unfold subMagsM. cbv zeta.
  rewrite !expUI_word, !fracUI_word, !signUI_word by lia.
  pose proof (pow2_pos F ltac:(lia)) as PF. pose proof (U_W U W HU) as UW. destruct (sf_EB E ltac:(lia)) as [EB B3].
  assert (HE15 : 2 ^ E <= 2 ^ 15) by (apply pow2_le; lia). change (2 ^ 15) with 32768 in HE15.
  assert (W0 : 2 ^ W = 2 * 2 ^ (W - 1)) by (rewrite <- pow2_S by lia; f_equal; lia).
  assert (W2' : 2 ^ (W - 2) = 2 ^ F * 2 ^ (E - 1)) by (rewrite <- pow2_add by lia; f_equal; lia).
  assert (W1 : 2 ^ (W - 1) = 2 * 2 ^ (W - 2)) by (rewrite <- pow2_S by lia; f_equal; lia).
  assert (Wa : 0 <= word E F s e f < 2 ^ W) by (rewrite HW; apply word_wf; lia).
  assert (Wb : 0 <= word E F (negb s) e' g < 2 ^ W) by (rewrite HW; apply word_wf; lia).
  assert (FE : 2 ^ (E + F) = 2 ^ E * 2 ^ F) by (apply pow2_add; lia).
  rewrite <- HW. pose proof (pow2_pos (E - 1) ltac:(lia)) as PG.
  assert (SH : forall x, 0 <= x < 2 ^ F -> ushl U x (E - 1) = Some (x * 2 ^ (E - 1))).
  { intros x Hx. assert (x * 2 ^ (E - 1) < 2 ^ F * 2 ^ (E - 1)) by (apply Z.mul_lt_mono_pos_r; lia).
    apply ushl_ok; [lia|]. split; [apply Z.mul_nonneg_nonneg; lia|lia]. }
  destruct (Z.eqb_spec (e - e') 0) as [D0|D0].
  - assert (e' = e) by lia. subst e'. clear D0 He'.
    destruct (Z.eqb_spec e (2 ^ E - 1)) as [EX|EX].
    + subst e. rewrite lor_zero by lia. destruct (Z.eqb_spec f 0) as [F0|F0], (Z.eqb_spec g 0) as [G0|G0]; cbn [andb negb].
      * subst f g. rewrite !decode_special by lia. cbn [Z.eqb]. replace (add754m md E F (Inf s) (Inf (negb s))) with NaN by (destruct s; reflexivity).
        apply okr_default; assumption.
      * rewrite nan_r by lia. apply okr_nan; try assumption. right. apply decode_nan_word; lia.
      * rewrite nan_l by lia. apply okr_nan; try assumption. left. apply decode_nan_word; lia.
      * rewrite nan_l by lia. apply okr_nan; try assumption. left. apply decode_nan_word; lia.
    + assert (HV : add754m md E F (decode754 E F (word E F s e f)) (decode754 E F (word E F (negb s) e g)) =
        if f - g =? 0 then zero_sum md
        else round754m md E F (if f - g <? 0 then negb s else s) (Z.abs (f - g)) 1 ((if e =? 0 then 1 else e) - bias E - F)).
      { rewrite !decode_fin by lia. rewrite (add754m_diff md E F s _ _ _ _ ((if e =? 0 then 1 else e) - bias E - F)) by (destruct (e =? 0); lia).
        cbv zeta. rewrite Z.sub_diag, Z.pow_0_r, !Z.mul_1_r.
        replace ((if e =? 0 then f else 2 ^ F + f) - (if e =? 0 then g else 2 ^ F + g)) with (f - g) by (destruct (e =? 0); lia). reflexivity. }
      rewrite HV. destruct (Z.eqb_spec (f - g) 0) as [Z0|Z0]; [replace (zero_sum md) with (Zero (enum_of md =? softfloat_round_min)) by (destruct md; reflexivity); apply okr_zero; assumption|].
      replace (if negb (e =? 0) then e - 1 else e) with ((if e =? 0 then 1 else e) - 1) by (destruct (Z.eqb_spec e 0); cbn [negb]; lia).
      remember (if e =? 0 then 1 else e) as ex eqn:Eex.
      assert (Hex : 1 <= ex < 2 ^ E - 1) by (subst ex; destruct (Z.eqb_spec e 0); lia).
      remember (if f - g <? 0 then negb s else s) as sz eqn:Esz.
      replace (if f - g <? 0 then - (f - g) else f - g) with (Z.abs (f - g)) by (destruct (Z.ltb_spec (f - g) 0); lia).
      remember (Z.abs (f - g)) as w eqn:Ew. assert (Bw : 0 < w < 2 ^ F) by lia.
      assert (FW : 2 ^ (F + 1) <= 2 ^ W) by (apply pow2_le; lia).
      rewrite pow2_S in FW by lia.
      rewrite clzW_eq by (try lia; rewrite <- HW; lia).
      pose proof (Z.log2_nonneg w) as Ln. assert (Lu : Z.log2 w < F) by (apply Z.log2_lt_pow2; lia).
      pose proof (log2_shift w F ltac:(lia) ltac:(lia)) as [M1 M2].
      replace (E + F - Z.log2 w - E) with (F - Z.log2 w) by lia.
      remember (F - Z.log2 w) as sd eqn:Esd.
      (* the common final argument *)
      assert (FIN : forall k, 0 <= k <= F -> k <= ex - 1 -> w * 2 ^ k < 2 ^ (F + 1) -> (ex - 1 - k = 0 \/ 2 ^ F <= w * 2 ^ k) ->
        okr E F W (do s0 <- ushl U w k; Some (packUI E F sz (ex - 1 - k) s0)) (round754m md E F sz w 1 (ex - bias E - F))).
      { intros k Hk Hkx Hkl Hkc. pose proof (pow2_pos k ltac:(lia)) as Pk. rewrite pow2_S in Hkl by lia.
        assert (0 < w * 2 ^ k) by (apply Z.mul_pos_pos; lia).
        rewrite ushl_ok by lia. cbn [bind].
        assert (HT : (ex - 1 - k) * 2 ^ F + w * 2 ^ k <= (2 ^ E - 1) * 2 ^ F).
        { assert ((ex - 1 - k) * 2 ^ F <= (2 ^ E - 3) * 2 ^ F) by (apply Z.mul_le_mono_nonneg_r; lia). lia. }
        assert (HT2 : 0 <= (ex - 1 - k) * 2 ^ F + w * 2 ^ k < 2 ^ (E + F)).
        { rewrite FE. split; [|lia]. assert (0 <= (ex - 1 - k) * 2 ^ F) by (apply Z.mul_nonneg_nonneg; lia). lia. }
        rewrite packUI_eq by lia. eexists. split; [reflexivity|]. split; [apply (pack_wf E F U); try assumption; lia|].
        assert (M3 : 0 <= w * 2 ^ k <= 2 ^ (F + 1)) by (rewrite pow2_S by lia; lia).
        rewrite decode754_body by lia. rewrite <- (fin754m_fin md) by (rewrite ?(pow2_S F) by lia; match goal with |- context [?a =? ?b] => destruct (Z.eqb_spec a b) end; lia). symmetry. rewrite <- (rnd_div_1 md sz (w * 2 ^ k)) at 1. apply round754m_char; try lia.
        - replace (ex - 1 - k + 1 - bias E - F) with (ex - bias E - F - k) by lia. apply samev_num. lia.
        - unfold qmin. lia.
        - rewrite pow2_S by lia. lia.
        - unfold qmin. destruct Hkc; [right|left]; lia. }
      destruct (Z.ltb_spec (ex - 1 - sd) 0) as [Lz|Lz].
      * assert (HL : w * 2 ^ (ex - 1) < 2 ^ (F + 1)).
        { apply Z.le_lt_trans with (2 := M2). apply Z.mul_le_mono_nonneg_l; [lia|]. apply pow2_le. lia. }
        pose proof (FIN (ex - 1) ltac:(lia) ltac:(lia) HL ltac:(left; lia)) as H.
        replace (ex - 1 - (ex - 1)) with 0 in H by lia. exact H.
      * apply FIN; try lia.
  - rewrite !SH by lia. cbn [bind]. rewrite !shl_zero by lia.
    assert (MF : forall e f, 0 <= e -> 0 <= f < 2 ^ F ->
      uw U (f * 2 ^ (E - 1) + (if negb (e =? 0) then 2 ^ (W - 2) else f * 2 ^ (E - 1))) = mf e f * 2 ^ (E - 1) /\
      0 <= mf e f * 2 ^ (E - 1) < 2 ^ W).
    { intros x y Hx Hy. pose proof (mf_bound F HF x y Hx Hy) as [B _].
      assert (B2 : 0 <= mf x y * 2 ^ (E - 1) < 2 ^ W).
      { split; [apply Z.mul_nonneg_nonneg; lia|].
        assert (mf x y * 2 ^ (E - 1) < 2 * 2 ^ F * 2 ^ (E - 1)) by (apply Z.mul_lt_mono_pos_r; lia). lia. }
      split; [|exact B2].
      assert (HH : y * 2 ^ (E - 1) + (if negb (x =? 0) then 2 ^ (W - 2) else y * 2 ^ (E - 1)) = mf x y * 2 ^ (E - 1)).
      { unfold SfProofs4.mf. rewrite W2'. destruct (x =? 0); cbn [negb]; ring. }
      rewrite HH. unfold uw. apply Z.mod_small. lia. }
    assert (LO : forall x y, x <> 0 -> 0 <= y < 2 ^ F -> Z.lor (y * 2 ^ (E - 1)) (2 ^ (W - 2)) = mf x y * 2 ^ (E - 1)).
    { intros x y Hx Hy. unfold SfProofs4.mf. replace (x =? 0) with false by (symmetry; apply Z.eqb_neq; lia).
      rewrite Z.lor_comm. rewrite <- (Z.mul_1_l (2 ^ (W - 2))). rewrite lor_join; [rewrite W2'; ring|lia|].
      split; [apply Z.mul_nonneg_nonneg; lia|]. rewrite W2'. apply Z.mul_lt_mono_pos_r; lia. }
    destruct (Z.ltb_spec (e - e') 0) as [L|L].
    + destruct (Z.eqb_spec e' (2 ^ E - 1)) as [EX|EX].
      * subst e'. destruct (Z.eqb_spec g 0) as [G0|G0]; cbn [negb].
        -- subst g. rewrite (decode_special E F HE HF (negb s) 0) by lia. cbn [Z.eqb]. rewrite add_inf_r by lia. apply okr_inf; assumption.
        -- rewrite nan_r by lia. apply okr_nan; try assumption. right. apply decode_nan_word; lia.
      * destruct (MF e f ltac:(lia) Hf) as [M1 M2]. rewrite M1, (LO e' g) by lia.
        rewrite (shiftRightJam_eq E F W) by (assumption || lia).
        rewrite add754m_comm.
        replace (word E F s e f) with (word E F (negb (negb s)) e f) by (now rewrite negb_involutive).
        rewrite add754m_diff_fields by lia. cbv zeta.
        replace (- (e - e')) with (e' - e) by lia.
        destruct (subFinal_ok (negb s) e' g e f ltac:(lia) ltac:(lia) Hg Hf) as [H Hp].
        replace (_ =? 0) with false by (symmetry; apply Z.eqb_neq; lia).
        replace (mf e' g * 2 ^ (e' - e) - mf e f <? 0) with false by (symmetry; apply Z.ltb_ge; lia).
        rewrite Z.abs_eq by lia. exact H.
    + destruct (Z.eqb_spec e (2 ^ E - 1)) as [EX|EX].
      * subst e. destruct (Z.eqb_spec f 0) as [G0|G0]; cbn [negb].
        -- subst f. apply okr_word; try assumption; try lia. rewrite (decode_special E F HE HF s 0) by lia. cbn [Z.eqb]. rewrite add_inf_l by lia. reflexivity.
        -- rewrite nan_l by lia. apply okr_nan; try assumption. left. apply decode_nan_word; lia.
      * destruct (MF e' g ltac:(lia) Hg) as [M1 M2]. rewrite M1, (LO e f) by lia.
        rewrite (shiftRightJam_eq E F W) by (assumption || lia).
        rewrite add754m_diff_fields by lia. cbv zeta.
        destruct (subFinal_ok s e f e' g ltac:(lia) ltac:(lia) Hf Hg) as [H Hp].
        replace (_ =? 0) with false by (symmetry; apply Z.eqb_neq; lia).
        replace (mf e f * 2 ^ (e - e') - mf e' g <? 0) with false by (symmetry; apply Z.ltb_ge; lia).
        rewrite Z.abs_eq by lia. exact H.
Qed.

Theorem sf_addM_ok quick a b : 0 <= a < 2 ^ W -> 0 <= b < 2 ^ W ->
  okr E F W (sf_addM (enum_of md) odd E F U C quick a b) (add754m md E F (decode754 E F a) (decode754 E F b)).
Proof.
  intros Ha Hb. rewrite HW in Ha, Hb.
  destruct (word_split E F ltac:(lia) HF a Ha) as (s & e & f & -> & He & Hf).
  destruct (word_split E F ltac:(lia) HF b Hb) as (t & e' & g & -> & He' & Hg).
  unfold sf_addM. rewrite signUI_lxor by assumption.
  destruct (xorb s t) eqn:X.
  - assert (t = negb s) by (destruct s, t; try discriminate; reflexivity). subst t. apply subMagsM_ok; assumption.
  - assert (t = s) by (destruct s, t; try discriminate; reflexivity). subst t. apply addMagsM_ok; assumption.
Qed.
End Add.
