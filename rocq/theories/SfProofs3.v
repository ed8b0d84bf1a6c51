(** SoftFloat: addition. *)
From Coq Require Import ZArith Bool Lia.
From Verif Require Import Spec Spec754 Fw FwLemmas SpecLemmas ValueLemmas Sf754Lemmas SoftFloat SfProofs1 SfProofs2.
Open Scope Z_scope.

Definition fin_val (s : bool) (m q : Z) : fval := if m =? 0 then Zero s else Num s m q.

Lemma round754_scale E F s n k c : 0 <= F -> 0 < n -> c <= k -> round754 E F s n 1 k = round754 E F s (n * 2 ^ (k - c)) 1 c.
Proof.
  intros HF Hn Hc. pose proof (pow2_pos (k - c) ltac:(lia)). apply round754_same; try lia.
  replace c with (k - (k - c)) at 2 by lia. apply samev_num. lia.
Qed.

Lemma add754_same E F s m q m' q' c : 0 <= F -> 0 <= m -> 0 <= m' -> c <= q -> c <= q' ->
  add754 E F (fin_val s m q) (fin_val s m' q') =
  if m * 2 ^ (q - c) + m' * 2 ^ (q' - c) =? 0 then Zero s else round754 E F s (m * 2 ^ (q - c) + m' * 2 ^ (q' - c)) 1 c.
Proof.
  intros HF Hm Hm' Hq Hq'. unfold add754, fin_val.
  pose proof (pow2_pos (q - c) ltac:(lia)) as P1. pose proof (pow2_pos (q' - c) ltac:(lia)) as P2.
  assert (0 <= m * 2 ^ (q - c)) by nia. assert (0 <= m' * 2 ^ (q' - c)) by nia.
  destruct (Z.eqb_spec m 0) as [->|Hz]; destruct (Z.eqb_spec m' 0) as [->|Hz'].
  - cbn. destruct s; reflexivity.
  - assert (0 < m' * 2 ^ (q' - c)) by nia. rewrite Z.mul_0_l, Z.add_0_l in *.
    replace (m' * 2 ^ (q' - c) =? 0) with false by (symmetry; apply Z.eqb_neq; lia).
    cbn [add_gen]. apply round754_scale; lia.
  - assert (0 < m * 2 ^ (q - c)) by nia. rewrite Z.mul_0_l, Z.add_0_r in *.
    replace (m * 2 ^ (q - c) =? 0) with false by (symmetry; apply Z.eqb_neq; lia).
    cbn [add_gen]. apply round754_scale; lia.
  - assert (0 < m * 2 ^ (q - c)) by nia. assert (0 < m' * 2 ^ (q' - c)) by nia.
    replace (m * 2 ^ (q - c) + m' * 2 ^ (q' - c) =? 0) with false by (symmetry; apply Z.eqb_neq; lia).
    cbn [add_gen]. cbv zeta. remember (Z.min q q') as k eqn:Ek.
    pose proof (pow2_pos (q - k) ltac:(lia)) as P3. pose proof (pow2_pos (q' - k) ltac:(lia)) as P4.
    assert (Hs : 0 < m * 2 ^ (q - k) + m' * 2 ^ (q' - k)) by nia.
    replace (sgn s (m * 2 ^ (q - k)) + sgn s (m' * 2 ^ (q' - k))) with (sgn s (m * 2 ^ (q - k) + m' * 2 ^ (q' - k)))
      by (unfold sgn; destruct s; lia).
    replace (sgn s (m * 2 ^ (q - k) + m' * 2 ^ (q' - k)) =? 0) with false
      by (symmetry; apply Z.eqb_neq; unfold sgn; destruct s; lia).
    replace (sgn s (m * 2 ^ (q - k) + m' * 2 ^ (q' - k)) <? 0) with s
      by (unfold sgn; destruct s; symmetry; [apply Z.ltb_lt|apply Z.ltb_ge]; lia).
    replace (Z.abs (sgn s (m * 2 ^ (q - k) + m' * 2 ^ (q' - k)))) with (m * 2 ^ (q - k) + m' * 2 ^ (q' - k))
      by (unfold sgn; destruct s; lia).
    rewrite (round754_scale E F s _ k c) by lia. f_equal.
    rewrite Z.mul_add_distr_r, <- !Z.mul_assoc, <- !pow2_add by lia. f_equal; do 2 f_equal; lia.
Qed.

Lemma add754_diff E F s m q m' q' c : 0 <= F -> 0 <= m -> 0 <= m' -> c <= q -> c <= q' ->
  add754 E F (fin_val s m q) (fin_val (negb s) m' q') =
  let v := m * 2 ^ (q - c) - m' * 2 ^ (q' - c) in
  if v =? 0 then Zero false else round754 E F (if v <? 0 then negb s else s) (Z.abs v) 1 c.
Proof.
  intros HF Hm Hm' Hq Hq'. unfold add754, fin_val. cbv zeta.
  pose proof (pow2_pos (q - c) ltac:(lia)) as P1. pose proof (pow2_pos (q' - c) ltac:(lia)) as P2.
  assert (0 <= m * 2 ^ (q - c)) by nia. assert (0 <= m' * 2 ^ (q' - c)) by nia.
  destruct (Z.eqb_spec m 0) as [->|Hz]; destruct (Z.eqb_spec m' 0) as [->|Hz'].
  - cbn. destruct s; reflexivity.
  - assert (0 < m' * 2 ^ (q' - c)) by nia. rewrite Z.mul_0_l, Z.sub_0_l in *.
    replace (- (m' * 2 ^ (q' - c)) =? 0) with false by (symmetry; apply Z.eqb_neq; lia).
    replace (- (m' * 2 ^ (q' - c)) <? 0) with true by (symmetry; apply Z.ltb_lt; lia).
    rewrite Z.abs_opp, Z.abs_eq by lia. cbn [add_gen]. apply round754_scale; lia.
  - assert (0 < m * 2 ^ (q - c)) by nia. rewrite Z.mul_0_l, Z.sub_0_r in *.
    replace (m * 2 ^ (q - c) =? 0) with false by (symmetry; apply Z.eqb_neq; lia).
    replace (m * 2 ^ (q - c) <? 0) with false by (symmetry; apply Z.ltb_ge; lia).
    rewrite Z.abs_eq by lia. cbn [add_gen]. apply round754_scale; lia.
  - cbn [add_gen]. cbv zeta. remember (Z.min q q') as k eqn:Ek.
    pose proof (pow2_pos (q - k) ltac:(lia)) as P3. pose proof (pow2_pos (q' - k) ltac:(lia)) as P4.
    pose proof (pow2_pos (k - c) ltac:(lia)) as P5.
    remember (m * 2 ^ (q - k) - m' * 2 ^ (q' - k)) as w eqn:Ew.
    assert (Hv : m * 2 ^ (q - c) - m' * 2 ^ (q' - c) = w * 2 ^ (k - c)).
    { rewrite Ew, Z.mul_sub_distr_r, <- !Z.mul_assoc, <- !pow2_add by lia. f_equal; do 2 f_equal; lia. }
    rewrite Hv.
    replace (sgn s (m * 2 ^ (q - k)) + sgn (negb s) (m' * 2 ^ (q' - k))) with (sgn s w)
      by (unfold sgn; destruct s; cbn [negb]; lia).
    replace (w * 2 ^ (k - c) =? 0) with (w =? 0) by (destruct (Z.eqb_spec w 0), (Z.eqb_spec (w * 2 ^ (k - c)) 0); nia).
    replace (w * 2 ^ (k - c) <? 0) with (w <? 0) by (destruct (Z.ltb_spec w 0), (Z.ltb_spec (w * 2 ^ (k - c)) 0); nia).
    rewrite Z.abs_mul, (Z.abs_eq (2 ^ (k - c))) by lia.
    replace (sgn s w =? 0) with (w =? 0) by (unfold sgn; destruct s; [destruct (Z.eqb_spec w 0), (Z.eqb_spec (- w) 0); lia|reflexivity]).
    destruct (Z.eqb_spec w 0) as [|Hw]; [reflexivity|].
    replace (sgn s w <? 0) with (if w <? 0 then negb s else s).
    2: { unfold sgn; destruct s; cbn [negb]; [destruct (Z.ltb_spec w 0), (Z.ltb_spec (- w) 0); lia|now destruct (w <? 0)]. }
    replace (Z.abs (sgn s w)) with (Z.abs w) by (unfold sgn; destruct s; lia).
    apply round754_scale; lia.
Qed.

Section Add.
Context (E F U C W : Z).
Context (HW : W = E + F + 1) (HE : 4 <= E <= 15) (HF : 1 <= F) (HU : W <= U) (HC : 16 <= C) (H64 : W <= 64).
Context (Hpow : exists w, 0 <= w /\ W = 2 ^ w).

Definition okr (r : option Z) (v : fval) : Prop := exists x, r = Some x /\ 0 <= x < 2 ^ W /\ decode754 E F x = v.

Lemma normRoundPack_ok s exp sig n d : 0 < n -> 0 < d -> sig = jam n d -> sig < 2 ^ (W - 1) -> 0 <= exp < 2 ^ E ->
  (2 ^ (W - 3) <= sig \/ n mod d = 0) ->
  okr (normRoundPack E F U C s exp sig) (round754 E F s n d (exp + 1 - bias E - (W - 2))).
Proof.
  intros Hn Hd Hsig Hlt He Hc. pose proof (jam_pos n d Hn Hd) as Jp.
  assert (HWW : 2 ^ (W - 1) < 2 ^ W) by (apply pow2_lt; lia).
  assert (HUW : 2 ^ W <= 2 ^ U) by (apply pow2_le; lia).
  assert (HE15 : 2 ^ E <= 2 ^ 15) by (apply pow2_le; lia). change (2 ^ 15) with 32768 in HE15.
  pose proof (Z.log2_nonneg sig) as Ln. assert (Lu : Z.log2 sig < W - 1) by (apply Z.log2_lt_pow2; lia).
  unfold normRoundPack. cbv zeta. rewrite clzW_eq by (try lia; rewrite <- HW; lia).
  remember (E + F - Z.log2 sig - 1) as sd eqn:Esd.
  pose proof (log2_shift sig (W - 2) ltac:(lia) ltac:(lia)) as [B1 B2].
  replace (W - 2 - Z.log2 sig) with sd in B1, B2 by lia. replace (W - 2 + 1) with (W - 1) in B2 by lia.
  rewrite i16_ok by (change (2 ^ 15) with 32768; lia). cbn [bind].
  destruct (Z.leb_spec (E - 1) sd) as [Hsd|Hsd]; [|].
  - assert (Hex : n mod d = 0).
    { destruct Hc as [Hc|]; [exfalso|assumption]. apply Z.log2_le_mono in Hc. rewrite Z.log2_pow2 in Hc by lia. lia. }
    rewrite jam_exact in Hsig by lia. assert (Hnd : n = sig * d) by (pose proof (Z.div_mod n d); lia).
    assert (Hsame : samev n d (exp + 1 - bias E - (W - 2)) sig 1 (exp + 1 - bias E - (W - 2))).
    { exists 0. repeat split; try lia. replace (0 + (exp + 1 - bias E - (W - 2) - (exp + 1 - bias E - (W - 2)))) with 0 by lia. lia. }
    destruct ((exp - sd) mod 2 ^ 32 <? 2 ^ E - 1 - 2) eqn:Hq; cbn [andb].
    + apply Z.ltb_lt in Hq. change (2 ^ 32) with 4294967296 in Hq.
      assert (He0 : 0 <= exp - sd).
      { destruct (Z_lt_ge_dec (exp - sd) 0); [exfalso|lia].
        assert ((exp - sd) mod 4294967296 = exp - sd + 4294967296) by (symmetry; apply (Z.mod_unique _ _ (-1)); lia). lia. }
      rewrite Z.mod_small in Hq by lia.
      pose proof (log2_shift sig F ltac:(lia) ltac:(lia)) as [M1 M2]. replace (F - Z.log2 sig) with (sd - (E - 1)) in M1, M2 by lia.
      assert (HFU : 2 ^ (F + 1) <= 2 ^ U) by (apply pow2_le; lia).
      rewrite ushl_ok by lia. cbn [bind].
      replace (sig =? 0) with false by (symmetry; apply Z.eqb_neq; lia).
      remember (sig * 2 ^ (sd - (E - 1))) as m eqn:Em.
      pose proof (pow2_pos F ltac:(lia)) as PF. rewrite pow2_S in M2 by lia.
      assert (HT : (exp - sd) * 2 ^ F + m <= (2 ^ E - 1) * 2 ^ F) by (clear - Hq M1 M2 PF; nia).
      assert (HTT : 0 <= (exp - sd) * 2 ^ F + m < 2 ^ (E + F)) by (rewrite pow2_add by lia; clear - HT He0 M1 PF; nia).
      eexists. split; [reflexivity|]. rewrite packUI_eq by lia.
      split; [apply (pack_wf E F U); try assumption; lia|].
      assert (M3 : 0 <= m <= 2 ^ (F + 1)) by (rewrite pow2_S by lia; lia).
      rewrite decode754_body by lia.
      symmetry. rewrite <- (rne_div_1 m) at 1. apply round754_char; try lia.
      * apply (samev_trans _ _ _ sig 1 (exp + 1 - bias E - (W - 2))); [lia|assumption|].
        rewrite Em. replace (exp - sd + 1 - bias E - F) with (exp + 1 - bias E - (W - 2) - (sd - (E - 1))) by lia. apply samev_num. lia.
      * unfold qmin. lia.
      * rewrite pow2_S by lia. lia.
    + rewrite ushl_ok by lia. cbn [bind].
      destruct (roundPack_ok E F U C W HW ltac:(lia) HF HU HC Hpow s (exp - sd) (sig * 2 ^ sd) (sig * 2 ^ sd) 1 0) as (r & R1 & R2 & R3); try lia.
      { rewrite jam_1 by lia. ring. }
      exists r. split; [exact R1|]. split; [exact R2|]. rewrite R3. symmetry. apply round754_same; try lia.
      apply (samev_trans _ _ _ sig 1 (exp + 1 - bias E - (W - 2))); [lia|assumption|].
      replace (exp - sd + 1 - bias E - (W - 2) + 0) with (exp + 1 - bias E - (W - 2) - sd) by lia. apply samev_num. lia.
  - cbn [andb]. rewrite ushl_ok by lia. cbn [bind].
    destruct (Z_le_gt_dec sd (E - 3)) as [Hs3|Hs3].
    + destruct (roundPack_ok E F U C W HW ltac:(lia) HF HU HC Hpow s (exp - sd) (sig * 2 ^ sd) n d sd) as (r & R1 & R2 & R3); try lia.
      exists r. split; [exact R1|]. split; [exact R2|]. rewrite R3. f_equal. lia.
    + assert (Hex : n mod d = 0).
      { destruct Hc as [Hc|]; [exfalso|assumption]. apply Z.log2_le_mono in Hc. rewrite Z.log2_pow2 in Hc by lia. lia. }
      rewrite jam_exact in Hsig by lia. assert (Hnd : n = sig * d) by (pose proof (Z.div_mod n d); lia).
      destruct (roundPack_ok E F U C W HW ltac:(lia) HF HU HC Hpow s (exp - sd) (sig * 2 ^ sd) (sig * 2 ^ sd) 1 0) as (r & R1 & R2 & R3); try lia.
      { rewrite jam_1 by lia. ring. }
      exists r. split; [exact R1|]. split; [exact R2|]. rewrite R3. symmetry. apply round754_same; try lia.
      apply (samev_trans _ _ _ sig 1 (exp + 1 - bias E - (W - 2))); [lia| |].
      * exists 0. repeat split; try lia. replace (0 + (exp + 1 - bias E - (W - 2) - (exp + 1 - bias E - (W - 2)))) with 0 by lia. lia.
      * replace (exp - sd + 1 - bias E - (W - 2) + 0) with (exp + 1 - bias E - (W - 2) - sd) by lia. apply samev_num. lia.
Qed.
End Add.
