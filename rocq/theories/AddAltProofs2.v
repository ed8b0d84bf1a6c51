(** add_single_v5 against add_single (v1). *)
From Coq Require Import ZArith Lia Bool List.
From Verif Require Import Fw Spec Flopoco AddSingle AddSingleAlt FwLemmas SpecLemmas ValueLemmas FlopocoLemmas CompareProofs AddLemmas AddSingleProofs AddSingleProofs2 AddSingleProofs3 AddAltProofs.
Open Scope Z_scope.

Lemma top_bits E F m fl s e f : okf E F fl e f -> 1 <= m <= F ->
  get_bits (E + F + 3) (F - 1) (F - m) (pack E F fl s e f) = Some (f / 2 ^ (F - m)).
Proof.
  intros H Hm. pose proof (pack_slices E F fl s e f H) as (S & _). destruct H as (HE & HF & _ & _ & Hf).
  rewrite (get_bits_w _ _ _ m) by lia. f_equal.
  remember (pack E F fl s e f) as x eqn:Ex. clear Ex. rewrite <- S.
  assert (EP : 2 ^ F = 2 ^ (F - m) * 2 ^ m) by (rewrite <- Z.pow_add_r by lia; f_equal; lia). rewrite EP.
  pose proof (pow2_pos (F - m) ltac:(lia)). pose proof (pow2_pos m ltac:(lia)).
  rewrite Z.rem_mul_r by lia. symmetry. rewrite (Z.mul_comm (2 ^ (F - m))). rewrite Z.div_add by lia.
  rewrite (Z.div_small (x mod 2 ^ (F - m))) by (apply Z.mod_pos_bound; lia). apply Z.add_0_l.
Qed.

Lemma key_eq wE m fl e t : 0 <= wE -> 0 <= m -> 0 <= e < 2 ^ wE -> 0 <= t < 2 ^ m -> cat m (cat wE fl e) t = (fl * 2 ^ wE + e) * 2 ^ m + t.
Proof. intros. rewrite !cat_eq by lia. reflexivity. Qed.

Lemma key_le A B m d f h : 0 <= m -> 0 <= d -> 0 <= h ->
  (A * 2 ^ m + f <=? B * 2 ^ m + h / 2 ^ d) = (A * 2 ^ (m + d) + f * 2 ^ d <=? B * 2 ^ (m + d) + h).
Proof.
  intros. rewrite pow2_add by lia. pose proof (pow2_pos d ltac:(lia)) as Pd. remember (2 ^ d) as D. remember (2 ^ m) as M.
  pose proof (div_mod_eq h D Pd). pose proof (Z.mod_pos_bound h D Pd).
  destruct (Z.leb_spec (A * M + f) (B * M + h / D)), (Z.leb_spec (A * (M * D) + f * D) (B * (M * D) + h)); try reflexivity; exfalso; nia.
Qed.

Lemma key_lt A B m d f h : 0 <= m -> 0 <= d -> 0 <= f ->
  (A * 2 ^ m + f / 2 ^ d <? B * 2 ^ m + h) = (A * 2 ^ (m + d) + f <? B * 2 ^ (m + d) + h * 2 ^ d).
Proof. intros. rewrite !Z.ltb_antisym. f_equal. apply key_le; assumption. Qed.

Lemma div_lt_pow f a b : 0 <= f < 2 ^ a -> 0 <= b <= a -> 0 <= f / 2 ^ (a - b) < 2 ^ b.
Proof. intros. apply div_pow_lt; try lia. replace (a - b + b) with a by lia. lia. Qed.

Lemma body_v5_eq wE wF wEX wFX wEY wFY a s e f b t g h :
  wF = Z.max wFX wFY -> okf wEX wFX a e f -> okf wEY wFY b g h -> forall e' g',
  let f' := f * 2 ^ (wF - wFX) in let h' := h * 2 ^ (wF - wFY) in
  okf wE wF a e' f' -> okf wE wF b g' h' ->
  let X := pack wE wF a s e' f' in let Y := pack wE wF b t g' h' in
  add_single_body_v5 wFX wFY wEX wEY (pack wEX wFX a s e f) (pack wEY wFY b t g h) wE wF X Y =
  if wFX <? wFY then add_single_body wE wF Y X else add_single_body wE wF X Y.
Proof.
  intros EF Ha Hb e' g' f' h' OX OY X Y.
  assert (HFX : 1 <= wFX) by (destruct Ha as (_ & ? & _); assumption). assert (HFY : 1 <= wFY) by (destruct Hb as (_ & ? & _); assumption).
  rewrite (body_v5_core _ _ _ _ _ _ _ _ _ _ (f / 2 ^ (wFX - Z.min wFX wFY)) (h / 2 ^ (wFY - Z.min wFX wFY))); [|lia|apply top_bits; [assumption|lia]|apply top_bits; [assumption|lia]].
  rewrite !body_core. unfold X, Y. rewrite !get_flags_exp_frac_pack, !get_flags_pack, !get_exp_pack by assumption. fold X Y.
  destruct Ha as (? & _ & ? & ? & Hf). destruct Hb as (? & _ & ? & ? & Hh). destruct OX as (? & ? & _ & ? & Hf'). destruct OY as (_ & _ & _ & ? & Hh').
  rewrite !key_eq by (try lia; apply div_lt_pow; lia).
  assert (EK : forall fl ee ff, fl * 2 ^ (wE + wF) + (ee * 2 ^ wF + ff) = (fl * 2 ^ wE + ee) * 2 ^ wF + ff) by (intros; rewrite pow2_add by lia; ring).
  rewrite !EK. clear EK. generalize (core_of wE wF X Y) (core_of wE wF Y X). intros c1 c2. clear X Y. unfold f', h' in *.
  destruct (Z.ltb_spec wFX wFY) as [L|L].
  - replace (Z.min wFX wFY) with wFX by lia. replace wF with (wFX + (wFY - wFX)) by lia. replace (wFX - wFX) with 0 by lia. rewrite Z.pow_0_r, Z.div_1_r.
    rewrite key_le by lia. replace (wFX + (wFY - wFX) - wFX) with (wFY - wFX) by lia. replace (wFX + (wFY - wFX) - wFY) with 0 by lia. rewrite Z.pow_0_r, Z.mul_1_r.
    rewrite Z.leb_antisym. match goal with |- context [negb ?c] => destruct c end; reflexivity.
  - replace (Z.min wFX wFY) with wFY by lia. replace wF with (wFY + (wFX - wFY)) by lia. replace (wFY - wFY) with 0 by lia. rewrite Z.pow_0_r, Z.div_1_r.
    rewrite key_lt by lia. replace (wFY + (wFX - wFY) - wFY) with (wFX - wFY) by lia. replace (wFY + (wFX - wFY) - wFX) with 0 by lia. rewrite Z.pow_0_r, Z.mul_1_r.
    reflexivity.
Qed.

Lemma ctMax_eq p q : ctMax p q = Z.max p q.
Proof. unfold ctMax; destruct (Z.ltb_spec q p); lia. Qed.

Lemma add_single_v5_eq wER wFR wEX wFX wEY wFY x y :
  1 <= wEX -> 1 <= wFX -> 1 <= wEY -> 1 <= wFY -> wf (wEX + wFX + 3) x -> wf (wEY + wFY + 3) y ->
  add_single_v5 wER wFR wEX wFX wEY wFY x y =
  if wFX <? wFY then add_single wER wFR wEY wFY wEX wFX y x else add_single wER wFR wEX wFX wEY wFY x y.
Proof.
  intros H1 H2 H3 H4 Wx Wy.
  destruct (pack_view wEX wFX x H1 H2 Wx) as (a & s & e & f & Ha & ->).
  destruct (pack_view wEY wFY y H3 H4 Wy) as (b & t & g & h & Hb & ->).
  unfold add_single_v5, add_single. cbv zeta. rewrite !ctMax_eq.
  rewrite (Z.max_comm wEY wEX), (Z.max_comm wFY wFX). remember (Z.max wEX wEY) as E eqn:EE. remember (Z.max wFX wFY) as F eqn:EF.
  destruct (promote_pack E F wEX wFX a s e f ltac:(lia) ltac:(lia) Ha) as [Pa Oa].
  destruct (promote_pack E F wEY wFY b t g h ltac:(lia) ltac:(lia) Hb) as [Pb Ob].
  cbv zeta in Pa, Oa, Pb, Ob. rewrite Pa, Pb. cbn [bind].
  destruct (assert_ _); cbn [bind]; [|destruct (wFX <? wFY); reflexivity].
  rewrite (body_v5_eq E F wEX wFX wEY wFY a s e f b t g h EF Ha Hb _ _ Oa Ob). reflexivity.
Qed.

(** The order of the operands does not change the value. *)
Lemma body_comm wE wF a s e f b t g h :
  okf wE wF a e f -> okf wE wF b g h -> wF + 3 < 2 ^ wE -> 2 ^ wE <> 2 * (wF + 3) -> 2 * wF + 4 < 2 ^ 31 ->
  let X := pack wE wF a s e f in let Y := pack wE wF b t g h in
  exists r r', add_single_body wE wF X Y = Some r /\ add_single_body wE wF Y X = Some r' /\ decode wE wF r = decode wE wF r' /\ wf (wE + wF + 3) r'.
Proof.
  intros Ha Hb H1 H2 H3 X Y.
  destruct (body_correct wE wF a s e f b t g h Ha Hb H1 H2 H3) as (r & R1 & R2 & R3 & R4 & R5).
  destruct (body_correct wE wF b t g h a s e f Hb Ha H1 H2 H3) as (r' & Q1 & Q2 & Q3 & Q4 & Q5). cbv zeta in *.
  exists r, r'. split; [exact R1|]. split; [exact Q1|]. split; [|exact Q2].
  assert (D : forall p e1 f1 q g1 h1 s1 t1, swallow wE wF p s1 e1 f1 q t1 g1 h1 \/ ~ swallow wE wF p s1 e1 f1 q t1 g1 h1).
  { intros. unfold swallow. destruct (xorb s1 t1); [|right; intros (_ & _ & _ & ? & _); discriminate].
    destruct (Z_lt_le_dec (2 * (wF + 3)) (2 ^ wE)); [|right; intros (? & _); lia].
    destruct (Z.eq_dec p 1); [|right; intros (_ & ? & _); lia]. destruct (Z.eq_dec q 1); [|right; intros (_ & _ & ? & _); lia].
    destruct (Z.eq_dec f1 0); [|right; intros (_ & _ & _ & _ & ? & _); lia]. destruct (Z.eq_dec h1 0); [right; intros (_ & _ & _ & _ & _ & ? & _); lia|].
    destruct (Z.eq_dec (e1 - g1) (wF + 2)); [left; tauto|right; intros (_ & _ & _ & _ & _ & _ & ?); lia]. }
  destruct (D a e f b g h s t) as [S|N1]; [rewrite R4, Q5 by exact S; reflexivity|].
  destruct (D b g h a e f t s) as [S|N2]; [rewrite R5, Q4 by exact S; reflexivity|].
  rewrite R3, Q3 by assumption. apply add_gen_comm.
Qed.

Lemma add_single_v5_agrees wEX wFX wEY wFY x y :
  let E := Z.max wEX wEY in let F := Z.max wFX wFY in
  1 <= wEX -> 1 <= wFX -> 1 <= wEY -> 1 <= wFY -> F + 3 < 2 ^ E -> 2 ^ E <> 2 * (F + 3) -> 2 * F + 4 < 2 ^ 31 ->
  wf (wEX + wFX + 3) x -> wf (wEY + wFY + 3) y ->
  exists r r', add_single_v5 E F wEX wFX wEY wFY x y = Some r /\ add_single E F wEX wFX wEY wFY x y = Some r' /\ wf (E + F + 3) r /\ decode E F r = decode E F r'.
Proof.
  intros E F H1 H2 H3 H4 HEF HEF2 H31 Wx Wy. rewrite add_single_v5_eq by assumption.
  destruct (pack_view wEX wFX x H1 H2 Wx) as (a & s & e & f & Ha & ->).
  destruct (pack_view wEY wFY y H3 H4 Wy) as (b & t & g & h & Hb & ->).
  unfold add_single. cbv zeta. rewrite !ctMax_eq. rewrite (Z.max_comm wEY wEX), (Z.max_comm wFY wFX). fold E F.
  destruct (promote_pack E F wEX wFX a s e f ltac:(lia) ltac:(lia) Ha) as [Pa Oa].
  destruct (promote_pack E F wEY wFY b t g h ltac:(lia) ltac:(lia) Hb) as [Pb Ob].
  cbv zeta in Pa, Oa, Pb, Ob. rewrite Pa, Pb. cbn [bind]. rewrite !Z.eqb_refl. cbn [andb assert_ bind].
  destruct (body_comm E F _ s _ _ _ t _ _ Oa Ob HEF HEF2 H31) as (r & r' & R1 & R2 & R3 & R4).
  destruct (wFX <? wFY).
  - exists r', r. rewrite R1, R2. repeat split; try assumption; congruence || apply R4.
  - destruct (body_comm E F _ t _ _ _ s _ _ Ob Oa HEF HEF2 H31) as (q & q' & _ & Q2 & _ & Q4). cbv zeta in R1, Q2. rewrite Q2 in R1. injection R1 as <-.
    exists q', q'. rewrite Q2. repeat split; try reflexivity; apply Q4.
Qed.
