From Coq Require Import ZArith Bool Lia.
From Verif Require Import Fw FwLemmas Spec SpecLemmas Flopoco FlopocoLemmas FlopocoProofs CompareProofs MulProofs AddSingle AddLemmas ValueLemmas AddSingleProofs AddSingleProofs2 AddSingleProofs3 AddDual AddDualProofs AddDualProofs2 AddDualProofs3 AddDualProofs4.
Open Scope Z_scope.

Lemma add_num_signed wE wF s t M N x y : y <= x -> xorb s t = true ->
  let V := M * 2 ^ (x - y) - N in
  add_spec wE wF (Num s M x) (Num t N y) = if V =? 0 then Zero false else round_to wE wF (xorb s (V <? 0)) (Z.abs V) 1 y.
Proof.
  intros Hxy Hs V. unfold add_spec, add_gen. rewrite Z.min_r by lia. rewrite Z.sub_diag, Z.pow_0_r, Z.mul_1_r.
  assert (HS : sgn s (M * 2 ^ (x - y)) + sgn t N = sgn s V) by (unfold V; destruct s, t; try discriminate; cbn [sgn xorb]; lia).
  rewrite HS. destruct (Z.eqb_spec V 0) as [->|Hn].
  - destruct s; reflexivity.
  - destruct s; cbn [sgn].
    + destruct (Z.eqb_spec (- V) 0); [lia|]. rewrite Z.abs_opp. destruct (Z.ltb_spec (- V) 0), (Z.ltb_spec V 0); try lia; reflexivity.
    + destruct (Z.eqb_spec V 0); [lia|]. destruct (Z.ltb_spec V 0); reflexivity.
Qed.

Lemma round_close E F s V D d c e g : 0 <= F -> V <> 0 -> 0 <= d -> 0 <= c -> e - g = d -> D * 2 ^ d = 2 * V ->
  2 ^ (F + 1) <= Z.abs D * 2 ^ c < 2 ^ (F + 2) ->
  round_to E F s (Z.abs V) 1 (g - bias E - F) = finish (emin E) (emax E) F s (norm_me F (rne_div (Z.abs D * 2 ^ c) 2) (e - c - bias E - F)).
Proof.
  intros HF HV Hd Hc Heg HD HB.
  assert (E1 : 2 ^ (F + 1) = 2 ^ F * 2) by (rewrite pow2_S by lia; ring).
  assert (E2 : 2 ^ (F + 2) = 2 ^ (F + 1) * 2) by (replace (F + 2) with (F + 1 + 1) by lia; rewrite (pow2_S (F + 1)) by lia; ring).
  assert (HA : Z.abs D * 2 ^ d = 2 * Z.abs V).
  { pose proof (pow2_pos d Hd). rewrite <- (Z.abs_eq (2 ^ d)) by lia. rewrite <- Z.abs_mul, HD, Z.abs_mul. reflexivity. }
  unfold round_to. apply round_range_char; try lia.
  unfold num2, den2. replace (g - bias E - F - (e - c - bias E - F)) with (c - d) by lia. rewrite Z.mul_1_l.
  destruct (Z_le_gt_dec c d).
  - rewrite (Z.max_l 0 (c - d)), (Z.max_r 0 (- (c - d))) by lia. rewrite <- Z.mul_assoc, <- pow2_add by lia. replace (c + - (c - d)) with d by lia. rewrite HA, Z.pow_0_r. ring.
  - rewrite (Z.max_r 0 (c - d)), (Z.max_l 0 (- (c - d))) by lia. replace c with (d + (c - d)) at 1 by lia. rewrite pow2_add by lia. rewrite Z.pow_0_r, Z.mul_1_r, Z.mul_assoc, HA. ring.
Qed.

Lemma close_bit wE d : 1 <= wE -> 0 <= d < 2 ^ wE -> feq (bits (wE - 1) 1 d) 0 = Z.b2z (d <? 2).
Proof.
  intros HE Hd. rewrite bits_eq by lia. replace (wE - 1 - 1 + 1) with (wE - 1) by lia. change (2 ^ 1) with 2.
  rewrite Z.mod_small.
  - unfold feq. f_equal. destruct (Z.ltb_spec d 2).
    + rewrite Z.div_small by lia. reflexivity.
    + apply Z.eqb_neq. assert (1 <= d / 2) by (apply Z.div_le_lower_bound; lia). lia.
  - replace wE with (wE - 1 + 1) in Hd by lia. rewrite pow2_S in Hd by lia. split; [apply Z.div_pos; lia|apply Z.div_lt_upper_bound; lia].
Qed.

Lemma dual_core_ok lo wE wF a s e f b t g h :
  0 <= lo <= 1 -> dual_ok_from lo wE wF -> okf wE wF a e f -> okf wE wF b g h -> b <= a -> (a = b -> g <= e) -> (a = 1 -> lo <= e) -> (b = 1 -> lo <= g) ->
  let X := pack wE wF a s e f in let Y := pack wE wF b t g h in
  exists r, dual_core wE wF X Y ((e - g) mod 2 ^ wE) = Some r /\ wf (wE + wF + 3) r /\
    decode wE wF r = add_spec wE wF (decode wE wF X) (decode wE wF Y).
Proof.
  intros HL HW HX HY Hba Hab Hlo Hlg X Y. pose proof HX as (HE & HF & Ha & He & Hf). pose proof HY as (_ & _ & Hb & Hg & Hh).
  pose proof HW as (_ & _ & HW1 & HW2 & _).
  pose proof (mod_pow_bound (e - g) wE ltac:(lia)) as MB.
  unfold dual_core. destruct (dual_shiftVal_ok lo wE wF ((e - g) mod 2 ^ wE) HW MB) as (k & K1 & K2 & K3).
  rewrite K1. cbn [bind]. unfold X, Y. rewrite !get_sign_pack by assumption. rewrite fxor_b2z.
  rewrite close_bit by lia. rewrite select_b2z.
  remember ((e - g) mod 2 ^ wE) as d eqn:Ed.
  assert (EC : (if d <? 2 then Z.b2z (xorb s t) else zg 1) = Z.b2z ((d <? 2) && xorb s t)) by (destruct (d <? 2); reflexivity).
  rewrite EC. clear EC. remember ((d <? 2) && xorb s t) as cl eqn:Ecl.
  destruct (dual_close_ok wE wF a s e f b t g h d cl HX HY ltac:(lia)) as (R0 & rd & cz & sg & C1 & C2 & C3 & C4).
  rewrite C1. cbn [bind].
  assert (Hk31 : k < 2 ^ 31) by (assert (dual_pad wF <= 2) by (unfold dual_pad; destruct (_ || _); lia); lia).
  destruct (Z.eq_dec (cat 2 a b) 5) as [H5|H5].
  - assert (a = 1 /\ b = 1) as [-> ->].
    { rewrite cat_eq in H5 by (change (2 ^ 2) with 4; lia). change (2 ^ 2) with 4 in H5. lia. }
    assert (Hge : g <= e) by (apply Hab; reflexivity). specialize (Hlo eq_refl). specialize (Hlg eq_refl).
    assert (Edd : d = e - g) by (subst d; apply Z.mod_small; lia). clear Ed. subst d.
    rewrite !decode_pack by assumption. cbn [Z.eqb Pos.eqb].
    destruct cl.
    + symmetry in Ecl. apply andb_prop in Ecl as [Hd2 Hs]. apply Z.ltb_lt in Hd2.
      pose proof (dual_far_eq wE wF 1 s e f 1 t g h (xorb s t) k HX HY K2 Hk31) as HF1. cbv zeta in HF1. rewrite HF1. cbn [bind]. clear HF1.
      destruct (dual_norm _ _ _ _ _) as [f1 f2]. eexists. split; [reflexivity|].
      rewrite add_num_signed by (try assumption; lia). cbv zeta.
      replace (e - bias wE - wF - (g - bias wE - wF)) with (e - g) by ring.
      remember ((2 ^ wF + f) * 2 ^ (e - g) - (2 ^ wF + h)) as V eqn:EV. cbv zeta in C2, C4.
      remember (2 * (2 ^ wF + f) - (if Z.odd (e - g) then 2 ^ wF + h else 2 * (2 ^ wF + h))) as D eqn:ED.
      assert (HDV : D * 2 ^ (e - g) = 2 * V).
      { subst D V. assert (Hc : e - g = 0 \/ e - g = 1) by lia. destruct Hc as [-> | ->]; cbn [Z.odd]; [change (2 ^ 0) with 1|change (2 ^ 1) with 2]; ring. }
      pose proof (pow2_pos (e - g) ltac:(lia)) as PD. rewrite <- fxor_b2z.
      destruct (Z.eqb_spec V 0) as [HV|HV].
      * assert (HD : D = 0) by nia. destruct (C2 HD) as (Hcz & Hsg). rewrite Hcz, (Hsg eq_refl).
        apply (dual_final_zero wE wF s e f t g h R0 f1 (Z.b2z rd) f2 rd HX HY eq_refl).
      * assert (HD : D <> 0) by (intros ->; lia). destruct (C4 HD) as (Hcz & Hsg & c & Q1 & Q2 & Q3). rewrite Hcz, (Hsg eq_refl).
        assert (EL : (D <? 0) = (V <? 0)) by (destruct (Z.ltb_spec D 0), (Z.ltb_spec V 0); nia).
        rewrite EL. rewrite (round_close wE wF _ V D (e - g) c e g) by (assumption || lia || reflexivity).
        assert (E1 : 2 ^ (wF + 1) = 2 ^ wF * 2) by (rewrite pow2_S by lia; ring).
        assert (E2 : 2 ^ (wF + 2) = 2 ^ (wF + 1) * 2) by (replace (wF + 2) with (wF + 1 + 1) by lia; rewrite (pow2_S (wF + 1)) by lia; ring).
        rewrite (pow2_S wE) in HW1 by lia. pose proof (pow2_le 1 wE ltac:(lia)) as PE2. change (2 ^ 1) with 2 in PE2.
        assert (Hec : lo - wF <= e - c).
        { assert (Hc : e - g = 0 \/ e - g = 1) by lia. destruct Hc as [Hc|Hc]; [|lia].
          rewrite Hc, Z.pow_0_r, Z.mul_1_r in HDV. destruct (Z_le_gt_dec c wF); [lia|].
          pose proof (pow2_le (wF + 1) c ltac:(lia)). nia. }
        apply (dual_final_num wE wF s e f t g h true false _ rd R0 f1 (Z.b2z rd) f2 (e - c)); try assumption; try reflexivity; try lia.
        split; [apply rne_div_lower; lia|apply rne_div_upper; lia].
    + rewrite (C3 eq_refl). 
      destruct (dual_far_num wE wF s e f t g h k R0 (Z.b2z rd) cz HX HY Hge K2 Hk31 K3) as (far & F1 & F2 & F3 & F4).
      { intros Hs. rewrite Hs, andb_true_r in Ecl. destruct (Z.ltb_spec (e - g) 2); [discriminate|lia]. }
      rewrite F1. cbn [bind]. eexists. split; [reflexivity|]. rewrite <- fxor_b2z. split; [exact F3|]. rewrite F4.
      rewrite add_num_spec by (try (destruct (xorb s t)); try lia; replace (e - bias wE - wF - (g - bias wE - wF)) with (e - g) by ring; lia).
      cbv zeta. replace (e - bias wE - wF - (g - bias wE - wF)) with (e - g) by ring.
      destruct (Z.eqb_spec (if xorb s t then (2 ^ wF + f) * 2 ^ (e - g) - (2 ^ wF + h) else (2 ^ wF + f) * 2 ^ (e - g) + (2 ^ wF + h)) 0); [lia|].
      f_equal. ring.
  - pose proof (dual_far_eq wE wF a s e f b t g h (xorb s t) k HX HY K2 Hk31) as HF1. cbv zeta in HF1. rewrite HF1. cbn [bind]. clear HF1.
    eexists. split; [reflexivity|]. rewrite <- fxor_b2z. rewrite !decode_pack by assumption.
    apply dual_final_special; try assumption. rewrite decode_pack by (unfold okf; lia). cbn [Z.eqb Pos.eqb].
    rewrite round_to_exact by lia. apply finish_code; lia.
Qed.

Lemma dual_body_from lo wE wF a s e f b t g h :
  0 <= lo <= 1 -> dual_ok_from lo wE wF -> okf wE wF a e f -> okf wE wF b g h -> (a = 1 -> lo <= e) -> (b = 1 -> lo <= g) ->
  let X := pack wE wF a s e f in let Y := pack wE wF b t g h in
  exists r, add_dual_body wE wF X Y = Some r /\ wf (wE + wF + 3) r /\
    decode wE wF r = add_spec wE wF (decode wE wF X) (decode wE wF Y).
Proof.
  intros HL HW HX HY La Lb X Y. unfold X, Y. pose proof (dual_body_core wE wF a s e f b t g h HX HY) as HB. cbv zeta in HB. rewrite HB. clear HB.
  destruct ((b <? a) || (a =? b) && (g <=? e)) eqn:C.
  - apply (dual_core_ok lo); try assumption; destruct (Z.ltb_spec b a), (Z.eqb_spec a b), (Z.leb_spec g e); cbn in C; try discriminate; lia.
  - destruct (dual_core_ok lo wE wF b t g h a s e f HL HW HY HX) as (r & R1 & R2 & R3);
      try (destruct (Z.ltb_spec b a), (Z.eqb_spec a b), (Z.leb_spec g e); cbn in C; try discriminate; lia).
    exists r. split; [exact R1|]. split; [exact R2|]. rewrite R3. apply add_gen_comm.
Qed.

Theorem dual_body_ok wE wF a s e f b t g h :
  dual_ok_width wE wF -> okf wE wF a e f -> okf wE wF b g h ->
  let X := pack wE wF a s e f in let Y := pack wE wF b t g h in
  exists r, add_dual_body wE wF X Y = Some r /\ wf (wE + wF + 3) r /\
    decode wE wF r = add_spec wE wF (decode wE wF X) (decode wE wF Y).
Proof.
  intros HW HX HY. apply (dual_body_from 0); try assumption; [lia| | |]; try (intros _; apply HX || apply HY).
  unfold dual_ok_width in HW. unfold dual_ok_from. rewrite Z.add_0_r. exact HW.
Qed.

Theorem add_dual_ok wEX wFX wEY wFY x y :
  let E := Z.max wEX wEY in let F := Z.max wFX wFY in
  1 <= wEX -> 1 <= wFX -> 1 <= wEY -> 1 <= wFY -> dual_ok_width E F ->
  wf (wEX + wFX + 3) x -> wf (wEY + wFY + 3) y ->
  exists r, add_dual E F wEX wFX wEY wFY x y = Some r /\ wf (E + F + 3) r /\
    decode E F r = add_spec E F (decode wEX wFX x) (decode wEY wFY y).
Proof.
  intros E F H1 H2 H3 H4 HW Wx Wy.
  destruct (pack_view wEX wFX x H1 H2 Wx) as (a & s & e & f & Ha & ->).
  destruct (pack_view wEY wFY y H3 H4 Wy) as (b & t & g & h & Hb & ->).
  assert (EC : forall p q, ctMax p q = Z.max p q) by (intros; unfold ctMax; destruct (Z.ltb_spec q p); lia).
  unfold add_dual. rewrite !EC. fold E F.
  destruct (promote_pack E F wEX wFX a s e f ltac:(lia) ltac:(lia) Ha) as [Pa Oa].
  destruct (promote_pack E F wEY wFY b t g h ltac:(lia) ltac:(lia) Hb) as [Pb Ob].
  cbv zeta in Pa, Oa, Pb, Ob. rewrite Pa, Pb. cbn [bind]. rewrite !Z.eqb_refl.
  pose proof HW as (HE3 & _). destruct (Z.ltb_spec 3 E); [|lia]. cbn [andb assert_ bind].
  destruct (dual_body_ok E F a s _ _ b t _ _ HW Oa Ob) as (r & R1 & R2 & R3). cbv zeta in R1, R3.
  exists r. split; [exact R1|]. split; [exact R2|].
  rewrite add_spec_promoted in R3 by (assumption || lia). exact R3.
Qed.
