From Coq Require Import ZArith Bool Lia List.
From Verif Require Import Fw FwLemmas Spec SpecLemmas Flopoco FlopocoLemmas CompareProofs ValueLemmas MulProofs AddLemmas AddSingleProofs AddSingleProofs2 AddDualProofs Div DivProofs DivProofs2.
Import ListNotations.
Open Scope Z_scope.

(** Rounding depends only on the rational number. *)
Lemma round_range_ratio_le lo hi F s n d k n' d' k' : 0 <= F -> 0 < n -> 0 < d -> 0 < n' -> 0 < d' -> k <= k' ->
  n * d' = n' * d * 2 ^ (k' - k) -> round_range lo hi F s n d k = round_range lo hi F s n' d' k'.
Proof.
  intros HF Hn Hd Hn' Hd' Hk EQ.
  pose proof (mag_spec n d Hn Hd) as Hm. remember (mag n d) as g eqn:Eg.
  remember (k + g - F) as e.
  pose proof (den2_pos d (k - e) Hd) as PD.
  assert (HB : 2 ^ F * den2 d (k - e) <= num2 n (k - e) < 2 ^ (F + 1) * den2 d (k - e)).
  { replace (k - e) with (F - g) by lia.
    pose proof (num2_scale n d (F - g) F HF) as HC. replace (F - g - F) with (- g) in HC by lia.
    assert (HS : num2 (n * 2 ^ F) (- g) = 2 ^ F * num2 n (- g)) by (unfold num2; ring). rewrite HS in HC.
    rewrite pow2_S by lia. pose proof (pow2_pos F HF) as PF. pose proof (den2_pos d (F - g) Hd) as PD2.
    pose proof (den2_pos d (- g) Hd) as PD3. remember (num2 n (F - g)) as A. remember (den2 d (F - g)) as B.
    remember (num2 n (- g)) as C. remember (den2 d (- g)) as D. remember (2 ^ F) as P. clear - HC Hm PF PD2 PD3.
    split; nia. }
  rewrite (round_range_char lo hi F s n d k e (num2 n (k - e)) (den2 d (k - e))) by (assumption || lia).
  symmetry. apply round_range_char; try assumption.
  unfold num2, den2.
  assert (HP : 2 ^ (k' - k) * 2 ^ Z.max 0 (k - e) * 2 ^ Z.max 0 (- (k' - e)) = 2 ^ Z.max 0 (k' - e) * 2 ^ Z.max 0 (- (k - e))).
  { rewrite <- !pow2_add by lia. f_equal. lia. }
  transitivity (n * d' * (2 ^ Z.max 0 (k - e) * 2 ^ Z.max 0 (- (k' - e)))); [ring|]. rewrite EQ.
  transitivity (n' * d * (2 ^ (k' - k) * 2 ^ Z.max 0 (k - e) * 2 ^ Z.max 0 (- (k' - e)))); [ring|]. rewrite HP. ring.
Qed.

Lemma round_range_ratio lo hi F s n d k a b : 0 <= F -> 0 < n -> 0 < d -> 0 <= a -> 0 <= b ->
  round_range lo hi F s (n * 2 ^ a) (d * 2 ^ b) (k - a + b) = round_range lo hi F s n d k.
Proof.
  intros HF Hn Hd Ha Hb. pose proof (pow2_pos a Ha). pose proof (pow2_pos b Hb).
  destruct (Z.le_ge_cases b a).
  - apply round_range_ratio_le; try lia; try nia. replace (k - (k - a + b)) with (a - b) by lia.
    replace a with (a - b + b) at 1 by lia. rewrite pow2_add by lia. ring.
  - symmetry. apply round_range_ratio_le; try lia; try nia. replace (k - a + b - k) with (b - a) by lia.
    replace b with (b - a + a) at 1 by lia. rewrite pow2_add by lia. ring.
Qed.

Lemma div_gen_scale2 lo hi F d d' x y : 0 <= F -> 0 <= d -> 0 <= d' -> pos_v x -> pos_v y ->
  div_gen (round_range lo hi F) (scale_v d x) (scale_v d' y) = div_gen (round_range lo hi F) x y.
Proof.
  intros HF Hd Hd' Hx Hy. destruct x as [| | |s m e], y as [| | |t n f]; try reflexivity. cbn [scale_v div_gen pos_v] in *.
  replace (e - d - (f - d')) with (e - f - d + d') by lia. apply round_range_ratio; assumption.
Qed.

Lemma div_exn_table a b : 0 <= a < 4 -> 0 <= b < 4 -> div_exn (cat 2 a b) =
  if (a =? 1) && (b =? 1) then 1 else if (a =? 3) || (b =? 3) then 3 else if (a =? b) then 3
  else if (a =? 2) || (b =? 0) then 2 else 0.
Proof.
  intros Ha Hb. apply flags_cases in Ha. apply flags_cases in Hb.
  destruct Ha as [->|[->|[->| ->]]], Hb as [->|[->|[->| ->]]]; reflexivity.
Qed.

Lemma div_body_ok wE wF a s e f b t g h : 2 <= wE -> okf wE wF a e f -> okf wE wF b g h ->
  let X := pack wE wF a s e f in let Y := pack wE wF b t g h in
  exists r, div_body wE wF X Y = Some r /\ wf (wE + wF + 3) r /\
    decode wE wF r = div_spec wE wF (decode wE wF X) (decode wE wF Y).
Proof.
  intros HE Ha Hb X Y.
  pose proof (get_frac_pack wE wF a s e f Ha) as Fa. pose proof (get_frac_pack wE wF b t g h Hb) as Fb.
  pose proof (get_exp_pack wE wF a s e f Ha) as Xa. pose proof (get_exp_pack wE wF b t g h Hb) as Xb.
  pose proof (get_sign_pack wE wF a s e f Ha) as Sa. pose proof (get_sign_pack wE wF b t g h Hb) as Sb.
  pose proof (get_flags_pack wE wF a s e f Ha) as La. pose proof (get_flags_pack wE wF b t g h Hb) as Lb.
  pose proof (decode_pack wE wF a s e f Ha) as Da. pose proof (decode_pack wE wF b t g h Hb) as Db.
  fold X in Fa, Xa, Sa, La, Da. fold Y in Fb, Xb, Sb, Lb, Db.
  unfold get_frac in Fa, Fb. unfold get_exp in Xa, Xb. unfold get_sign in Sa, Sb. unfold get_flags in La, Lb.
  destruct Ha as (_ & HF & Ra & Re & Rf). destruct Hb as (_ & _ & Rb & Rg & Rh).
  unfold div_body. rewrite Fa, Fb, Xa, Xb, Sa, Sb, La, Lb. rewrite Da, Db. clear Fa Fb Xa Xb Sa Sb La Lb Da Db.
  rewrite (opad_hi_eq 1 wF f), (opad_hi_eq 1 wF h) by lia. rewrite (zpad_hi_eq 2 wE e), (zpad_hi_eq 2 wE g) by lia.
  change (2 ^ 1 - 1) with 1. rewrite !Z.mul_1_l. rewrite fxor_b2z.
  assert (P0 : 0 < 2 ^ wF) by (apply pow2_pos; lia).
  destruct (div_digits_ok wF (2 ^ wF + f) (2 ^ wF + h) HF ltac:(lia) ltac:(lia)) as (qs & w0 & EL & ER & HB).
  rewrite EL, ER. clear EL ER.
  destruct (div_fR_ok wF (2 ^ wF + f) (2 ^ wF + h) HF ltac:(lia) ltac:(lia) HB) as [EG HG].
  unfold div_finish. rewrite EG. cbn [bind]. clear EG HB.
  destruct (div_code_ok wE wF e g (2 ^ wF + f) (2 ^ wF + h) HE HF ltac:(lia) ltac:(lia) Re Rg HG) as (c & m & Hc & Hm & EV & ES).
  unfold assert_. replace (0 <=? wE - 2) with true by (symmetry; apply Z.leb_le; lia). cbn [bind].
  unfold div_norm in EV. rewrite EV. clear EV HG.
  assert (EE : 2 ^ wE = 2 * 2 ^ (wE - 1)) by (rewrite <- pow2_S by lia; f_equal; lia).
  assert (PE : 2 <= 2 ^ (wE - 1)) by (change 2 with (2 ^ 1) at 1; apply Z.pow_le_mono_r; lia).
  assert (E1 : 2 ^ (wF + 1) = 2 * 2 ^ wF) by (apply (pow2_shift 1); [reflexivity|lia|lia]).
  remember (e - g + 2 ^ (wE - 1) - 2 + c) as Xe eqn:EXe.
  remember (Xe * 2 ^ wF + (m - 2 ^ wF)) as T eqn:ET.
  assert (EW : 2 ^ (wE + wF) = 2 ^ wE * 2 ^ wF) by (apply pow2_add; lia).
  assert (HT : - (2 * 2 ^ (wE + wF)) <= T < 2 * 2 ^ (wE + wF)).
  { rewrite EW. assert (HXe : - 2 ^ wE <= Xe <= 2 * 2 ^ wE - 2) by lia. pose proof (Z.mul_le_mono_nonneg_r _ _ (2 ^ wF) ltac:(lia) (proj1 HXe)). pose proof (Z.mul_le_mono_nonneg_r _ _ (2 ^ wF) ltac:(lia) (proj2 HXe)).
    assert (0 < 2 ^ wE * 2 ^ wF) by (apply Z.mul_pos_pos; lia). lia. }
  destruct (mod_range_flags T (wE + wF) ltac:(lia) HT) as [HFl HL].
  remember (T mod 2 ^ (wE + wF + 2)) as V eqn:EVV.
  assert (EB2 : bits (wE + wF + 1) (wE + wF) V = (V / 2 ^ (wE + wF)) mod 4).
  { rewrite bits_eq by lia. replace (wE + wF + 1 - (wE + wF) + 1) with 2 by lia. reflexivity. }
  assert (EB1 : bits (wE + wF + 1) (wE + wF + 1) V = ((V / 2 ^ (wE + wF)) mod 4) / 2).
  { rewrite bits_eq by lia. replace (wE + wF + 1 - (wE + wF + 1) + 1) with 1 by lia. change (2 ^ 1) with 2.
    rewrite (pow2_S (wE + wF)) by lia. rewrite (Z.mul_comm 2 (2 ^ (wE + wF))), <- Z.div_div by (try lia; apply pow2_pos; lia).
    set (u := V / 2 ^ (wE + wF)). change 4 with (2 * 2). rewrite Z.rem_mul_r by lia. rewrite (Z.mul_comm 2 ((u / 2) mod 2)), Z.div_add by lia.
    rewrite (Z.div_small (u mod 2)) by (apply Z.mod_pos_bound; lia). lia. }
  rewrite EB1, EB2. clear EB1 EB2.
  remember ((V / 2 ^ (wE + wF)) mod 4) as B eqn:EB. clear EB.
  assert (Hbody : 0 <= bits (wE + wF - 1) 0 V < 2 ^ (wE + wF)).
  { rewrite take_low by lia. apply Z.mod_pos_bound. apply pow2_pos; lia. }
  assert (Hbv : 0 <= T < 2 ^ (wE + wF) -> bits (wE + wF - 1) 0 V = T).
  { intros. rewrite take_low, HL by lia. apply Z.mod_small. assumption. }
  remember (bits (wE + wF - 1) 0 V) as body eqn:Ebody. clear Ebody HL EVV.
  eexists. split; [reflexivity|]. rewrite cat3 by lia. rewrite div_exn_table by assumption.
  assert (EX : (if B / 2 =? 1 then 0 else if B =? 1 then 2 else 1) = if T <? 0 then 0 else if T <? 2 ^ (wE + wF) then 1 else 2).
  { destruct HFl as [[T1 B1]|[[T1 B1]|[T1 B1]]].
    - replace (T <? 0) with true by (symmetry; apply Z.ltb_lt; lia). destruct B1 as [-> | ->]; reflexivity.
    - replace (T <? 0) with false by (symmetry; apply Z.ltb_ge; lia). replace (T <? 2 ^ (wE + wF)) with true by (symmetry; apply Z.ltb_lt; lia). subst B. reflexivity.
    - replace (T <? 0) with false by (symmetry; apply Z.ltb_ge; assert (0 < 2 ^ (wE + wF)) by (apply pow2_pos; lia); lia).
      replace (T <? 2 ^ (wE + wF)) with false by (symmetry; apply Z.ltb_ge; lia). subst B. reflexivity. }
  rewrite EX. remember (if T <? 0 then 0 else if T <? 2 ^ (wE + wF) then 1 else 2) as fl eqn:Efl.
  assert (Hfl : 0 <= fl < 4) by (subst fl; destruct (T <? 0); [lia|]; destruct (T <? 2 ^ (wE + wF)); lia).
  assert (WF : forall u, 0 <= u < 4 -> wf (wE + wF + 3) (u * 2 ^ (wE + wF + 1) + Z.b2z (xorb s t) * 2 ^ (wE + wF) + body)).
  { intros u Hu. unfold wf. replace (wE + wF + 3) with (wE + wF + 1 + 2) by lia. rewrite (pow2_add (wE + wF + 1)), (pow2_S (wE + wF)) by lia.
    change (2 ^ 2) with 4. assert (0 < 2 ^ (wE + wF)) by (apply pow2_pos; lia). assert (0 <= Z.b2z (xorb s t) <= 1) by (destruct (xorb s t); cbn; lia). nia. }
  split.
  - apply WF. destruct ((a =? 1) && (b =? 1)); [exact Hfl|]. cbn [Z.eqb]. destruct ((a =? 3) || (b =? 3)); [cbn; lia|]. destruct (a =? b); [cbn; lia|].
    destruct ((a =? 2) || (b =? 0)); cbn; lia.
  - apply flags_cases in Ra. apply flags_cases in Rb.
    assert (DF : forall u, decode wE wF (u * 2 ^ (wE + wF + 1) + Z.b2z (xorb s t) * 2 ^ (wE + wF) + body) = _) by (intro u; apply decode_fields; lia).
    destruct Ra as [->|[->|[->| ->]]], Rb as [->|[->|[->| ->]]]; cbn [Z.eqb Pos.eqb andb orb]; try (rewrite DF; reflexivity).
    (* both normal *)
    unfold div_spec, div_gen.
    rewrite (ES wE wF (xorb s t)) by lia. unfold bias in *.
    apply pack_decode; try lia; rewrite <- ET; assumption.
Qed.

Lemma div_spec_promoted wE wF wEX wFX wEY wFY a s e f b t g h :
  wFX <= wF -> wFY <= wF -> okf wEX wFX a e f -> okf wEY wFY b g h ->
  okf wE wF a (e + (bias wE - bias wEX)) (f * 2 ^ (wF - wFX)) -> okf wE wF b (g + (bias wE - bias wEY)) (h * 2 ^ (wF - wFY)) ->
  div_spec wE wF (decode wE wF (pack wE wF a s (e + (bias wE - bias wEX)) (f * 2 ^ (wF - wFX))))
    (decode wE wF (pack wE wF b t (g + (bias wE - bias wEY)) (h * 2 ^ (wF - wFY)))) =
  div_spec wE wF (decode wEX wFX (pack wEX wFX a s e f)) (decode wEY wFY (pack wEY wFY b t g h)).
Proof.
  intros H1 H2 Ha Hb Oa Ob. rewrite !decode_promoted by (assumption || lia).
  apply div_gen_scale2; try lia.
  - destruct Oa as (_ & ? & _). lia.
  - apply decode_pos. destruct Ha as (_ & ? & _). lia.
  - apply decode_pos. destruct Hb as (_ & ? & _). lia.
Qed.

Theorem div_v1_correct wER wFR wEX wFX wEY wFY x y :
  1 <= wEX <= wER -> 1 <= wEY <= wER -> 2 <= wER -> 1 <= wFX <= wFR -> 1 <= wFY <= wFR ->
  wf (wEX + wFX + 3) x -> wf (wEY + wFY + 3) y ->
  exists r, div_v1 wER wFR wEX wFX wEY wFY x y = Some r /\ wf (wER + wFR + 3) r /\
    decode wER wFR r = div_spec wER wFR (decode wEX wFX x) (decode wEY wFY y).
Proof.
  intros HX HY HE HFX HFY Wx Wy. unfold div_v1.
  assert (EF : ctMax wFR (ctMax wFX wFY) = wFR).
  { unfold ctMax. destruct (Z.ltb_spec wFY wFX); [destruct (Z.ltb_spec wFX wFR)|destruct (Z.ltb_spec wFY wFR)]; lia. }
  assert (EE : ctMax wER (ctMax wEX wEY) = wER).
  { unfold ctMax. destruct (Z.ltb_spec wEY wEX); [destruct (Z.ltb_spec wEX wER)|destruct (Z.ltb_spec wEY wER)]; lia. }
  rewrite EF, EE.
  destruct (pack_view wEX wFX x ltac:(lia) ltac:(lia) Wx) as (a & s & e & f & Ha & ->).
  destruct (pack_view wEY wFY y ltac:(lia) ltac:(lia) Wy) as (b & t & g & h & Hb & ->).
  destruct (promote_pack wER wFR wEX wFX a s e f ltac:(lia) ltac:(lia) Ha) as [Pa Oa].
  destruct (promote_pack wER wFR wEY wFY b t g h ltac:(lia) ltac:(lia) Hb) as [Pb Ob].
  rewrite Pa, Pb. cbn [bind]. rewrite !Z.eqb_refl. cbn [andb assert_ bind].
  destruct (div_body_ok wER wFR a s _ _ b t _ _ HE Oa Ob) as (r & R1 & R2 & R3).
  exists r. split; [exact R1|]. split; [exact R2|]. rewrite R3. apply div_spec_promoted; (assumption || lia).
Qed.
