(** Proofs about mul_v1. *)
From Coq Require Import ZArith Bool Lia.
From Verif Require Import Fw FwLemmas Spec SpecLemmas Mul.
Open Scope Z_scope.

Lemma mul_exc_normal a b : 0 <= a < 4 -> 0 <= b < 4 ->
  mul_exc (cat 2 a b) =
  if (a =? 1) && (b =? 1) then 1
  else if (a =? 3) || (b =? 3) then 3
  else if ((a =? 2) && (b =? 0)) || ((a =? 0) && (b =? 2)) then 3
  else if (a =? 2) || (b =? 2) then 2 else 0.
Proof.
  intros Ha Hb. assert (a = 0 \/ a = 1 \/ a = 2 \/ a = 3) as [->|[->|[->| ->]]] by lia;
  assert (b = 0 \/ b = 1 \/ b = 2 \/ b = 3) as [->|[->|[->| ->]]] by lia; reflexivity.
Qed.

(** Non-normal operands: the result depends on flags and signs only. *)
Lemma mul_special wE wFX wFY wFR s t ma ea mb eb a b fl body :
  1 <= wE -> 1 <= wFR -> 0 <= a < 4 -> 0 <= b < 4 -> (a =? 1) && (b =? 1) = false ->
  fl = mul_exc (cat 2 a b) -> 0 <= body < 2 ^ (wE + wFR) ->
  decode wE wFR (fl * 2 ^ (wE + wFR + 1) + Z.b2z (xorb s t) * 2 ^ (wE + wFR) + body) =
  mul_spec wE wFR
    (if a =? 0 then Zero s else if a =? 1 then Num s ma (ea - bias wE - wFX)
     else if a =? 2 then Inf s else NaN)
    (if b =? 0 then Zero t else if b =? 1 then Num t mb (eb - bias wE - wFY)
     else if b =? 2 then Inf t else NaN).
Proof.
  intros HE HF Ha Hb Hab -> Hbody. rewrite decode_fields by lia.
  assert (a = 0 \/ a = 1 \/ a = 2 \/ a = 3) as [->|[->|[->| ->]]] by lia;
  assert (b = 0 \/ b = 1 \/ b = 2 \/ b = 3) as [->|[->|[->| ->]]] by lia;
  try discriminate Hab; reflexivity.
Qed.

Lemma sig_prod_bounds wFX wFY fx fy :
  0 <= wFX -> 0 <= wFY -> 0 <= fx < 2 ^ wFX -> 0 <= fy < 2 ^ wFY ->
  2 ^ (wFX + wFY) <= (2 ^ wFX + fx) * (2 ^ wFY + fy) < 4 * 2 ^ (wFX + wFY).
Proof. intros. rewrite pow2_add by lia. nia. Qed.

Lemma fxor1_b2z s t : fxor 1 (Z.b2z s) (Z.b2z t) = Z.b2z (xorb s t).
Proof. destruct s, t; reflexivity. Qed.

Lemma cat3 E F fl (s : bool) body : 0 <= E -> 0 <= F -> 0 <= body < 2 ^ (E + F) ->
  cat (E + F) (cat 1 fl (Z.b2z s)) body =
  fl * 2 ^ (E + F + 1) + Z.b2z s * 2 ^ (E + F) + body.
Proof.
  intros HE HF Hb. rewrite !cat_eq; try lia; [|destruct s; cbn; lia].
  rewrite pow2_S by lia. change (2 ^ 1) with 2. ring.
Qed.

(** Residues of a value in a symmetric range. *)
Lemma mod_range_flags T W : 0 <= W -> - (2 * 2 ^ W) <= T < 2 * 2 ^ W ->
  let B := ((T mod 2 ^ (W + 2)) / 2 ^ W) mod 4 in
  ((T < 0 /\ (B = 2 \/ B = 3)) \/ (0 <= T < 2 ^ W /\ B = 0) \/ (2 ^ W <= T /\ B = 1)) /\
  (0 <= T -> (T mod 2 ^ (W + 2)) mod 2 ^ W = T mod 2 ^ W).
Proof.
  intros HW HT. pose proof (pow2_pos W HW) as PW.
  assert (E4 : 2 ^ (W + 2) = 4 * 2 ^ W) by (rewrite pow2_add by lia; change (2 ^ 2) with 4; lia).
  rewrite E4. cbv zeta. split.
  - destruct (Z_lt_ge_dec T 0) as [Hn|Hp].
    + left. split; [assumption|].
      assert (Hm : T mod (4 * 2 ^ W) = T + 4 * 2 ^ W).
      { symmetry. apply (Z.mod_unique_pos _ _ (-1)); lia. }
      rewrite Hm.
      assert (2 <= (T + 4 * 2 ^ W) / 2 ^ W < 4).
      { split; [apply Z.div_le_lower_bound; lia|apply Z.div_lt_upper_bound; lia]. }
      rewrite Z.mod_small by lia. lia.
    + right. rewrite (Z.mod_small T) by lia.
      destruct (Z_lt_ge_dec T (2 ^ W)) as [Hl|Hg].
      * left. rewrite Z.div_small by lia. split; [lia|reflexivity].
      * right. split; [lia|]. replace (T / 2 ^ W) with 1; [reflexivity|].
        apply (Z.div_unique_pos _ _ _ (T - 2 ^ W)); lia.
  - intros Hp. rewrite (Z.mod_small T (4 * _)) by lia. reflexivity.
Qed.

Lemma mod_add_2 a b c : c <> 0 -> (a mod c + b) mod c = (a + b) mod c.
Proof. intros; apply Z.add_mod_idemp_l; assumption. Qed.

Lemma mod_sub_2 a b c : c <> 0 -> (a mod c - b) mod c = (a - b) mod c.
Proof. intros; apply Zminus_mod_idemp_l. Qed.

Lemma mul_scale_mod a W K : 0 <= W -> 0 <= K -> (a mod 2 ^ W) * 2 ^ K = (a * 2 ^ K) mod 2 ^ (W + K).
Proof.
  intros. rewrite pow2_add by lia. rewrite Z.mul_mod_distr_r; try lia; apply Z.pow_nonzero; lia.
Qed.


(** Slices of the normalised product, shifted left to drop its leading one
    (sigProdExt), in terms of the normalised product P itself. *)
Lemma ext_slices FR K P ext :
  1 <= FR -> 1 <= K -> 2 ^ (FR + K) <= P < 2 ^ (FR + K + 1) -> ext = 2 * (P - 2 ^ (FR + K)) ->
  2 ^ FR <= P / 2 ^ K < 2 * 2 ^ FR /\
  (ext / 2 ^ (K + 1)) mod 2 ^ FR = P / 2 ^ K - 2 ^ FR /\
  (ext / 2 ^ K) mod 2 = Z.b2z (Z.odd (P / 2 ^ (K - 1))) /\
  (ext / 2 ^ (K + 1)) mod 2 = Z.b2z (Z.odd (P / 2 ^ K)) /\
  (ext mod 2 ^ K =? 0) = (P mod 2 ^ (K - 1) =? 0).
Proof.
  intros HF HK HP Hext.
  pose proof (pow2_pos FR ltac:(lia)) as PF. pose proof (pow2_pos K ltac:(lia)) as PK.
  rewrite pow2_S in HP by lia.
  assert (Hq : 2 ^ FR <= P / 2 ^ K < 2 * 2 ^ FR).
  { rewrite pow2_add in HP by lia. clear Hext.
    split; [apply Z.div_le_lower_bound; lia|apply Z.div_lt_upper_bound; lia]. }
  assert (Ediv : forall j, 0 <= j <= FR + K -> ext / 2 ^ (j + 1) = P / 2 ^ j - 2 ^ (FR + K - j)).
  { intros j Hj. rewrite Hext, pow2_S by lia. pose proof (pow2_pos j ltac:(lia)).
    rewrite Z.div_mul_cancel_l by lia.
    replace (P - 2 ^ (FR + K)) with (P + - 2 ^ (FR + K - j) * 2 ^ j).
    - rewrite Z.div_add by lia. lia.
    - rewrite Z.mul_opp_l, <- pow2_add by lia. replace (FR + K - j + j) with (FR + K) by lia. lia. }
  assert (Hev : forall j, 1 <= j -> Z.odd (2 ^ j) = false).
  { intros j Hj. replace j with (j - 1 + 1) by lia. rewrite pow2_S by lia.
    rewrite Z.odd_mul. reflexivity. }
  split; [assumption|]. split; [|split; [|split]].
  - rewrite Ediv by lia. replace (FR + K - K) with FR by lia. apply Z.mod_small; lia.
  - replace K with (K - 1 + 1) at 1 by lia. rewrite Ediv by lia. rewrite odd_mod2.
    rewrite Z.odd_sub, Hev by lia. rewrite xorb_false_r. reflexivity.
  - rewrite Ediv by lia. rewrite odd_mod2. rewrite Z.odd_sub, Hev by lia. rewrite xorb_false_r. reflexivity.
  - pose proof (pow2_pos (K - 1) ltac:(lia)) as PK1.
    assert (EK : 2 ^ K = 2 * 2 ^ (K - 1)) by (rewrite <- pow2_S by lia; f_equal; lia).
    rewrite Hext, EK, Z.mul_mod_distr_l by lia.
    replace (P - 2 ^ (FR + K)) with (P + - 2 ^ (FR + 1) * 2 ^ (K - 1)).
    + rewrite Z.mod_add by lia. clear. destruct (Z.eqb_spec (P mod 2 ^ (K - 1)) 0);
      destruct (Z.eqb_spec (2 * (P mod 2 ^ (K - 1))) 0); lia.
    + rewrite Z.mul_opp_l, <- pow2_add by lia. replace (FR + 1 + (K - 1)) with (FR + K) by lia. lia.
Qed.

(** The leading bit of a product of two significands and its normalisation. *)
Lemma norm_prod S p :
  2 <= S -> 2 ^ (S - 2) <= p < 4 * 2 ^ (S - 2) ->
  exists nm P,
    (p / 2 ^ (S - 1)) mod 2 = Z.b2z nm /\ P = (if nm then p else 2 * p) /\
    2 ^ (S - 1) <= P < 2 ^ S /\
    (if nm then p mod 2 ^ (S - 1) * 2 else p mod 2 ^ (S - 2) * 4) = 2 * (P - 2 ^ (S - 1)) /\
    (if nm then p mod 2 ^ (S - 1) * 2 else p mod 2 ^ (S - 2) * 4) < 2 ^ S.
Proof.
  intros HS Hp. pose proof (pow2_pos (S - 2) ltac:(lia)) as PS2.
  assert (ES1 : 2 ^ (S - 1) = 2 * 2 ^ (S - 2)) by (rewrite <- pow2_S by lia; f_equal; lia).
  assert (ES : 2 ^ S = 4 * 2 ^ (S - 2)).
  { replace S with (S - 1 + 1) at 1 by lia. rewrite pow2_S by lia. lia. }
  exists (2 ^ (S - 1) <=? p), (if 2 ^ (S - 1) <=? p then p else 2 * p).
  destruct (Z.leb_spec (2 ^ (S - 1)) p) as [H|H]; cbn [Z.b2z].
  - replace (p / 2 ^ (S - 1)) with 1 by (apply (Z.div_unique_pos _ _ _ (p - 2 ^ (S - 1))); lia).
    replace (p mod 2 ^ (S - 1)) with (p - 2 ^ (S - 1)) by (apply (Z.mod_unique_pos _ _ 1); lia).
    repeat split; lia.
  - rewrite Z.div_small by lia.
    replace (p mod 2 ^ (S - 2)) with (p - 2 ^ (S - 2)) by (apply (Z.mod_unique_pos _ _ 1); lia).
    repeat split; lia.
Qed.

(** lia on the width hypotheses only (fast in a large context). *)
Ltac wl := lazymatch goal with Hw : _ /\ _ /\ _ /\ _ /\ _ |- _ => clear - Hw; lia end.

Lemma exp_sum_mod W ex ey b n : 1 <= W ->
  0 <= n < 2 ->
  fadd W (fsub W (fadd W ex ey) b) (zpad_hi (W - 1) 1 n) = (ex + ey - b + n) mod 2 ^ W.
Proof.
  intros HW Hn. rewrite zpad_hi_eq by lia.
  pose proof (pow2_pos W ltac:(lia)).
  rewrite fadd_eq, fsub_eq, fadd_eq by lia.
  rewrite mod_add_2 by lia.
  replace ((ex + ey) mod 2 ^ W - b + n) with ((ex + ey) mod 2 ^ W + (n - b)) by lia.
  rewrite mod_add_2 by lia. f_equal. lia.
Qed.

Theorem mul_round_correct wE wFR wFX wFY x y :
  2 <= wE -> 1 <= wFX -> 1 <= wFY -> 1 <= wFR < wFX + wFY + 1 ->
  wf (wE + wFX + 3) x -> wf (wE + wFY + 3) y ->
  exists r, mul_v1 wE wFR wE wFX wFY x y = Some r /\ wf (wE + wFR + 3) r /\
    decode wE wFR r = mul_spec wE wFR (decode wE wFX x) (decode wE wFY y).
Proof.
  intros HE HX HY HR Wx Wy.
  destruct (flopoco_fields wE wFX x) as (a & s & ex & fx & Ha & Hex & Hfx & Ex & Mx & Sx & Gx & _ & Fx & _);
    [lia|lia|assumption|].
  destruct (flopoco_fields wE wFY y) as (b & t & ey & fy & Hb & Hey & Hfy & Ey & My & Sy & Gy & _ & Fy & _);
    [lia|lia|assumption|].
  clear Wx Wy.
  assert (HSK : exists S K, S = wFX + 1 + wFY + 1 /\ K = S - 1 - wFR) by (do 2 eexists; split; reflexivity).
  destruct HSK as (S & K & HS & HKe).
  assert (Hw : 2 <= wE /\ 1 <= wFX /\ 1 <= wFY /\ 1 <= wFR /\ S = wFX + 1 + wFY + 1 /\ K = S - 1 - wFR /\ 1 <= K)
    by lia.
  unfold mul_v1. rewrite <- HS.
  rewrite (get_bit_ok (wE + wFX + 3)) by wl. cbn [bind]. rewrite Gx.
  rewrite (get_bit_ok (wE + wFY + 3)) by wl. cbn [bind]. rewrite Gy.
  rewrite fxor1_b2z.
  rewrite (get_bits_w _ _ _ wE) by wl. cbn [bind]. rewrite Sx.
  rewrite (get_bits_w _ _ _ wE) by wl. cbn [bind]. rewrite Sy.
  rewrite !zpad_hi_eq with (W := wE) by lia.
  assert (Hbias : 0 <= 2 ^ (wE - 1) - 1 < 2 ^ (wE + 2)).
  { pose proof (pow2_pos (wE - 1) ltac:(wl)). pose proof (pow2_lt (wE - 1) (wE + 2) ltac:(wl) ltac:(wl)). lia. }
  rewrite of_int_ok by (assumption || wl). cbn [bind].
  rewrite (get_bits_w _ _ _ wFX) by wl. cbn [bind]. rewrite Z.div_1_r, Mx.
  rewrite (get_bits_w _ _ _ wFY) by wl. cbn [bind]. rewrite Z.div_1_r, My.
  rewrite !opad_hi_eq by lia. change (2 ^ 1 - 1) with 1. rewrite !Z.mul_1_l.
  rewrite (get_bits_w _ _ _ 2) by wl. change (2 ^ 2) with 4. cbn [bind]. rewrite Fx.
  rewrite (get_bits_w _ _ _ 2) by wl. change (2 ^ 2) with 4. cbn [bind]. rewrite Fy.
  clear Mx Sx Gx Fx My Sy Gy Fy.
  unfold fmul.
  assert (Hp : 2 ^ (S - 2) <= (2 ^ wFX + fx) * (2 ^ wFY + fy) < 4 * 2 ^ (S - 2)).
  { replace (S - 2) with (wFX + wFY) by wl. apply sig_prod_bounds; lia. }
  destruct (norm_prod S _ ltac:(wl) Hp) as (nm & P & Hnm & HPdef & HP & Hext & Hextb).
  set (p := (2 ^ wFX + fx) * (2 ^ wFY + fy)) in *.
  rewrite (get_bit_ok S) by wl. cbn [bind]. rewrite Hnm.
  destruct (Z.leb_spec (wFX + wFY + 2) (1 + wFR)) as [Hc|_]; [clear - Hc HR; lia|].
  rewrite (get_bits_w _ _ _ (S - 1)) by wl. cbn [bind].
  rewrite (get_bits_w _ _ _ (S - 2)) by wl. cbn [bind].
  rewrite !Z.div_1_r. rewrite select_b2z. unfold zg.
  rewrite !cat_eq with (b := 0) by (cbn; lia). rewrite !Z.add_0_r.
  change (2 ^ 1) with 2. change (2 ^ 2) with 4.
  set (ext := if nm then p mod 2 ^ (S - 1) * 2 else p mod 2 ^ (S - 2) * 4) in *. clearbody ext.
  replace (S - 1) with (wFR + K) in HP, Hext by wl.
  replace S with (wFR + K + 1) in HP by wl.
  destruct (ext_slices wFR K P ext ltac:(wl) ltac:(wl) HP Hext) as (Hq & Htop & Hrb & Hlsb & Hst).
  rewrite (get_bits_w _ _ _ wFR) by wl. cbn [bind].
  replace (S - wFR) with (K + 1) by wl. rewrite Htop.
  replace (wFX + wFY + 1 - wFR) with K by wl.
  rewrite (get_bits_w S (K - 1) 0 K) by wl.
  rewrite !get_bit_ok by wl.
  rewrite Z.div_1_r. rewrite Hrb, Hlsb.
  (* exponent arithmetic *)
  replace (wE + 1) with (wE + 2 - 1) by wl.
  rewrite exp_sum_mod by (try wl; clear; destruct nm; cbn; lia).
  set (X := ex + ey - (2 ^ (wE - 1) - 1) + Z.b2z nm).
  assert (HX' : X = ex + ey - (2 ^ (wE - 1) - 1) + Z.b2z nm) by reflexivity. clearbody X.
  set (q := P / 2 ^ K) in *.
  assert (Hrne : rne_div P (2 ^ K) = q + Z.b2z (Z.odd (P / 2 ^ (K - 1)) &&
       (negb (P mod 2 ^ (K - 1) =? 0) || Z.odd q))).
  { rewrite rne_bits by wl. fold q. clear. destruct (_ && _); reflexivity. }
  assert (Hround : fand (Z.b2z (Z.odd (P / 2 ^ (K - 1))))
            (for_ 1 (fand (if ext mod 2 ^ K =? 0 then 0 else 1) (fnot 1 (Z.b2z (Z.odd q))))
            (Z.b2z (Z.odd q))) = rne_div P (2 ^ K) - q).
  { rewrite Hst, Hrne, Z.add_simpl_l. clear.
    destruct (Z.odd (P / 2 ^ (K - 1))), (P mod 2 ^ (K - 1) =? 0), (Z.odd q); reflexivity. }
  assert (Hmr : q <= rne_div P (2 ^ K) <= q + 1).
  { rewrite Hrne. clear. destruct (_ && _); cbn; lia. }
  clear Hrne. remember (rne_div P (2 ^ K)) as m eqn:HmP.
  rewrite (cat_eq wFR) by (try wl; clear - Hq; lia).
  pose proof (mod_pow_bound X (wE + 2) ltac:(wl)) as BX.
  replace (wE + 2 + wFR) with (2 + wE + wFR) by wl.
  rewrite checked_cast_ok; [|wl|apply (join_bound_w _ _ (wE + 2) wFR); [wl|wl|exact BX|clear - Hq; lia|wl]].
  cbn [bind]. rewrite Hround.
  rewrite (zpad_hi_eq _ 1) by (clear - Hmr; cbn; lia).
  assert (HT : exists T, T = X * 2 ^ wFR + (m - 2 ^ wFR)) by (eexists; reflexivity).
  destruct HT as [T HT].
  assert (HexpSig : fadd (2 + wE + wFR) (X mod 2 ^ (wE + 2) * 2 ^ wFR + (q - 2 ^ wFR)) (m - q)
                    = T mod 2 ^ (wE + wFR + 2)).
  { rewrite fadd_eq by wl. rewrite (mul_scale_mod X) by wl.
    replace (wE + 2 + wFR) with (wE + wFR + 2) by wl.
    replace (2 + wE + wFR) with (wE + wFR + 2) by wl.
    rewrite <- Z.add_assoc, mod_add_2 by (apply Z.pow_nonzero; wl).
    f_equal. rewrite HT. clear. ring. }
  rewrite HexpSig.
  rewrite (get_bits_w _ _ _ 2) by wl. cbn [bind]. change (2 ^ 2) with 4.
  rewrite (get_bits_w _ _ _ (wE + wFR)) by wl. cbn [bind]. rewrite Z.div_1_r.
  set (body := T mod 2 ^ (wE + wFR + 2) mod 2 ^ (wE + wFR)).
  assert (Hbody : 0 <= body < 2 ^ (wE + wFR)) by (apply mod_pow_bound; wl).
  set (B := (T mod 2 ^ (wE + wFR + 2) / 2 ^ (wE + wFR)) mod 4).
  set (fl := if _ || _ || _ then _ else _).
  rewrite cat3 by (assumption || wl).
  assert (Hfl : 0 <= fl < 4).
  { unfold fl. rewrite mul_exc_normal by assumption. clear.
    destruct (_ || _); [destruct (_ && _); [lia|]; destruct (_ || _); [lia|]; destruct (_ || _); [lia|];
      destruct (_ || _); lia|].
    destruct (B =? 0); [lia|]. destruct (B =? 1); [lia|]. destruct (_ || _); lia. }
  eexists. split; [reflexivity|]. split; [apply fields_bound; (assumption || wl)|].
  rewrite Ex, Ey, !decode_fields_ef by (assumption || wl).
  destruct ((a =? 1) && (b =? 1)) eqn:Hab.
  - (* both normal *)
    apply andb_true_iff in Hab. destruct Hab as [Ha1 Hb1].
    apply Z.eqb_eq in Ha1, Hb1. clear Ex Ey. subst a b. cbn [Z.eqb Pos.eqb].
    pose proof (pow2_pos wFR ltac:(wl)) as PR. pose proof (pow2_pos K ltac:(wl)) as PK.
    assert (Hmrange : 2 ^ wFR <= m <= 2 ^ (wFR + 1)).
    { rewrite pow2_S by wl. clear - Hmr Hq. lia. }
    assert (HTr : - (2 * 2 ^ (wE + wFR)) <= T < 2 * 2 ^ (wE + wFR)).
    { rewrite (pow2_add wE wFR) by wl. rewrite pow2_S in Hmrange by wl.
      assert (HXr : - 2 ^ wE <= X <= 2 * 2 ^ wE - 2).
      { assert (E1 : 2 ^ wE = 2 * 2 ^ (wE - 1)) by (rewrite <- pow2_S by wl; f_equal; wl).
        assert (2 <= 2 ^ (wE - 1)) by (change 2 with (2 ^ 1) at 1; apply pow2_le; wl).
        rewrite HX'. clear - Hex Hey E1 H. destruct nm; cbn [Z.b2z]; lia. }
      rewrite HT. clear - HXr Hmrange PR. nia. }
    destruct (mod_range_flags T (wE + wFR) ltac:(wl) HTr) as [HB Hlow]. cbv zeta in HB. fold B in HB.
    unfold mul_spec, mul_gen.
    unfold round_to.
    rewrite (round_range_char _ _ _ _ _ _ _ (X - bias wE - wFR) P (2 ^ K)).
    + rewrite <- HmP. apply pack_decode; try assumption; try wl.
      * rewrite <- HT. intros Hr. unfold body. rewrite Hlow by (clear - Hr; lia). apply Z.mod_small. assumption.
      * rewrite <- HT. unfold fl. rewrite mul_exc_normal by (clear; lia). cbn [andb Z.eqb Pos.eqb orb].
        clear - HB. destruct (Z.ltb_spec T 0), (Z.ltb_spec T (2 ^ (wE + wFR))).
        -- destruct HB as [[_ [->| ->]]|[[? _]|[? _]]]; try lia; reflexivity.
        -- destruct HB as [[_ [->| ->]]|[[? _]|[? _]]]; try lia; reflexivity.
        -- destruct HB as [[? _]|[[_ ->]|[? _]]]; try lia; reflexivity.
        -- destruct HB as [[? _]|[[? _]|[_ ->]]]; try lia; reflexivity.
    + wl.
    + clear - Hp Hw. pose proof (pow2_pos (S - 2) ltac:(wl)). fold p. lia.
    + clear; lia.
    + assumption.
    + (* P / 2^K * 2^X = p * 2^(...) *)
      replace (ex - bias wE - wFX + (ey - bias wE - wFY) - (X - bias wE - wFR))
        with (- (K - 1 + Z.b2z nm)).
      2:{ rewrite HX'. unfold bias. clear - Hw. lia. }
      fold p. unfold num2, den2. rewrite HPdef.
      destruct nm; cbn [Z.b2z].
      * rewrite (Z.max_l 0 (- (K - 1 + 1))), Z.max_r by wl. replace (- - (K - 1 + 1)) with K by wl. clear; ring.
      * rewrite (Z.max_l 0 (- (K - 1 + 0))), Z.max_r by wl. replace (- - (K - 1 + 0)) with (K - 1) by wl.
        replace K with (K - 1 + 1) at 2 by wl. rewrite pow2_S by wl. clear; ring.
    + rewrite pow2_add in HP by wl. rewrite (pow2_S (wFR + K)), pow2_add in HP by wl. rewrite pow2_S by wl.
      clear - HP; lia.
  - apply mul_special; try assumption; try wl.
    unfold fl. rewrite mul_exc_normal by assumption. rewrite Hab. clear - Ha Hb Hab.
    assert (a = 0 \/ a = 1 \/ a = 2 \/ a = 3) as [->|[->|[->| ->]]] by lia;
    assert (b = 0 \/ b = 1 \/ b = 2 \/ b = 3) as [->|[->|[->| ->]]] by lia;
    try discriminate Hab; reflexivity.
Qed.

(** Exact path (wFR >= wFX+wFY+1): the product is exact, but an underflowing exponent
    is flagged NaN (line 112-115: codes 11 and 10 of the exponent select flags 11). *)
Theorem mul_exact_char wE wFR wFX wFY x y :
  2 <= wE -> 1 <= wFX -> 1 <= wFY -> wFX + wFY + 1 <= wFR ->
  wf (wE + wFX + 3) x -> wf (wE + wFY + 3) y ->
  exists r, mul_v1 wE wFR wE wFX wFY x y = Some r /\ wf (wE + wFR + 3) r /\
    decode wE wFR r =
    match decode wE wFX x, decode wE wFY y, mul_spec wE wFR (decode wE wFX x) (decode wE wFY y) with
    | Num _ _ _, Num _ _ _, Zero _ => NaN
    | _, _, v => v
    end.
Proof.
  intros HE HX HY HR Wx Wy.
  destruct (flopoco_fields wE wFX x) as (a & s & ex & fx & Ha & Hex & Hfx & Ex & Mx & Sx & Gx & _ & Fx & _);
    [lia|lia|assumption|].
  destruct (flopoco_fields wE wFY y) as (b & t & ey & fy & Hb & Hey & Hfy & Ey & My & Sy & Gy & _ & Fy & _);
    [lia|lia|assumption|].
  clear Wx Wy.
  assert (HSK : exists S D, S = wFX + 1 + wFY + 1 /\ D = wFR + 1 - S) by (do 2 eexists; split; reflexivity).
  destruct HSK as (S & D & HS & HD).
  assert (Hw : 2 <= wE /\ 1 <= wFX /\ 1 <= wFY /\ 1 <= wFR /\ S = wFX + 1 + wFY + 1 /\ D = wFR + 1 - S /\ 0 <= D)
    by lia.
  unfold mul_v1. rewrite <- HS.
  rewrite (get_bit_ok (wE + wFX + 3)) by wl. cbn [bind]. rewrite Gx.
  rewrite (get_bit_ok (wE + wFY + 3)) by wl. cbn [bind]. rewrite Gy.
  rewrite fxor1_b2z.
  rewrite (get_bits_w _ _ _ wE) by wl. cbn [bind]. rewrite Sx.
  rewrite (get_bits_w _ _ _ wE) by wl. cbn [bind]. rewrite Sy.
  rewrite !zpad_hi_eq with (W := wE) by lia.
  assert (Hbias : 0 <= 2 ^ (wE - 1) - 1 < 2 ^ (wE + 2)).
  { pose proof (pow2_pos (wE - 1) ltac:(wl)). pose proof (pow2_lt (wE - 1) (wE + 2) ltac:(wl) ltac:(wl)). lia. }
  rewrite of_int_ok by (assumption || wl). cbn [bind].
  rewrite (get_bits_w _ _ _ wFX) by wl. cbn [bind]. rewrite Z.div_1_r, Mx.
  rewrite (get_bits_w _ _ _ wFY) by wl. cbn [bind]. rewrite Z.div_1_r, My.
  rewrite !opad_hi_eq by lia. change (2 ^ 1 - 1) with 1. rewrite !Z.mul_1_l.
  rewrite (get_bits_w _ _ _ 2) by wl. change (2 ^ 2) with 4. cbn [bind]. rewrite Fx.
  rewrite (get_bits_w _ _ _ 2) by wl. change (2 ^ 2) with 4. cbn [bind]. rewrite Fy.
  clear Mx Sx Gx Fx My Sy Gy Fy.
  unfold fmul.
  assert (Hp : 2 ^ (S - 2) <= (2 ^ wFX + fx) * (2 ^ wFY + fy) < 4 * 2 ^ (S - 2)).
  { replace (S - 2) with (wFX + wFY) by wl. apply sig_prod_bounds; lia. }
  destruct (norm_prod S _ ltac:(wl) Hp) as (nm & P & Hnm & HPdef & HP & Hext & _).
  set (p := (2 ^ wFX + fx) * (2 ^ wFY + fy)) in *.
  rewrite (get_bit_ok S) by wl. cbn [bind]. rewrite Hnm.
  destruct (Z.leb_spec (wFX + wFY + 2) (1 + wFR)) as [_|Hc]; [|clear - Hc HR; lia].
  rewrite (get_bits_w _ _ _ (S - 1)) by wl. cbn [bind].
  rewrite (get_bits_w _ _ _ (S - 2)) by wl. cbn [bind].
  rewrite !Z.div_1_r. rewrite select_b2z. unfold zg.
  replace (1 + wFR - (wFX + wFY + 2)) with D by wl.
  assert (PD : 0 < 2 ^ D) by (apply pow2_pos; wl).
  rewrite !cat_eq with (b := 0) by (try wl; try (split; [lia|apply pow2_pos; wl])). rewrite !Z.add_0_r.
  assert (Hres : (if nm then p mod 2 ^ (S - 1) * 2 ^ D else p mod 2 ^ (S - 2) * 2 ^ (D + 1)) =
                 P * 2 ^ D - 2 ^ wFR).
  { replace wFR with (S - 1 + D) by wl. rewrite (pow2_add (S - 1)), pow2_S by wl. clear - Hext.
    destruct nm; nia. }
  rewrite Hres. clear Hres.
  replace (wE + 1) with (wE + 2 - 1) by wl.
  rewrite exp_sum_mod by (try wl; clear; destruct nm; cbn; lia).
  remember (ex + ey - (2 ^ (wE - 1) - 1) + Z.b2z nm) as X eqn:HX'.
  replace (wE + 2 - 1) with (wE + 1) by wl.
  rewrite (get_bits_w _ _ _ 2) by wl. cbn [bind]. change (2 ^ 2) with 4.
  rewrite (get_bits_w _ _ _ wE) by wl. cbn [bind]. rewrite Z.div_1_r.
  set (B := (X mod 2 ^ (wE + 2) / 2 ^ wE) mod 4).
  set (fl := if _ || _ || _ then _ else _).
  pose proof (pow2_pos wFR ltac:(wl)) as PR. pose proof (pow2_pos wE ltac:(wl)) as PE.
  assert (HPr : 2 ^ wFR <= P * 2 ^ D < 2 ^ (wFR + 1)).
  { rewrite pow2_S by wl. replace wFR with (S - 1 + D) by wl. rewrite (pow2_add (S - 1)) by wl.
    assert (E : 2 ^ S = 2 * 2 ^ (S - 1)) by (rewrite <- pow2_S by wl; f_equal; wl).
    clear - HP PD E. nia. }
  assert (Hm0 : 0 <= P * 2 ^ D - 2 ^ wFR < 2 ^ wFR).
  { rewrite pow2_S in HPr by wl. clear - HPr. lia. }
  rewrite (cat_eq wFR) by (assumption || wl).
  set (ee := X mod 2 ^ (wE + 2) mod 2 ^ wE).
  assert (Hee : 0 <= ee < 2 ^ wE) by (apply mod_pow_bound; wl).
  set (body := ee * 2 ^ wFR + _).
  assert (Hbody : 0 <= body < 2 ^ (wE + wFR)) by (apply join_bound; (assumption || wl)).
  rewrite cat3 by (assumption || wl).
  assert (Hfl : 0 <= fl < 4).
  { unfold fl. rewrite mul_exc_normal by assumption. clear.
    destruct (_ || _); [destruct (_ && _); [lia|]; destruct (_ || _); [lia|]; destruct (_ || _); [lia|];
      destruct (_ || _); lia|].
    destruct (B =? 0); [lia|]. destruct (B =? 1); [lia|]. destruct (_ || _); lia. }
  eexists. split; [reflexivity|]. split; [apply fields_bound; (assumption || wl)|].
  rewrite Ex, Ey, !decode_fields_ef with (E := wE) by (assumption || wl).
  destruct ((a =? 1) && (b =? 1)) eqn:Hab.
  - apply andb_true_iff in Hab. destruct Hab as [Ha1 Hb1].
    apply Z.eqb_eq in Ha1, Hb1. clear Ex Ey. subst a b. cbn [Z.eqb Pos.eqb].
    assert (HXr : - (2 * 2 ^ wE) <= X < 2 * 2 ^ wE).
    { assert (E1 : 2 ^ wE = 2 * 2 ^ (wE - 1)) by (rewrite <- pow2_S by wl; f_equal; wl).
      assert (2 <= 2 ^ (wE - 1)) by (change 2 with (2 ^ 1) at 1; apply pow2_le; wl).
      rewrite HX'. clear - Hex Hey E1 H. destruct nm; cbn [Z.b2z]; lia. }
    destruct (mod_range_flags X wE ltac:(wl) HXr) as [HB Hlow]. cbv zeta in HB. fold B in HB. fold ee in Hlow.
    unfold mul_spec, mul_gen. unfold round_to.
    rewrite (round_range_char _ _ _ _ _ _ _ (X - bias wE - wFR) (P * 2 ^ D) 1).
    + rewrite rne_div_1.
      assert (Hm1 : 2 ^ wFR <= P * 2 ^ D <= 2 ^ (wFR + 1)) by (clear - HPr; lia).
      pose proof (finish_norm wE wFR (xorb s t) (P * 2 ^ D) X ltac:(wl) ltac:(wl) Hm1) as Hfin.
      cbv zeta in Hfin. rewrite Hfin. clear Hfin.
      remember (X * 2 ^ wFR + (P * 2 ^ D - 2 ^ wFR)) as T eqn:HT.
      assert (HTX : (T <? 0) = (X <? 0) /\ (T <? 2 ^ (wE + wFR)) = (X <? 2 ^ wE)).
      { rewrite (pow2_add wE) by wl. rewrite HT. clear - Hm0 PR PE.
        split; [destruct (Z.ltb_spec X 0)|destruct (Z.ltb_spec X (2 ^ wE))]; apply Z.ltb_lt || apply Z.ltb_ge; nia. }
      destruct HTX as [-> ->].
      rewrite decode_fields by (assumption || wl).
      unfold fl. rewrite mul_exc_normal by (clear; lia). cbn [andb Z.eqb Pos.eqb orb].
      destruct (Z.ltb_spec X 0) as [HX0|HX0].
      * destruct HB as [[_ [->| ->]]|[[HB _]|[HB _]]]; try reflexivity; clear - HB HX0 PE; lia.
      * destruct (Z.ltb_spec X (2 ^ wE)) as [HX1|HX1].
        -- destruct HB as [[HB _]|[[_ ->]|[HB _]]]; try (clear - HB HX0 HX1; lia).
           cbn [Z.eqb Pos.eqb]. rewrite HT. unfold body.
           rewrite !join_div, !join_mod by (assumption || wl).
           rewrite Hlow, Z.mod_small by (clear - HX0 HX1; lia). reflexivity.
        -- destruct HB as [[HB _]|[[HB _]|[_ ->]]]; try (clear - HB HX0 HX1; lia). reflexivity.
    + wl.
    + clear - Hp Hw. pose proof (pow2_pos (S - 2) ltac:(wl)). fold p. lia.
    + clear; lia.
    + clear; lia.
    + replace (ex - bias wE - wFX + (ey - bias wE - wFY) - (X - bias wE - wFR))
        with (D + 1 - Z.b2z nm).
      2:{ rewrite HX'. unfold bias. clear - Hw. lia. }
      fold p. unfold num2, den2. rewrite HPdef.
      destruct nm; cbn [Z.b2z].
      * rewrite (Z.max_r 0 (D + 1 - 1)), (Z.max_l 0 (- _)) by wl.
        replace (D + 1 - 1) with D by wl. clear; ring.
      * rewrite (Z.max_r 0 (D + 1 - 0)), (Z.max_l 0 (- _)) by wl.
        rewrite Z.sub_0_r, pow2_S by wl. clear; ring.
    + clear - HPr; lia.
  - match goal with |- _ = ?R => replace R with (mul_spec wE wFR
      (if a =? 0 then Zero s else if a =? 1 then Num s (2 ^ wFX + fx) (ex - bias wE - wFX)
       else if a =? 2 then Inf s else NaN)
      (if b =? 0 then Zero t else if b =? 1 then Num t (2 ^ wFY + fy) (ey - bias wE - wFY)
       else if b =? 2 then Inf t else NaN)) end.
    + apply mul_special; try assumption; try wl.
      unfold fl. rewrite mul_exc_normal by assumption. rewrite Hab. clear - Ha Hb Hab.
      assert (a = 0 \/ a = 1 \/ a = 2 \/ a = 3) as [->|[->|[->| ->]]] by lia;
      assert (b = 0 \/ b = 1 \/ b = 2 \/ b = 3) as [->|[->|[->| ->]]] by lia;
      try discriminate Hab; reflexivity.
    + clear - Ha Hb Hab.
      assert (a = 0 \/ a = 1 \/ a = 2 \/ a = 3) as [->|[->|[->| ->]]] by lia;
      assert (b = 0 \/ b = 1 \/ b = 2 \/ b = 3) as [->|[->|[->| ->]]] by lia;
      try discriminate Hab; reflexivity.
Qed.
