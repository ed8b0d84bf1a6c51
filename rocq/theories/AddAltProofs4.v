(** add_single_v4: the alignment clamp, the whole function and its theorem. *)
From Coq Require Import ZArith Lia Bool List.
From Verif Require Import Fw Spec SpecV4 Flopoco AddSingle AddSingleAlt FwLemmas SpecLemmas ValueLemmas FlopocoLemmas AddLemmas MulProofs AddSingleProofs AddSingleProofs2 AddSingleProofs3 AddAltProofs3.
Open Scope Z_scope.

Lemma even_pred P : Z.even (2 * P - 1) = false.
Proof. replace (2 * P - 1) with (1 + 2 * (P - 1)) by ring. rewrite Z.even_add_mul_2. reflexivity. Qed.

Lemma tail4_clamped wE wF s t e M N d :
  1 <= wE -> 1 <= wF -> wF + 3 < 2 ^ wE -> 0 <= e < 2 ^ wE -> d = wF + 2 ->
  2 ^ wF <= M < 2 * 2 ^ wF -> 2 ^ wF <= N < 2 * 2 ^ wF ->
  let V := if xorb s t then M * 2 ^ d - N else M * 2 ^ d + N in
  exists r, add_tail4 wE wF 1 (Z.b2z s) 1 (Z.b2z t) e (if xorb s t then 8 * M - 1 else 8 * M + 1) = Some r /\
    wf (wE + wF + 3) r /\ decode wE wF r = skew_to wE wF s V 1 (e - d - bias wE - wF).
Proof.
  intros HE HF HEF He Hd HM HN V. pose proof (pow2_pos wF ltac:(lia)) as PF.
  assert (E1 : 2 ^ (wF + 1) = 2 * 2 ^ wF) by (apply pow2_S; lia).
  assert (E2 : 2 ^ d = 4 * 2 ^ wF) by (apply (pow2_shift 2); [reflexivity|lia|lia]).
  assert (E4 : 2 ^ (wF + 4) = 16 * 2 ^ wF) by (apply (pow2_shift 4); [reflexivity|lia|lia]).
  assert (E5 : 2 ^ (wF + 5) = 32 * 2 ^ wF) by (apply (pow2_shift 5); [reflexivity|lia|lia]).
  destruct (tail4_num wE wF s 1 t e (if xorb s t then 8 * M - 1 else 8 * M + 1) HE HF HEF He ltac:(auto)) as (r & c & T1 & T2 & T3 & T4 & T5).
  { destruct (xorb s t); lia. }
  exists r. split; [exact T1|]. split; [exact T2|]. rewrite T5. clear T5 T1 T2.
  assert (Hc : forall G n, 0 <= n -> 16 * 2 ^ wF <= G * 2 ^ n < 32 * 2 ^ wF -> 16 * 2 ^ wF <= G * 2 ^ c < 32 * 2 ^ wF -> c = n).
  { clear - T3 PF. intros G n Hn A B. destruct (Z.lt_trichotomy c n) as [H|[H|H]]; [exfalso|exact H|exfalso].
    - replace n with (n - c - 1 + 1 + c) in A by lia. rewrite (pow2_add (n - c - 1 + 1)), pow2_S in A by lia. pose proof (pow2_pos (n - c - 1) ltac:(lia)). nia.
    - replace c with (c - n - 1 + 1 + n) in B by lia. rewrite (pow2_add (c - n - 1 + 1)), pow2_S in B by lia. pose proof (pow2_pos (c - n - 1) ltac:(lia)). nia. }
  rewrite E4, E5 in T4.
  destruct (Z.eq_dec M (2 ^ wF)) as [HM2|HM2]; destruct (xorb s t) eqn:Hx.
  - assert (c = 2) by (apply (Hc (8 * M - 1)); [lia|change (2 ^ 2) with 4; lia|exact T4]). subst c.
    change (2 ^ 2) with 4. rewrite (skew_div_unique ((8 * M - 1) * 4) 16 (2 * M - 1)) by lia.
    symmetry. replace (e + 1 - 2 - bias wE - wF) with (e - d - bias wE - wF + d + 1 - 2) by ring.
    unfold V. clear - HF HM HM2 HN E1 E2 Hd PF. remember (2 ^ wF) as P. rewrite E2. apply skew_to_norm; rewrite ?E1, ?E2, <- ?HeqP; change (2 ^ 2) with 4; try lia; try nia.
    symmetry. apply skew_div_unique; [lia|nia|]. right. apply even_pred.
  - assert (c = 1) by (apply (Hc (8 * M + 1)); [lia|change (2 ^ 1) with 2; lia|exact T4]). subst c.
    change (2 ^ 1) with 2. rewrite (skew_div_unique ((8 * M + 1) * 2) 16 M) by lia.
    symmetry. replace (e + 1 - 1 - bias wE - wF) with (e - d - bias wE - wF + d + 1 - 1) by ring.
    unfold V. clear - HF HM HM2 HN E1 E2 Hd PF. remember (2 ^ wF) as P. rewrite E2. apply skew_to_norm; rewrite ?E1, ?E2, <- ?HeqP; change (2 ^ 1) with 2; try lia; try nia.
    symmetry. apply skew_div_unique; lia.
  - assert (c = 1) by (apply (Hc (8 * M - 1)); [lia|change (2 ^ 1) with 2; lia|exact T4]). subst c.
    change (2 ^ 1) with 2. rewrite (skew_div_unique ((8 * M - 1) * 2) 16 (M - 1)) by lia.
    symmetry. replace (e + 1 - 1 - bias wE - wF) with (e - d - bias wE - wF + d + 1 - 1) by ring.
    unfold V. clear - HF HM HM2 HN E1 E2 Hd PF. remember (2 ^ wF) as P. rewrite E2. apply skew_to_norm; rewrite ?E1, ?E2, <- ?HeqP; change (2 ^ 1) with 2; try lia; try nia.
    symmetry. apply skew_div_unique; lia.
  - assert (c = 1) by (apply (Hc (8 * M + 1)); [lia|change (2 ^ 1) with 2; lia|exact T4]). subst c.
    change (2 ^ 1) with 2. rewrite (skew_div_unique ((8 * M + 1) * 2) 16 M) by lia.
    symmetry. replace (e + 1 - 1 - bias wE - wF) with (e - d - bias wE - wF + d + 1 - 1) by ring.
    unfold V. clear - HF HM HM2 HN E1 E2 Hd PF. remember (2 ^ wF) as P. rewrite E2. apply skew_to_norm; rewrite ?E1, ?E2, <- ?HeqP; change (2 ^ 1) with 2; try lia; try nia.
    symmetry. apply skew_div_unique; lia.
Qed.

Definition add_final4 (wE wF sXsYExnXY signX EffSub eqdiffsign RoundedExpFrac : Z) : Z :=
  let excRt := excRt_lut sXsYExnXY in
  let signR := select (for_ 1 (feq sXsYExnXY 32) (feq sXsYExnXY 16)) (zg 1) signX in
  let upExc := bits (wE + wF + 2) (wE + wF + 1) RoundedExpFrac in
  let fracR := bits wF 1 RoundedExpFrac in
  let expR := bits (wF + wE) (wF + 1) RoundedExpFrac in
  let excRt2 := excRt2_lut (cat 2 upExc excRt) in
  let excR := select (feq (cat 2 (cat 1 eqdiffsign EffSub) excRt2) 13) (zg 2) excRt2 in
  let signR2 := fand (fne (cat 2 (cat 1 eqdiffsign EffSub) excR) 12) signR in
  cat wF (cat wE (cat 1 excR signR2) expR) fracR.

Definition add_core4 (wE wF excX signX expX fracX excY signY expY fracYf : Z) : option Z :=
  let EffSub := fxor 1 signX signY in
  let sXsYExnXY := cat 2 (cat 2 (cat 1 signX signY) excX) excY in
  let fracY := select (feq excY 0) (zg (wF + 1)) (opad_hi 1 wF fracYf) in
  let expDiff := fsub (wE + 1) (zpad_hi 1 wE expX) (zpad_hi 1 wE expY) in
  do shiftVal <- add_shiftVal wE wF expDiff;
  do sh <- to_int shiftVal;
  do _ <- assert_ (sh <? wF + 4);
  do fracGRS <- add_grs wF fracX fracY EffSub sh;
  let wC := intlog2 (wF + 5) in
  do lz <- lzoc (wF + 5) (Z.to_nat wC) fracGRS;
  let '(shiftedFrac, nZerosNew) := lz in
  Some (add_final4 wE wF sXsYExnXY signX EffSub (feq nZerosNew (og wC)) (add_round4 wE wF expX shiftedFrac nZerosNew)).

Definition core4_of (wE wF X Y : Z) : option Z :=
  add_core4 wE wF (get_flags wE wF X) (get_sign wE wF X) (get_exp wE wF X) (get_frac wE wF X)
    (get_flags wE wF Y) (get_sign wE wF Y) (get_exp wE wF Y) (get_frac wE wF Y).

Lemma body4_core wE wF X Y :
  add_single_body_v4 wE wF X Y =
  if get_flags_exp_frac wE wF X <? get_flags_exp_frac wE wF Y then core4_of wE wF Y X else core4_of wE wF X Y.
Proof.
  unfold add_single_body_v4, core4_of, add_core4, add_grs, add_shiftVal.
  unfold get_flags_exp_frac, get_flags, get_exp_frac, get_sign, get_exp, get_frac, flt.
  destruct (cat _ _ _ <? cat _ _ _); cbn [Z.b2z feq Z.eqb Pos.eqb select to_bool];
  (apply bind_ext; [reflexivity|intros sv]); (apply bind_ext; [reflexivity|intros sh]);
  (apply bind_ext; [reflexivity|intros _]); rewrite bind_assoc; (apply bind_ext; [reflexivity|intros p]); reflexivity.
Qed.

Lemma final4_eq wE wF code (s sub eqd : bool) R :
  add_final4 wE wF code (Z.b2z s) (Z.b2z sub) (Z.b2z eqd) R = add_final wE wF code (Z.b2z s) (Z.b2z sub) (Z.b2z eqd) R.
Proof.
  unfold add_final4, add_final. cbv zeta.
  assert (H4 : forall i, excRt2_lut i = 0 \/ excRt2_lut i = 1 \/ excRt2_lut i = 2 \/ excRt2_lut i = 3).
  { intros i. destruct i as [|p|p]; [cbn; auto| |cbn; auto]. do 4 (destruct p as [p|p|]; try (cbn; auto; fail)). }
  destruct (H4 (cat 2 (bits (wE + wF + 2) (wE + wF + 1) R) (excRt_lut code))) as [-> |[-> |[-> | ->]]];
  assert (HS : select (for_ 1 (feq code 32) (feq code 16)) (zg 1) (Z.b2z s) = 0 \/ select (for_ 1 (feq code 32) (feq code 16)) (zg 1) (Z.b2z s) = 1) by (unfold select; destruct (to_bool _); [left; reflexivity|destruct s; auto]);
  destruct HS as [-> | ->]; destruct sub, eqd; reflexivity.
Qed.

Lemma shiftVal_wide wE wF ed :
  1 <= wF -> 1 <= wE -> 2 * (wF + 3) < 2 ^ wE -> 0 <= ed < 2 ^ (wE + 1) ->
  exists k, add_shiftVal wE wF ed = Some k /\ ((k = ed /\ ed < wF + 2) \/ (k = wF + 3 /\ wF + 2 <= ed)).
Proof.
  intros HF HE HW Hed. unfold add_shiftVal. destruct (intlog2_spec (wF + 3) ltac:(lia)) as (S1 & S2 & S3).
  remember (intlog2 (wF + 3)) as s.
  assert (Es : 2 ^ s = 2 * 2 ^ (s - 1)) by (rewrite <- pow2_S by lia; f_equal; lia).
  destruct (Z.ltb_spec s wE) as [Hlt|Hge]; [|exfalso; pose proof (pow2_le wE s Hge); lia].
  rewrite (get_bits_w (wE + 1) (s - 1) 0 s) by lia. cbn [bind]. rewrite Z.pow_0_r, Z.div_1_r.
  rewrite of_int_ok by lia. cbn [bind].
  unfold fge. destruct (Z.leb_spec (wF + 2) ed) as [Hbig|Hsm].
  + cbn [Z.b2z feq Z.eqb Pos.eqb select to_bool]. rewrite checked_cast_ok by lia.
    exists (wF + 3). split; [reflexivity|]. right. lia.
  + cbn [Z.b2z feq Z.eqb Pos.eqb select to_bool]. rewrite Z.mod_small by lia. rewrite checked_cast_ok by lia.
    exists ed. split; [reflexivity|]. left. lia.
Qed.

Lemma core4_tail wE wF a s e f b t g h :
  okf wE wF a e f -> okf wE wF b g h -> 2 * (wF + 3) < 2 ^ wE -> 2 * wF + 4 < 2 ^ 31 ->
  let M := 2 ^ wF + f in let N := if b =? 0 then 0 else 2 ^ wF + h in
  exists k, 0 <= k <= 2 * wF + 3 /\
    (g <= e -> (k = e - g /\ (2 * (wF + 3) < 2 ^ wE -> e - g < wF + 2)) \/ (k = wF + 3 /\ wF + 2 <= e - g /\ 2 * (wF + 3) < 2 ^ wE)) /\
    let q := 4 * N / 2 ^ k in let st := Z.b2z (negb ((4 * N) mod 2 ^ k =? 0)) in
    core4_of wE wF (pack wE wF a s e f) (pack wE wF b t g h) =
    add_tail4 wE wF a (Z.b2z s) b (Z.b2z t) e (2 * (if xorb s t then (4 * M - q - st) mod 2 ^ (wF + 4) else 4 * M + q) + st).
Proof.
  intros HX HY HW H31 M N. unfold core4_of.
  rewrite !get_flags_pack, !get_sign_pack, !get_exp_pack, !get_frac_pack by assumption.
  destruct HX as (HE & HF & Ha & He & Hf). destruct HY as (_ & _ & Hb & Hg & Hh). unfold add_core4.
  rewrite !zpad_hi_eq by lia. rewrite fsub_eq by lia. pose proof (pow2_pos wE ltac:(lia)) as PE.
  assert (E1 : 2 ^ (wE + 1) = 2 * 2 ^ wE) by (apply pow2_S; lia).
  pose proof (mod_pow_bound (e - g) (wE + 1) ltac:(lia)) as HB.
  destruct (shiftVal_wide wE wF ((e - g) mod 2 ^ (wE + 1)) HF HE HW HB) as (k & K1 & K3).
  exists k. assert (K2 : 0 <= k <= wF + 3) by lia. split; [lia|]. split.
  { intros Hge. rewrite Z.mod_small in K3 by lia. lia. }
  rewrite K1. cbn [bind]. rewrite to_int_ok by lia. cbn [bind].
  replace (k <? wF + 4) with true by (symmetry; apply Z.ltb_lt; lia). cbn [assert_ bind]. rewrite fxor_b2z.
  assert (HN : (select (feq b 0) (zg (wF + 1)) (opad_hi 1 wF h)) = N).
  { unfold N, feq. rewrite select_b2z. destruct (b =? 0); [reflexivity|]. rewrite opad_hi_eq by lia. 
    change (2 ^ 1) with 2. ring. }
  rewrite HN. pose proof (pow2_pos wF ltac:(lia)) as PF. assert (EF : 2 ^ (wF + 1) = 2 * 2 ^ wF) by (apply pow2_S; lia).
  rewrite (grs_ok wF f N (xorb s t) k HF Hf ltac:(lia)) by (unfold N; destruct (b =? 0); lia).
  cbn [bind]. unfold add_tail4. rewrite fxor_b2z.
  apply bind_ext; [reflexivity|]. intros [S c]. f_equal. unfold feq. apply final4_eq.
Qed.

Lemma add_num_skew wE wF s t M N x y : y <= x -> 0 <= M -> 0 <= N ->
  let V := if xorb s t then M * 2 ^ (x - y) - N else M * 2 ^ (x - y) + N in 0 <= V ->
  add_skew wE wF (Num s M x) (Num t N y) = if V =? 0 then Zero false else skew_to wE wF s V 1 y.
Proof.
  intros Hxy HM HN V HV. unfold add_skew, add_gen. rewrite Z.min_r by lia. rewrite Z.sub_diag, Z.pow_0_r, Z.mul_1_r.
  assert (HS : sgn s (M * 2 ^ (x - y)) + sgn t N = sgn s V) by (unfold V; destruct s, t; cbn [sgn xorb]; lia).
  rewrite HS. destruct (Z.eqb_spec V 0) as [->|Hn].
  - destruct s; reflexivity.
  - destruct s; cbn [sgn].
    + destruct (Z.eqb_spec (- V) 0); [lia|]. destruct (Z.ltb_spec (- V) 0); [|lia]. rewrite Z.abs_opp, Z.abs_eq by lia. reflexivity.
    + destruct (Z.eqb_spec V 0); [lia|]. destruct (Z.ltb_spec V 0); [lia|]. rewrite Z.abs_eq by lia. reflexivity.
Qed.

Lemma core4_correct wE wF a s e f b t g h :
  okf wE wF a e f -> okf wE wF b g h -> 2 * (wF + 3) < 2 ^ wE -> 2 * wF + 4 < 2 ^ 31 ->
  b * 2 ^ (wE + wF) + (g * 2 ^ wF + h) <= a * 2 ^ (wE + wF) + (e * 2 ^ wF + f) ->
  let X := pack wE wF a s e f in let Y := pack wE wF b t g h in
  exists r, core4_of wE wF X Y = Some r /\ wf (wE + wF + 3) r /\
    decode wE wF r = add_skew wE wF (decode wE wF X) (decode wE wF Y).
Proof.
  intros HX HY HW H31 Hord X Y. unfold X, Y. clear X Y. rewrite !decode_pack by assumption.
  destruct (core4_tail wE wF a s e f b t g h HX HY HW H31) as (k & K1 & K2 & K3). cbv zeta in K3. rewrite K3. clear K3.
  assert (H1 : wF + 3 < 2 ^ wE) by (destruct HX as (? & ? & _); lia).
  destruct HX as (HE & HF & Ha & He & Hf). destruct HY as (_ & _ & Hb & Hg & Hh).
  pose proof (body_bound wE wF e f ltac:(lia) ltac:(lia) He Hf) as Be.
  pose proof (body_bound wE wF g h ltac:(lia) ltac:(lia) Hg Hh) as Bg.
  assert (Hba : b <= a) by (remember (2 ^ (wE + wF)) as P; clear - Hord Be Bg; nia). assert (Heg : a = b -> g * 2 ^ wF + h <= e * 2 ^ wF + f) by (intros ->; lia). clear Hord.
  pose proof (pow2_pos wF ltac:(lia)) as PF. pose proof (pow2_pos k ltac:(lia)) as PK.
  assert (E4 : 2 ^ (wF + 4) = 16 * 2 ^ wF) by (apply (pow2_shift 4); [reflexivity|lia|lia]).
  assert (E5 : 2 ^ (wF + 5) = 32 * 2 ^ wF) by (apply (pow2_shift 5); [reflexivity|lia|lia]).
  remember (2 ^ wF + f) as M eqn:EM. remember (if b =? 0 then 0 else 2 ^ wF + h) as N eqn:EN.
  assert (HN : 0 <= N < 2 * 2 ^ wF) by (rewrite EN; destruct (b =? 0); lia).
  assert (Hq : 0 <= 4 * N / 2 ^ k <= 4 * N).
  { split; [apply Z.div_pos; lia|]. apply Z.div_le_upper_bound; [lia|]. nia. }
  destruct (Z.eq_dec a 1) as [->|Ha1].
  - cbn [Z.eqb Pos.eqb]. assert (Hb01 : b = 0 \/ b = 1) by lia. destruct Hb01 as [-> | ->]; cbn [Z.eqb Pos.eqb] in *.
    + (* Y zero *)
      subst N. rewrite Z.mul_0_r, Z.div_0_l, Z.mod_0_l by lia. cbn [Z.eqb negb Z.b2z].
      destruct (tail4_rounds wE wF s 0 t e M 0 HE HF H1 He ltac:(auto) ltac:(lia)) as (r & T1 & T2 & T3).
      { rewrite Z.pow_0_r. lia. } { rewrite Z.pow_0_r, Z.mod_1_r. lia. }
      exists r. split; [|split; [exact T2|]].
      * rewrite <- T1. f_equal. unfold sticky_form. rewrite Z.pow_0_r, Z.div_1_r, Z.mod_1_r. cbn [Z.eqb negb Z.b2z].
        rewrite !Z.sub_0_r, !Z.add_0_r. rewrite Z.mod_small by lia. destruct (xorb s t); reflexivity.
      * rewrite T3. rewrite Z.sub_0_r. reflexivity.
    + specialize (Heg eq_refl). assert (Hge : g <= e) by (remember (2 ^ wF) as P; clear - Heg Hf Hh PF; nia). specialize (K2 Hge).
      assert (HM2 : 2 ^ wF <= M < 2 * 2 ^ wF) by lia. assert (HN2 : 2 ^ wF <= N < 2 * 2 ^ wF) by lia.
      assert (HNM : e - g = 0 -> N <= M) by (intros; assert (e = g) by lia; subst; lia).
      assert (HV : 0 <= if xorb s t then M * 2 ^ (e - g) - N else M * 2 ^ (e - g) + N).
      { destruct (Z.eq_dec (e - g) 0) as [Hn|Hn].
        - specialize (HNM Hn). rewrite Hn, Z.pow_0_r. destruct (xorb s t); lia.
        - pose proof (pow2_le 1 (e - g) ltac:(lia)) as H. change (2 ^ 1) with 2 in H. remember (2 ^ (e - g)) as D. clear - H HM2 HN2 PF. destruct (xorb s t); nia. }
      pose proof (tail4_sum wE wF s t e M N (e - g) HE HF H1 He ltac:(lia) HM2 HN2 HNM) as HT. cbv zeta in HT.
      rewrite <- grs_sticky in HT by lia.
      assert (Hspec : add_skew wE wF (Num s M (e - bias wE - wF)) (Num t N (g - bias wE - wF)) =
        if (if xorb s t then M * 2 ^ (e - g) - N else M * 2 ^ (e - g) + N) =? 0 then Zero false
        else skew_to wE wF s (if xorb s t then M * 2 ^ (e - g) - N else M * 2 ^ (e - g) + N) 1 (g - bias wE - wF)).
      { rewrite add_num_skew; replace (e - bias wE - wF - (g - bias wE - wF)) with (e - g) by ring; try reflexivity; try assumption; lia. }
      rewrite <- EN, Hspec. clear Hspec.
      destruct K2 as [(Hk & Hlim)|(Hk & Hd & Hbig)].
      * subst k. destruct HT as (r & T1 & T2 & T3). exists r. split; [|split; [exact T2|]].
        -- rewrite <- T1. f_equal. f_equal. f_equal. destruct (xorb s t); [|reflexivity]. apply Z.mod_small.
           assert (0 <= sticky_form (4 * (M * 2 ^ (e - g) - N)) (2 ^ (e - g))).
           { unfold sticky_form. pose proof (Z.div_pos (4 * (M * 2 ^ (e - g) - N)) (2 ^ (e - g)) ltac:(lia) PK). b01 (negb ((4 * (M * 2 ^ (e - g) - N)) mod 2 ^ (e - g) =? 0)). lia. }
           rewrite <- (grs_sticky M N (e - g) true) in H by lia. b01 (negb ((4 * N) mod 2 ^ (e - g) =? 0)). lia.
        -- rewrite T3. replace (e - (e - g) - bias wE - wF) with (g - bias wE - wF) by ring. reflexivity.
      * destruct (clamp_q wF N k HF HN2 ltac:(lia)) as (C1 & C2). rewrite C1, C2. cbn [negb Z.b2z].
        assert (EG : 2 * (if xorb s t then (4 * M - 0 - 1) mod 2 ^ (wF + 4) else 4 * M + 0) + 1 = if xorb s t then 8 * M - 1 else 8 * M + 1).
        { destruct (xorb s t); [rewrite Z.mod_small by lia|]; ring. }
        rewrite EG. destruct (Z.eq_dec (e - g) (wF + 2)) as [Hd2|Hd2].
        -- destruct (tail4_clamped wE wF s t e M N (e - g) HE HF H1 He Hd2 HM2 HN2) as (r & T1 & T2 & T3).
           cbv zeta in T3. exists r. split; [exact T1|]. split; [exact T2|]. rewrite T3.
           replace (e - (e - g) - bias wE - wF) with (g - bias wE - wF) by ring.
           destruct (Z.eqb_spec (if xorb s t then M * 2 ^ (e - g) - N else M * 2 ^ (e - g) + N) 0) as [H0|H0]; [|reflexivity].
           exfalso. rewrite Hd2 in H0. assert (E2 : 2 ^ (wF + 2) = 4 * 2 ^ wF) by (apply (pow2_shift 2); [reflexivity|lia|lia]).
           rewrite E2 in H0. clear - H0 HM2 HN2 PF. destruct (xorb s t); nia.
        -- destruct (clamp_q wF N (e - g) HF HN2 ltac:(lia)) as (D1 & D2). rewrite D1, D2 in HT. cbn [negb Z.b2z] in HT.
           assert (EG2 : 2 * (if xorb s t then 4 * M - 0 - 1 else 4 * M + 0) + 1 = if xorb s t then 8 * M - 1 else 8 * M + 1).
           { destruct (xorb s t); ring. }
           rewrite EG2 in HT. destruct HT as (r & T1 & T2 & T3). exists r. split; [exact T1|]. split; [exact T2|].
           rewrite T3. replace (e - (e - g) - bias wE - wF) with (g - bias wE - wF) by ring. reflexivity.
  - match goal with |- context [add_tail4 _ _ _ _ _ _ _ ?G] => assert (HG : 0 <= G < 2 ^ (wF + 5)) end.
    { b01 (negb ((4 * N) mod 2 ^ k =? 0)). destruct (xorb s t); [|lia].
      pose proof (mod_pow_bound (4 * M - 4 * N / 2 ^ k - Z.b2z (negb ((4 * N) mod 2 ^ k =? 0))) (wF + 4) ltac:(lia)). lia. }
    destruct (tail4_special wE wF a s b t e _ HE HF He HG ltac:(lia) ltac:(lia) Ha1 M (e - bias wE - wF) (2 ^ wF + h) (g - bias wE - wF)) as (r & T1 & T2 & T3).
    exists r. split; [exact T1|]. split; [exact T2|]. exact T3.
Qed.

Lemma body4_correct wE wF a s e f b t g h :
  okf wE wF a e f -> okf wE wF b g h -> 2 * (wF + 3) < 2 ^ wE -> 2 * wF + 4 < 2 ^ 31 ->
  let X := pack wE wF a s e f in let Y := pack wE wF b t g h in
  exists r, add_single_body_v4 wE wF X Y = Some r /\ wf (wE + wF + 3) r /\
    decode wE wF r = add_skew wE wF (decode wE wF X) (decode wE wF Y).
Proof.
  intros HX HY HW H31 X Y. unfold X, Y. rewrite body4_core. rewrite !get_flags_exp_frac_pack by assumption.
  destruct (Z.ltb_spec (a * 2 ^ (wE + wF) + (e * 2 ^ wF + f)) (b * 2 ^ (wE + wF) + (g * 2 ^ wF + h))) as [Hlt|Hge].
  - destruct (core4_correct wE wF b t g h a s e f HY HX HW H31 ltac:(lia)) as (r & R1 & R2 & R3). cbv zeta in *.
    exists r. split; [exact R1|]. split; [exact R2|]. rewrite R3. apply add_gen_comm.
  - destruct (core4_correct wE wF a s e f b t g h HX HY HW H31 ltac:(lia)) as (r & R1 & R2 & R3). cbv zeta in *.
    exists r. split; [exact R1|]. split; [exact R2|]. exact R3.
Qed.

Lemma promote_same E F x : promote E F E F x = Some x.
Proof. unfold promote. rewrite !Z.eqb_refl. reflexivity. Qed.

Lemma add_single_v4_ok E F x y : 1 <= E -> 1 <= F -> 2 * (F + 3) < 2 ^ E -> 2 * F + 4 < 2 ^ 31 ->
  wf (E + F + 3) x -> wf (E + F + 3) y ->
  exists r, add_single_v4 E F E F E F x y = Some r /\ wf (E + F + 3) r /\
    decode E F r = add_skew E F (decode E F x) (decode E F y).
Proof.
  intros HE HF HW H31 Wx Wy.
  destruct (pack_view E F x HE HF Wx) as (a & s & e & f & Ha & ->).
  destruct (pack_view E F y HE HF Wy) as (b & t & g & h & Hb & ->).
  unfold add_single_v4. cbv zeta. assert (EC : forall p, ctMax p p = p) by (intros; unfold ctMax; destruct (p <? p); reflexivity).
  rewrite !EC, !promote_same. cbn [bind]. rewrite !Z.eqb_refl. cbn [andb assert_ bind].
  apply body4_correct; assumption.
Qed.
