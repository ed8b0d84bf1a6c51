(** The alternative single-path adders against add_single (v1). *)
From Coq Require Import ZArith Lia Bool List.
From Verif Require Import Fw Spec Flopoco AddSingle AddSingleAlt FwLemmas SpecLemmas ValueLemmas AddLemmas AddSingleProofs AddSingleProofs2 AddSingleProofs3.
Open Scope Z_scope.

(** v2. *)
Lemma excRt_sel_lut i : excRt_sel i = excRt_lut i.
Proof. destruct i as [|p|p]; [reflexivity| |reflexivity]. do 6 (destruct p as [p|p|]; try reflexivity). Qed.

Lemma excRt2_sel_lut i : excRt2_sel i = excRt2_lut i.
Proof. destruct i as [|p|p]; [reflexivity| |reflexivity]. do 4 (destruct p as [p|p|]; try reflexivity). Qed.

Lemma add_single_v2_eq wER wFR wEX wFX wEY wFY x y :
  add_single_v2 wER wFR wEX wFX wEY wFY x y = add_single wER wFR wEX wFX wEY wFY x y.
Proof.
  unfold add_single_v2, add_single. cbv zeta.
  apply bind_ext; [reflexivity|intros X]. apply bind_ext; [reflexivity|intros Y]. apply bind_ext; [reflexivity|intros _].
  unfold add_single_body_v2, add_single_body. cbv zeta.
  apply bind_ext; [reflexivity|intros sv]. apply bind_ext; [reflexivity|intros sh]. apply bind_ext; [reflexivity|intros p].
  apply bind_ext; [reflexivity|intros [S c]]. rewrite excRt_sel_lut, excRt2_sel_lut. reflexivity.
Qed.

(** v3. *)
Lemma clz8_ok u x : 0 < x < 256 -> clz8 u x = Some (7 - Z.log2 x).
Proof.
  intros H. unfold clz8. rewrite to_int_ok by lia. cbn [bind].
  replace (Z.land 255 x) with x by (rewrite Z.land_comm; change 255 with (Z.ones 8); rewrite Z.land_ones by lia; symmetry; apply Z.mod_small; change (2 ^ 8) with 256; lia).
  destruct (Z.eqb_spec x 0); [lia|].
  assert (0 <= Z.log2 x <= 7).
  { split; [apply Z.log2_nonneg|]. apply Z.lt_succ_r. apply Z.log2_lt_pow2; cbn; lia. }
  rewrite Z.land_comm. change 7 with (Z.ones 3) at 1. rewrite Z.land_ones by lia. change (2 ^ 3) with 8.
  replace ((31 - Z.log2 x) mod 8) with (7 - Z.log2 x) by (apply Z.mod_unique with 3; lia).
  apply of_int_ok; change (2 ^ 3) with 8; lia.
Qed.

Lemma clz8_any u x : 0 <= x < 256 -> exists v, clz8 u x = Some v.
Proof.
  intros H. destruct (Z.eq_dec x 0) as [->|].
  - unfold clz8. cbn [to_int]. change (to_int 0) with (Some 0). cbn [bind]. change (Z.land 255 0 =? 0) with true. cbv iota.
    eexists. apply of_int_ok; [lia|]. rewrite Z.land_comm. change 7 with (Z.ones 3). rewrite Z.land_ones by lia. apply Z.mod_pos_bound. reflexivity.
  - eexists. apply clz8_ok. lia.
Qed.

Lemma log2_top x k b : 0 <= k -> b = x / 2 ^ k -> 0 < b -> Z.log2 x = Z.log2 b + k.
Proof.
  intros Hk -> H. apply Z.log2_unique.
  - pose proof (Z.log2_nonneg (x / 2 ^ k)). lia.
  - pose proof (Z.log2_spec _ H) as [A B]. pose proof (pow2_pos k Hk). pose proof (Z.log2_nonneg (x / 2 ^ k)).
    rewrite Z.pow_add_r by lia. replace (Z.succ (Z.log2 (x / 2 ^ k) + k)) with (Z.succ (Z.log2 (x / 2 ^ k)) + k) by lia.
    rewrite (Z.pow_add_r 2 (Z.succ _)) by lia.
    remember (2 ^ Z.log2 (x / 2 ^ k)) as P. remember (2 ^ Z.succ (Z.log2 (x / 2 ^ k))) as Q. remember (2 ^ k) as K.
    clear - A B H0. pose proof (div_mod_eq x K H0). pose proof (Z.mod_pos_bound x K H0). nia.
Qed.

Lemma lzoc_clz_zero u : lzoc_clz u 0 = Some (0, 31).
Proof.
  destruct u as [[[u0 u1] u2] u3]. unfold lzoc_clz.
  repeat (rewrite get_bits_ok by lia; cbn [bind]).
  rewrite !Z.div_0_l by (vm_compute; discriminate). rewrite !Z.mod_0_l by (vm_compute; discriminate).
  destruct (clz8_any u0 0 ltac:(lia)) as [v0 ->], (clz8_any u1 0 ltac:(lia)) as [v1 ->], (clz8_any u2 0 ltac:(lia)) as [v2 ->], (clz8_any u3 0 ltac:(lia)) as [v3 ->].
  reflexivity.
Qed.

Lemma shift_back x c : 0 <= c -> 0 <= x * 2 ^ c < 2 ^ 32 -> (x * 2 ^ c) mod 2 ^ 32 = x * 2 ^ c.
Proof. intros. apply Z.mod_small. lia. Qed.

Lemma lzoc_clz_ok u x : 0 < x < 2 ^ 32 -> lzoc_clz u x = Some (x * 2 ^ (31 - Z.log2 x), 31 - Z.log2 x).
Proof.
  intros H. destruct u as [[[u0 u1] u2] u3]. unfold lzoc_clz.
  assert (HT : 0 <= x * 2 ^ (31 - Z.log2 x) < 2 ^ 32 /\ 0 <= Z.log2 x <= 31).
  { pose proof (Z.log2_spec x ltac:(lia)) as [A B]. pose proof (Z.log2_nonneg x).
    assert (Z.log2 x < 32) by (apply Z.log2_lt_pow2; lia).
    pose proof (pow2_pos (31 - Z.log2 x) ltac:(lia)).
    assert (E : 2 ^ 32 = 2 ^ Z.succ (Z.log2 x) * 2 ^ (31 - Z.log2 x)) by (rewrite <- Z.pow_add_r by lia; f_equal; lia).
    rewrite E. clear E. nia. }
  destruct HT as [HT HL].
  rewrite (get_bits_w 32 31 24 8), (get_bits_w 32 23 16 8), (get_bits_w 32 15 8 8), (get_bits_w 32 7 0 8) by lia. cbn [bind].
  remember ((x / 2 ^ 24) mod 2 ^ 8) as b0 eqn:E0. remember ((x / 2 ^ 16) mod 2 ^ 8) as b1 eqn:E1.
  remember ((x / 2 ^ 8) mod 2 ^ 8) as b2 eqn:E2. remember ((x / 2 ^ 0) mod 2 ^ 8) as b3 eqn:E3.
  assert (R0 : 0 <= b0 < 256) by (subst; apply Z.mod_pos_bound; lia). assert (R1 : 0 <= b1 < 256) by (subst; apply Z.mod_pos_bound; lia).
  assert (R2 : 0 <= b2 < 256) by (subst; apply Z.mod_pos_bound; lia). assert (R3 : 0 <= b3 < 256) by (subst; apply Z.mod_pos_bound; lia).
  destruct (clz8_any u0 b0 R0) as [v0 V0], (clz8_any u1 b1 R1) as [v1 V1], (clz8_any u2 b2 R2) as [v2 V2], (clz8_any u3 b3 R3) as [v3 V3].
  rewrite V0, V1, V2, V3. cbn [bind]. unfold non_zero8, fne, zg. rewrite !to_bool_b2z.
  assert (FIN : forall k v b (n : nat), (k = 24 \/ k = 16 \/ k = 8 \/ k = 0) -> 0 < b < 256 -> v = 7 - Z.log2 b -> x / 2 ^ k = b ->
    (do i <- to_int v; do out <- fshl 32 (x * 2 ^ (24 - k)) (Z.land i 31); Some (out, cat 3 ((24 - k) / 8) v)) = Some (x * 2 ^ (31 - Z.log2 x), 31 - Z.log2 x)).
  { intros k v b n Hk Hb Hv Hx. pose proof (log2_top x k b ltac:(lia) ltac:(lia) ltac:(lia)) as L.
    assert (0 <= Z.log2 b <= 7) by (split; [apply Z.log2_nonneg|]; apply Z.lt_succ_r; apply Z.log2_lt_pow2; cbn; lia).
    rewrite to_int_ok by lia. cbn [bind].
    replace (Z.land v 31) with v by (change 31 with (Z.ones 5); rewrite Z.land_ones by lia; symmetry; apply Z.mod_small; change (2 ^ 5) with 32; lia).
    rewrite fshl_ok by lia. cbn [bind]. rewrite <- Z.mul_assoc, <- Z.pow_add_r by lia.
    replace (24 - k + v) with (31 - Z.log2 x) by lia. rewrite shift_back by lia.
    rewrite cat_eq by (try lia; change (2 ^ 3) with 8; lia). change (2 ^ 3) with 8. do 2 f_equal.
    clear - Hk Hv L. destruct Hk as [->|[->|[->| ->]]]; Z.to_euclidean_division_equations; lia. }
  assert (D : forall k, 0 <= k -> 0 <= x / 2 ^ k) by (intros; apply Z.div_pos; [lia|apply pow2_pos; lia]).
  change (2 ^ 8) with 256 in *. change (2 ^ 16) with 65536 in *. change (2 ^ 24) with 16777216 in *. change (2 ^ 32) with 4294967296 in *. change (2 ^ 0) with 1 in *.
  assert (X0 : x / 16777216 = b0) by (subst b0; clear - H; Z.to_euclidean_division_equations; lia).
  destruct (Z.eqb_spec b0 0) as [Z0|N0]; cbn [negb].
  2:{ rewrite (clz8_ok u0 b0 ltac:(lia)) in V0. injection V0 as <-.
      pose proof (FIN 24 (7 - Z.log2 b0) b0 O ltac:(lia) ltac:(lia) eq_refl X0) as F. change (24 - 24) with 0 in F. rewrite Z.pow_0_r, Z.mul_1_r in F. exact F. }
  assert (X1 : x / 65536 = b1) by (clear - H E1 Z0 X0; Z.to_euclidean_division_equations; lia).
  destruct (Z.eqb_spec b1 0) as [Z1|N1]; cbn [negb].
  2:{ rewrite (clz8_ok u1 b1 ltac:(lia)) in V1. injection V1 as <-. rewrite fshl_ok by lia. cbn [bind].
      rewrite Z.mod_small by (clear - H X0 Z0; change (2 ^ 32) with 4294967296; change (2 ^ 8) with 256; Z.to_euclidean_division_equations; lia).
      exact (FIN 16 (7 - Z.log2 b1) b1 O ltac:(lia) ltac:(lia) eq_refl X1). }
  assert (X2 : x / 256 = b2) by (clear - H E2 Z1 X1; Z.to_euclidean_division_equations; lia).
  destruct (Z.eqb_spec b2 0) as [Z2|N2]; cbn [negb].
  2:{ rewrite (clz8_ok u2 b2 ltac:(lia)) in V2. injection V2 as <-. rewrite fshl_ok by lia. cbn [bind].
      rewrite Z.mod_small by (clear - H X1 Z1; change (2 ^ 32) with 4294967296; change (2 ^ 16) with 65536; Z.to_euclidean_division_equations; lia).
      exact (FIN 8 (7 - Z.log2 b2) b2 O ltac:(lia) ltac:(lia) eq_refl X2). }
  assert (X3 : x / 1 = b3) by (clear - H E3 Z2 X2; Z.to_euclidean_division_equations; lia).
  destruct (Z.eqb_spec b3 0) as [Z3|N3]; cbn [negb]; [rewrite Z.div_1_r in X3; lia|].
  rewrite (clz8_ok u3 b3 ltac:(lia)) in V3. injection V3 as <-. rewrite fshl_ok by lia. cbn [bind].
  rewrite Z.mod_small by (clear - H X2 Z2; change (2 ^ 32) with 4294967296; change (2 ^ 24) with 16777216; Z.to_euclidean_division_equations; lia).
  exact (FIN 0 (7 - Z.log2 b3) b3 O ltac:(lia) ltac:(lia) eq_refl X3).
Qed.

Lemma intlog2_five wF : 11 <= wF <= 26 -> intlog2 (wF + 5) = 5.
Proof.
  intros H. destruct (intlog2_spec (wF + 5) ltac:(lia)) as (S1 & S2 & S3). remember (intlog2 (wF + 5)) as s.
  destruct (Z_lt_le_dec s 5); [assert (2 ^ s <= 2 ^ 4) by (apply pow2_le; lia); lia|].
  destruct (Z_lt_le_dec 5 s); [assert (2 ^ 5 <= 2 ^ (s - 1)) by (apply pow2_le; lia); lia|]. lia.
Qed.

Lemma clz_lzoc u wF G : 11 <= wF <= 26 -> 0 <= G < 2 ^ (wF + 5) ->
  (do lz <- lzoc_clz u (zpad_lo (32 - wF - 5) (wF + 5) G);
   do S <- take_msbs 32 (wF + 5) (fst lz); Some (S, snd lz)) = lzoc (wF + 5) (Z.to_nat (intlog2 (wF + 5))) G.
Proof.
  intros HF HG. rewrite zpad_lo_eq by lia.
  destruct (Z.eq_dec G 0) as [->|Hn].
  - rewrite (proj1 (lz_zero wF ltac:(lia))). rewrite intlog2_five by lia.
    replace (0 * _) with 0 by lia. rewrite lzoc_clz_zero. cbn [bind fst snd]. rewrite take_msbs_ok by lia. cbn [bind].
    rewrite Z.div_0_l by (pose proof (pow2_pos (32 - (wF + 5))); lia). reflexivity.
  - destruct (lz_ok wF G ltac:(lia) ltac:(lia)) as (c & -> & Hc & Hb & Hc4 & _).
    assert (E32 : 2 ^ 32 = 2 ^ (wF + 5) * 2 ^ (32 - wF - 5)) by (rewrite <- Z.pow_add_r by lia; f_equal; lia).
    pose proof (pow2_pos (32 - wF - 5) ltac:(lia)) as HP.
    assert (HX : 0 < G * 2 ^ (32 - wF - 5) < 2 ^ 32) by (rewrite E32; clear - HP HG Hn; nia).
    rewrite lzoc_clz_ok by exact HX.
    assert (EL : Z.log2 (G * 2 ^ (32 - wF - 5)) = 31 - c).
    { apply Z.log2_unique; [lia|].
      assert (A : 2 ^ (31 - c) * 2 ^ c = 2 ^ (wF + 4) * 2 ^ (32 - wF - 5)) by (rewrite <- !Z.pow_add_r by lia; f_equal; lia).
      assert (B : 2 ^ Z.succ (31 - c) * 2 ^ c = 2 ^ (wF + 5) * 2 ^ (32 - wF - 5)) by (rewrite <- !Z.pow_add_r by lia; f_equal; lia).
      pose proof (pow2_pos c ltac:(lia)) as Pc.
      remember (2 ^ (31 - c)) as P1. remember (2 ^ Z.succ (31 - c)) as P2. remember (2 ^ (32 - wF - 5)) as P3. remember (2 ^ c) as C.
      remember (2 ^ (wF + 4)) as Q1. remember (2 ^ (wF + 5)) as Q2. clear - A B Pc HP Hb.
      split; apply (Z.mul_le_mono_pos_r _ _ C Pc) || apply (Z.mul_lt_mono_pos_r C _ _ Pc); nia. }
    rewrite EL. replace (31 - (31 - c)) with c by lia. cbn [bind fst snd].
    replace (G * 2 ^ (32 - wF - 5) * 2 ^ c) with (G * 2 ^ c * 2 ^ (32 - wF - 5)) by ring.
    rewrite take_msbs_ok; [|lia|rewrite E32; clear - HP Hb; nia]. cbn [bind].
    replace (32 - (wF + 5)) with (32 - wF - 5) by lia. rewrite Z.div_mul by lia. reflexivity.
Qed.

Lemma add_single_body_v3_eq u wE wF X Y : 11 <= wF <= 26 -> add_single_body_v3 u wE wF X Y = add_single_body wE wF X Y.
Proof.
  intros HF. unfold add_single_body_v3, add_single_body. cbv zeta.
  apply bind_ext; [reflexivity|intros sv]. apply bind_ext; [reflexivity|intros sh]. apply bind_ext; [reflexivity|intros p].
  match goal with |- context [zpad_lo (32 - wF - 5) (wF + 5) ?g] => remember g as G eqn:EG end.
  assert (HG : 0 <= G < 2 ^ (wF + 5)).
  { subst G. unfold add_with_cin, fne. match goal with |- context [cat 1 _ (Z.b2z ?b)] => remember b as bb end.
    match goal with |- context [cat 1 ?a _] => remember a as A eqn:EA end.
    assert (0 <= A < 2 ^ (wF + 4)) by (subst A; unfold fadd; rewrite land_mask by lia; apply mod_pow_bound; lia).
    rewrite cat_eq by (destruct bb; cbn; lia). replace (wF + 5) with (wF + 4 + 1) by lia. rewrite (pow2_S (wF + 4)) by lia. change (2 ^ 1) with 2. destruct bb; cbn [Z.b2z]; lia. }
  clear EG. rewrite <- (clz_lzoc u wF G HF HG). rewrite (intlog2_five wF HF).
  replace (wF + 5 <=? 32) with true by (symmetry; apply Z.leb_le; lia). cbn [Z.eqb Pos.eqb andb assert_ bind].
  destruct (lzoc_clz u _) as [[out count]|]; cbn [bind fst snd]; [|reflexivity].
  destruct (take_msbs 32 (wF + 5) out); reflexivity.
Qed.

Lemma add_single_v3_eq u wER wFR wEX wFX wEY wFY x y : 11 <= Z.max wFX wFY <= 26 ->
  add_single_v3 u wER wFR wEX wFX wEY wFY x y = add_single wER wFR wEX wFX wEY wFY x y.
Proof.
  intros HF. assert (EC : forall p q, ctMax p q = Z.max p q) by (intros; unfold ctMax; destruct (Z.ltb_spec q p); lia).
  unfold add_single_v3, add_single. cbv zeta. rewrite !EC.
  apply bind_ext; [reflexivity|intros X]. apply bind_ext; [reflexivity|intros Y]. apply bind_ext; [reflexivity|intros _].
  apply add_single_body_v3_eq. exact HF.
Qed.

Lemma add_single_v3_none u wER wFR wEX wFX wEY wFY x y : 1 <= wFX -> 1 <= wFY -> ~ 11 <= Z.max wFX wFY <= 26 ->
  add_single_v3 u wER wFR wEX wFX wEY wFY x y = None.
Proof.
  intros H1 H2 HF. assert (EC : forall p q, ctMax p q = Z.max p q) by (intros; unfold ctMax; destruct (Z.ltb_spec q p); lia).
  unfold add_single_v3. cbv zeta. rewrite !EC. remember (Z.max wFX wFY) as wF.
  destruct (promote _ wF wEX wFX x); cbn [bind]; [|reflexivity]. destruct (promote _ wF wEY wFY y); cbn [bind]; [|reflexivity].
  destruct (assert_ _); cbn [bind]; [|reflexivity]. unfold add_single_body_v3. cbv zeta.
  match goal with |- bind ?a _ = _ => destruct a end; cbn [bind]; [|reflexivity].
  destruct (to_int _); cbn [bind]; [|reflexivity]. destruct (fshr _ _ _); cbn [bind]; [|reflexivity].
  destruct (intlog2_spec (wF + 5) ltac:(lia)) as (S1 & S2 & S3).
  destruct (Z.eqb_spec (intlog2 (wF + 5)) 5) as [E5|]; cbn [andb assert_ bind]; [|reflexivity].
  rewrite E5 in S2, S3. cbn in S2, S3. exfalso. lia.
Qed.

(** v5. *)
Lemma body_swap wE wF X Y : get_flags_exp_frac wE wF X <> get_flags_exp_frac wE wF Y -> add_single_body wE wF X Y = add_single_body wE wF Y X.
Proof. intros H. rewrite !body_core. destruct (Z.ltb_spec (get_flags_exp_frac wE wF X) (get_flags_exp_frac wE wF Y)), (Z.ltb_spec (get_flags_exp_frac wE wF Y) (get_flags_exp_frac wE wF X)); reflexivity || lia. Qed.

Lemma body_v5_core wFX wFY wEX wEY x y wE wF X Y tx ty :
  Z.min wFX wFY <= wFX -> get_bits (wEX + wFX + 3) (wFX - 1) (wFX - Z.min wFX wFY) x = Some tx ->
  get_bits (wEY + wFY + 3) (wFY - 1) (wFY - Z.min wFX wFY) y = Some ty ->
  let m := Z.min wFX wFY in
  let kx := cat m (cat wE (get_flags wE wF X) (get_exp wE wF X)) tx in
  let ky := cat m (cat wE (get_flags wE wF Y) (get_exp wE wF Y)) ty in
  add_single_body_v5 wFX wFY wEX wEY x y wE wF X Y =
  if (if wFX <? wFY then kx <=? ky else kx <? ky) then core_of wE wF Y X else core_of wE wF X Y.
Proof.
  intros Hm Gx Gy. cbv zeta.
  unfold add_single_body_v5, core_of, add_core, add_grs, add_shiftVal. cbv zeta. rewrite Gx, Gy.
  replace (0 <=? wFX - Z.min wFX wFY) with true by (symmetry; apply Z.leb_le; lia).
  replace (0 <=? wFY - Z.min wFX wFY) with true by (symmetry; apply Z.leb_le; lia). cbn [andb assert_ bind].
  unfold get_flags, get_exp, get_sign, get_frac, fle, flt.
  match goal with |- context [if wFX <? wFY then Z.b2z ?p else Z.b2z ?q] => replace (if wFX <? wFY then Z.b2z p else Z.b2z q) with (Z.b2z (if wFX <? wFY then p else q)) by (destruct (wFX <? wFY); reflexivity);
    destruct (if wFX <? wFY then p else q) end;
  cbn [Z.b2z feq Z.eqb Pos.eqb select to_bool];
  (apply bind_ext; [reflexivity|intros sv]); (apply bind_ext; [reflexivity|intros sh]);
  rewrite bind_assoc; (apply bind_ext; [reflexivity|intros p]); reflexivity.
Qed.
