(** Arithmetic characterisation of the fw_uint operations of [Fw.v]. *)
From Coq Require Import ZArith Bool List Lia.
From Verif Require Import Fw.
Open Scope Z_scope.

Lemma pow2_pos n : 0 <= n -> 0 < 2 ^ n.
Proof. intros; apply Z.pow_pos_nonneg; lia. Qed.

Lemma pow2_add a b : 0 <= a -> 0 <= b -> 2 ^ (a + b) = 2 ^ a * 2 ^ b.
Proof. intros; apply Z.pow_add_r; lia. Qed.

Lemma pow2_S a : 0 <= a -> 2 ^ (a + 1) = 2 * 2 ^ a.
Proof. intros; rewrite pow2_add by lia; change (2 ^ 1) with 2; lia. Qed.

Lemma pow2_le a b : a <= b -> 2 ^ a <= 2 ^ b.
Proof. intros; apply Z.pow_le_mono_r; lia. Qed.

Lemma pow2_lt a b : 0 <= b -> a < b -> 2 ^ a < 2 ^ b.
Proof. intros; apply Z.pow_lt_mono_r; lia. Qed.

Lemma mask_ones W : 0 <= W -> mask W = Z.ones W.
Proof.
  intros H; unfold mask. destruct (Z.leb_spec W 0) as [Hl|Hl]; [|reflexivity].
  replace W with 0 by lia; reflexivity.
Qed.

Lemma mask_pow W : 0 <= W -> mask W = 2 ^ W - 1.
Proof. intros; rewrite mask_ones, Z.ones_equiv by lia; lia. Qed.

Lemma land_mask W a : 0 <= W -> Z.land a (mask W) = a mod 2 ^ W.
Proof. intros; rewrite mask_ones, Z.land_ones by lia; reflexivity. Qed.

Lemma land_mask_id W a : 0 <= W -> 0 <= a < 2 ^ W -> Z.land a (mask W) = a.
Proof. intros; rewrite land_mask by lia; apply Z.mod_small; lia. Qed.

Lemma fadd_eq W a b : 0 <= W -> fadd W a b = (a + b) mod 2 ^ W.
Proof. intros; unfold fadd; apply land_mask; lia. Qed.

Lemma fsub_eq W a b : 0 <= W -> fsub W a b = (a - b) mod 2 ^ W.
Proof. intros; unfold fsub; apply land_mask; lia. Qed.

Lemma og_eq W : 0 <= W -> og W = 2 ^ W - 1.
Proof. intros; unfold og; rewrite Z.lxor_0_l; apply mask_pow; lia. Qed.

Lemma testbit_small W a i : 0 <= a < 2 ^ W -> W <= i -> Z.testbit a i = false.
Proof.
  intros [H0 H1] Hi. destruct (Z.eq_dec a 0) as [->|Hn]; [apply Z.bits_0|].
  apply Z.bits_above_log2; [lia|].
  apply Z.log2_lt_pow2 in H1; lia.
Qed.

Lemma testbit_mask W i : 0 <= W -> 0 <= i -> Z.testbit (mask W) i = (i <? W).
Proof.
  intros; rewrite mask_ones by lia.
  destruct (Z.ltb_spec i W) as [Hl|Hl].
  - apply Z.ones_spec_low; lia.
  - apply Z.ones_spec_high; lia.
Qed.

Lemma fnot_eq W a : 0 <= W -> 0 <= a < 2 ^ W -> fnot W a = 2 ^ W - 1 - a.
Proof.
  intros HW Ha. unfold fnot.
  assert (Hs : Z.ldiff a (mask W) = 0).
  { apply Z.bits_inj'; intros i Hi. rewrite Z.ldiff_spec, Z.bits_0, testbit_mask by lia.
    destruct (Z.ltb_spec i W) as [Hl|Hl]; cbn [negb].
    - apply andb_false_r.
    - rewrite (testbit_small W) by lia; reflexivity. }
  rewrite Z.lxor_comm.
  replace (2 ^ W - 1 - a) with (mask W - a) by (rewrite mask_pow by lia; lia).
  rewrite Z.sub_nocarry_ldiff by exact Hs.
  apply Z.bits_inj'; intros i Hi. rewrite Z.lxor_spec, Z.ldiff_spec.
  rewrite testbit_mask by lia.
  destruct (Z.ltb_spec i W) as [Hl|Hl].
  - destruct (Z.testbit a i); reflexivity.
  - rewrite (testbit_small W) by lia; reflexivity.
Qed.

Lemma cat_eq WB a b : 0 <= WB -> 0 <= b < 2 ^ WB -> cat WB a b = a * 2 ^ WB + b.
Proof.
  intros HW Hb. unfold cat. rewrite Z.shiftl_mul_pow2 by lia.
  symmetry. rewrite <- Z.lor_comm. rewrite (Z.add_comm).
  rewrite Z.add_nocarry_lxor.
  - apply Z.bits_inj'; intros i Hi. rewrite Z.lxor_spec, Z.lor_spec.
    destruct (Z.ltb_spec i WB) as [Hl|Hl].
    + rewrite Z.mul_pow2_bits_low by lia. destruct (Z.testbit b i); reflexivity.
    + rewrite (testbit_small WB) by lia. destruct (Z.testbit _ i); reflexivity.
  - apply Z.bits_inj'; intros i Hi. rewrite Z.land_spec, Z.bits_0.
    destruct (Z.ltb_spec i WB) as [Hl|Hl].
    + rewrite Z.mul_pow2_bits_low by lia. apply andb_false_r.
    + rewrite (testbit_small WB) by lia. reflexivity.
Qed.

Lemma bits_eq hi lo x : 0 <= lo -> 0 <= hi - lo + 1 ->
  bits hi lo x = (x / 2 ^ lo) mod 2 ^ (hi - lo + 1).
Proof. intros; unfold bits; rewrite land_mask, Z.shiftr_div_pow2 by lia; reflexivity. Qed.

Lemma get_bits_ok W hi lo x : hi < W -> 0 <= lo -> 0 <= hi - lo + 1 ->
  get_bits W hi lo x = Some ((x / 2 ^ lo) mod 2 ^ (hi - lo + 1)).
Proof.
  intros H1 H2 H3; unfold get_bits.
  destruct (Z.ltb_spec hi W) as [_|Hc]; [|lia].
  destruct (Z.leb_spec 0 lo) as [_|Hc]; [|lia]. cbn [andb].
  fold (bits hi lo x). rewrite bits_eq by lia; reflexivity.
Qed.

Lemma get_bits_w W hi lo w x : hi < W -> 0 <= lo -> 0 <= w -> w = hi - lo + 1 ->
  get_bits W hi lo x = Some ((x / 2 ^ lo) mod 2 ^ w).
Proof. intros; subst w; apply get_bits_ok; lia. Qed.

Lemma get_bit_ok W b x : b < W -> 0 <= b ->
  get_bit W b x = Some ((x / 2 ^ b) mod 2).
Proof. intros; unfold get_bit; rewrite (get_bits_w _ _ _ 1) by lia; reflexivity. Qed.

Lemma of_int_ok W v : 0 <= W -> 0 <= v < 2 ^ W -> of_int W v = Some v.
Proof.
  intros HW Hv; unfold of_int; rewrite mask_pow by lia.
  destruct (Z.leb_spec 0 W); [|lia]. destruct (Z.leb_spec 0 v); [|lia].
  destruct (Z.leb_spec v (2 ^ W - 1)); [reflexivity|lia].
Qed.

Lemma zpad_hi_eq P W x : 0 <= W -> 0 <= x < 2 ^ W -> zpad_hi P W x = x.
Proof. intros; unfold zpad_hi, zg; rewrite cat_eq by lia; lia. Qed.

Lemma opad_hi_eq P W x : 0 <= P -> 0 <= W -> 0 <= x < 2 ^ W ->
  opad_hi P W x = (2 ^ P - 1) * 2 ^ W + x.
Proof. intros; unfold opad_hi; rewrite cat_eq, og_eq by lia; reflexivity. Qed.

Lemma zpad_lo_eq P W x : 0 <= P -> zpad_lo P W x = x * 2 ^ P.
Proof.
  intros; unfold zpad_lo, zg. rewrite cat_eq by (try split; try apply pow2_pos; lia). lia.
Qed.

Lemma opad_lo_eq P W x : 0 <= P -> opad_lo P W x = x * 2 ^ P + (2 ^ P - 1).
Proof.
  intros; unfold opad_lo. assert (0 < 2 ^ P) by (apply pow2_pos; lia).
  rewrite cat_eq, og_eq by (rewrite ?og_eq by lia; lia). lia.
Qed.

Lemma checked_cast_ok W x : 0 <= W -> 0 <= x < 2 ^ W -> checked_cast W W x = Some x.
Proof. intros; unfold checked_cast; rewrite Z.eqb_refl, land_mask_id by lia; reflexivity. Qed.

Lemma fshr_ok W a d : 0 <= d < W -> fshr W a d = Some (a / 2 ^ d).
Proof.
  intros; unfold fshr. destruct (Z.leb_spec 0 d); [|lia]. destruct (Z.ltb_spec d W); [|lia].
  cbn [andb]. rewrite Z.shiftr_div_pow2 by lia; reflexivity.
Qed.

Lemma fshl_ok W a d : 0 <= d < W -> fshl W a d = Some ((a * 2 ^ d) mod 2 ^ W).
Proof.
  intros; unfold fshl. destruct (Z.leb_spec 0 d); [|lia]. destruct (Z.ltb_spec d W); [|lia].
  cbn [andb]. rewrite Z.shiftl_mul_pow2, land_mask by lia; reflexivity.
Qed.

Lemma take_lsbs_ok W B x : 0 <= B <= W -> 0 <= x < 2 ^ W -> take_lsbs W B x = Some (x mod 2 ^ B).
Proof.
  intros H Hx; unfold take_lsbs. destruct (Z.leb_spec 0 B); [|lia]. destruct (Z.leb_spec B W); [|lia].
  cbn [andb]. destruct (Z.eqb_spec B 0) as [->|Hn].
  - rewrite Z.mod_1_r; reflexivity.
  - rewrite (get_bits_w _ _ _ B) by lia. rewrite Z.div_1_r; reflexivity.
Qed.

Lemma drop_lsbs_ok W B x : 0 <= B <= W -> 0 <= x < 2 ^ W -> drop_lsbs W B x = Some (x / 2 ^ B).
Proof.
  intros H Hx; unfold drop_lsbs. destruct (Z.leb_spec 0 B); [|lia]. destruct (Z.leb_spec B W); [|lia].
  cbn [andb]. destruct (Z.eqb_spec B W) as [->|Hn].
  - rewrite Z.div_small by lia; reflexivity.
  - rewrite (get_bits_w _ _ _ (W - B)) by lia.
    rewrite Z.mod_small; [reflexivity|].
    assert (0 < 2 ^ B) by (apply pow2_pos; lia).
    split; [apply Z.div_pos; lia|]. apply Z.div_lt_upper_bound; [lia|].
    rewrite <- pow2_add by lia. replace (B + (W - B)) with W by lia. lia.
Qed.

Lemma take_msbs_ok W B x : 0 <= B <= W -> 0 <= x < 2 ^ W ->
  take_msbs W B x = Some (x / 2 ^ (W - B)).
Proof.
  intros H Hx; unfold take_msbs. destruct (Z.leb_spec 0 B); [|lia]. destruct (Z.leb_spec B W); [|lia].
  cbn [andb]. destruct (Z.eqb_spec B 0) as [->|Hn].
  - rewrite Z.div_small by (replace (W - 0) with W by lia; lia); reflexivity.
  - rewrite (get_bits_w _ _ _ B) by lia.
    rewrite Z.mod_small; [reflexivity|].
    assert (0 < 2 ^ (W - B)) by (apply pow2_pos; lia).
    split; [apply Z.div_pos; lia|]. apply Z.div_lt_upper_bound; [lia|].
    rewrite <- pow2_add by lia. replace (W - B + B) with W by lia. lia.
Qed.

Lemma drop_msbs_ok W B x : 0 <= B <= W -> 0 <= x < 2 ^ W ->
  drop_msbs W B x = Some (x mod 2 ^ (W - B)).
Proof.
  intros H Hx; unfold drop_msbs. destruct (Z.leb_spec 0 B); [|lia]. destruct (Z.leb_spec B W); [|lia].
  cbn [andb]. destruct (Z.eqb_spec B W) as [->|Hn].
  - replace (W - W) with 0 by lia. rewrite Z.mod_1_r; reflexivity.
  - rewrite (get_bits_w _ _ _ (W - B)) by lia. rewrite Z.div_1_r; reflexivity.
Qed.

Lemma select_b2z {A} (b : bool) (x y : A) : select (Z.b2z b) x y = if b then x else y.
Proof. destruct b; reflexivity. Qed.

Lemma to_bool_b2z b : to_bool (Z.b2z b) = b.
Proof. destruct b; reflexivity. Qed.

(** Splitting and joining. *)
Lemma div_mod_eq a b : 0 < b -> a = b * (a / b) + a mod b.
Proof. intros; apply Z.div_mod; lia. Qed.

Lemma div_pow_lt x a b : 0 <= a -> 0 <= b -> 0 <= x < 2 ^ (a + b) -> 0 <= x / 2 ^ a < 2 ^ b.
Proof.
  intros Ha Hb [H0 H1]. assert (0 < 2 ^ a) by (apply pow2_pos; lia).
  split; [apply Z.div_pos; lia|]. apply Z.div_lt_upper_bound; [lia|].
  rewrite <- pow2_add by lia; lia.
Qed.

Lemma mod_pow_bound x a : 0 <= a -> 0 <= x mod 2 ^ a < 2 ^ a.
Proof. intros; apply Z.mod_pos_bound, pow2_pos; lia. Qed.

Lemma join_div h l w : 0 <= l < 2 ^ w -> 0 <= w -> (h * 2 ^ w + l) / 2 ^ w = h.
Proof.
  intros Hl Hw. assert (0 < 2 ^ w) by (apply pow2_pos; lia).
  rewrite Z.add_comm, Z.div_add, Z.div_small by lia; lia.
Qed.

Lemma join_mod h l w : 0 <= l < 2 ^ w -> 0 <= w -> (h * 2 ^ w + l) mod 2 ^ w = l.
Proof.
  intros Hl Hw. assert (0 < 2 ^ w) by (apply pow2_pos; lia).
  rewrite Z.add_comm, Z.mod_add, Z.mod_small by lia; lia.
Qed.

Lemma odd_mod2 x : x mod 2 = Z.b2z (Z.odd x).
Proof. rewrite Zmod_odd. destruct (Z.odd x); reflexivity. Qed.

Lemma join_bound a b A B : 0 <= A -> 0 <= B -> 0 <= a < 2 ^ A -> 0 <= b < 2 ^ B ->
  0 <= a * 2 ^ B + b < 2 ^ (A + B).
Proof. intros. rewrite pow2_add by lia. nia. Qed.

Lemma join_bound_w a b A B W : 0 <= A -> 0 <= B -> 0 <= a < 2 ^ A -> 0 <= b < 2 ^ B -> W = A + B ->
  0 <= a * 2 ^ B + b < 2 ^ W.
Proof. intros; subst; apply join_bound; assumption. Qed.
