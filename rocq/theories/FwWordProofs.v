(** The word-level operations of FwWord.v compute the integer functions one expects. *)
From Coq Require Import ZArith Bool List Ascii String Lia.
From Verif Require Import Fw FwLemmas FwWord.
Import ListNotations.
Open Scope Z_scope.

Lemma word_cases W : W <= 128 -> word W = 32 /\ W <= 32 \/ word W = 64 /\ 32 < W <= 64 \/ word W = 128 /\ 64 < W.
Proof.
  intros. unfold word. destruct (Z.leb_spec W 32); [lia|]. destruct (Z.leb_spec W 64); lia.
Qed.
Lemma word_pos W : 0 < word W.
Proof. unfold word. destruct (W <=? 32); [|destruct (W <=? 64)]; lia. Qed.
Lemma word_ge W : W <= 128 -> W <= word W.
Proof. intros. destruct (word_cases W H) as [|[|]]; lia. Qed.
Lemma word_mono a b : a <= b -> word a <= word b.
Proof.
  intros. unfold word. destruct (Z.leb_spec a 32); [destruct (b <=? 32), (b <=? 64); lia|].
  destruct (Z.leb_spec b 32); [lia|]. destruct (Z.leb_spec a 64), (Z.leb_spec b 64); lia.
Qed.

Lemma MASK_eq W : 0 <= W <= 128 -> MASK W = 2 ^ W - 1.
Proof.
  intros H. unfold MASK. destruct (Z.leb_spec W 0).
  - replace W with 0 by lia. reflexivity.
  - destruct (Z.ltb_spec W 0); [lia|]. pose proof (word_ge W ltac:(lia)) as Hw. pose proof (word_pos W) as Hp.
    unfold all_ones, wrap.
    assert (E : (0 - 1) mod 2 ^ word W = 2 ^ word W - 1).
    { symmetry. apply Z.mod_unique with (-1); pose proof (pow2_pos (word W) ltac:(lia)); lia. }
    rewrite E. rewrite Z.shiftr_div_pow2 by lia.
    replace (2 ^ word W) with (2 ^ (word W - W) * 2 ^ W) by (rewrite <- pow2_add by lia; f_equal; lia).
    pose proof (pow2_pos (word W - W) ltac:(lia)). pose proof (pow2_pos W ltac:(lia)).
    symmetry. apply Z.div_unique with (2 ^ (word W - W) - 1); [lia|].
    rewrite Z.mul_sub_distr_l. lia.
Qed.
Lemma MASK_mask W : 0 <= W <= 128 -> MASK W = mask W.
Proof. intros. rewrite MASK_eq, mask_pow by lia. reflexivity. Qed.
Lemma land_MASK W a : 0 <= W <= 128 -> Z.land a (MASK W) = a mod 2 ^ W.
Proof. intros. rewrite MASK_mask, land_mask by lia. reflexivity. Qed.

Lemma from_bits_ok W v : 0 <= W <= 128 -> 0 <= v < 2 ^ W -> from_bits W v = Some v.
Proof.
  intros H Hv. unfold from_bits, assert_, bind. rewrite MASK_eq by lia.
  destruct (Z.leb_spec 0 W); [|lia]. destruct (Z.leb_spec 0 v); [|lia].
  destruct (Z.leb_spec v (2 ^ W - 1)); [|lia].
  rewrite <- MASK_eq, land_MASK by lia. rewrite Z.mod_small by lia. reflexivity.
Qed.
Lemma from_bits_bad W v : 0 <= W <= 128 -> ~ 0 <= v < 2 ^ W -> from_bits W v = None.
Proof.
  intros H Hv. unfold from_bits, assert_, bind. rewrite MASK_eq by lia.
  destruct (Z.leb_spec 0 W); [|lia]. destruct (Z.leb_spec 0 v); [|reflexivity].
  destruct (Z.leb_spec v (2 ^ W - 1)); [lia|reflexivity].
Qed.

Lemma wrap_mod N W x : 0 <= W <= N -> (wrap N x) mod 2 ^ W = x mod 2 ^ W.
Proof.
  intros. unfold wrap. replace (2 ^ N) with (2 ^ W * 2 ^ (N - W)) by (rewrite <- pow2_add by lia; f_equal; lia).
  pose proof (pow2_pos W ltac:(lia)). pose proof (pow2_pos (N - W) ltac:(lia)).
  rewrite Z.rem_mul_r by lia. rewrite (Z.mul_comm (2 ^ W)), Z.mod_add by lia. apply Z.mod_mod. lia.
Qed.
Lemma wrap_small N x : 0 <= x < 2 ^ N -> wrap N x = x.
Proof. intros. apply Z.mod_small. lia. Qed.
Lemma wrap_wf N W x : 0 <= W <= N -> 0 <= x < 2 ^ W -> wrap N x = x.
Proof. intros H Hx. apply wrap_small. pose proof (pow2_le W N ltac:(lia)). lia. Qed.

Lemma masked W a : 0 <= W <= 128 ->
  from_bits W (Z.land (wrap (word W) a) (MASK W)) = Some (a mod 2 ^ W).
Proof.
  intros. rewrite land_MASK by lia. rewrite wrap_mod by (pose proof (word_ge W); lia).
  apply from_bits_ok; [lia|]. apply mod_pow_bound. lia.
Qed.

Lemma m_of_int_ok W v : 0 <= W <= 128 -> 0 <= v < 2 ^ W -> m_of_int W v = Some v.
Proof.
  intros H Hv. unfold m_of_int, assert_, bind. rewrite MASK_eq by lia.
  destruct (Z.leb_spec 0 W); [|lia]. destruct (Z.leb_spec 0 v); [|lia].
  rewrite (wrap_wf _ W) by (pose proof (word_ge W); lia).
  destruct (Z.leb_spec v (2 ^ W - 1)); [|lia]. reflexivity.
Qed.
Lemma m_of_int_bad W v : 0 <= W <= 128 -> - 2 ^ 31 <= v < 2 ^ 31 -> ~ 0 <= v < 2 ^ W -> m_of_int W v = None.
Proof.
  intros H Hi Hv. unfold m_of_int, assert_, bind. rewrite MASK_eq by lia.
  destruct (Z.leb_spec 0 W); [|lia]. destruct (Z.leb_spec 0 v); [|reflexivity].
  rewrite (wrap_wf _ 32).
  - destruct (Z.leb_spec v (2 ^ W - 1)); [lia|reflexivity].
  - unfold word. destruct (W <=? 32); [lia|]. destruct (W <=? 64); lia.
  - change (2 ^ 32) with (2 * 2 ^ 31). lia.
Qed.

Lemma m_add_ok W a b : 0 <= W <= 128 -> m_add W a b = Some ((a + b) mod 2 ^ W).
Proof. intros. apply masked. lia. Qed.
Lemma m_sub_ok W a b : 0 <= W <= 128 -> m_sub W a b = Some ((a - b) mod 2 ^ W).
Proof. intros. apply masked. lia. Qed.
Lemma m_add_int_ok W a b : 0 <= W <= 128 -> m_add_int W a b = Some ((a + b) mod 2 ^ W).
Proof.
  intros. unfold m_add_int. rewrite masked by lia. f_equal.
  rewrite Z.add_mod, wrap_mod, <- Z.add_mod; try reflexivity; try (pose proof (word_ge W); lia);
    pose proof (pow2_pos W ltac:(lia)); lia.
Qed.
Lemma m_sub_int_ok W a b : 0 <= W <= 128 -> m_sub_int W a b = Some ((a - b) mod 2 ^ W).
Proof.
  intros. unfold m_sub_int. rewrite masked by lia. f_equal. pose proof (pow2_pos W ltac:(lia)).
  rewrite Zminus_mod, wrap_mod, <- Zminus_mod; try reflexivity; pose proof (word_ge W); lia.
Qed.
Lemma m_mul_ok W O a b : 0 <= W -> 0 <= O -> O + W <= 128 -> 0 <= a < 2 ^ W -> 0 <= b < 2 ^ O ->
  m_mul W O a b = Some (a * b).
Proof.
  intros HW HO H Ha Hb. unfold m_mul. pose proof (word_ge (O + W) ltac:(lia)).
  rewrite (wrap_wf _ W a), (wrap_wf _ O b) by lia.
  assert (B : 0 <= a * b < 2 ^ (O + W)).
  { rewrite pow2_add by lia. pose proof (Z.mul_nonneg_nonneg a b ltac:(lia) ltac:(lia)).
    pose proof (Z.mul_le_mono_nonneg_r a (2 ^ W) b ltac:(lia) ltac:(lia)).
    pose proof (Z.mul_lt_mono_pos_l (2 ^ W) b (2 ^ O) ltac:(lia)). lia. }
  rewrite (wrap_wf _ (O + W)) by lia. apply from_bits_ok; lia.
Qed.
Lemma m_square_ok W a : 0 <= W -> 2 * W <= 128 -> 0 <= a < 2 ^ W -> m_square W a = Some (a * a).
Proof. intros. rewrite <- (m_mul_ok W W a a) by lia. unfold m_square, m_mul. replace (2 * W) with (W + W) by lia. reflexivity. Qed.

Lemma m_cmp_ok c a b : m_cmp c a b = Some (Z.b2z (c a b)).
Proof. unfold m_cmp. apply m_of_int_ok; [lia|]. destruct (c a b); cbn; lia. Qed.
Lemma m_cmp_int_ok W c a o : 0 <= W <= 128 -> 0 <= o < 2 ^ 31 -> m_cmp_int W c a o = Some (Z.b2z (c a o)).
Proof.
  intros. unfold m_cmp_int, assert_, bind. destruct (Z.leb_spec 0 o); [|lia].
  rewrite (wrap_wf _ 31).
  - apply m_of_int_ok; [lia|]. destruct (c a o); cbn; lia.
  - unfold word. destruct (W <=? 32); [lia|]. destruct (W <=? 64); lia.
  - lia.
Qed.

Lemma land_wf W a b : 0 <= W -> 0 <= a < 2 ^ W -> 0 <= b -> 0 <= Z.land a b < 2 ^ W.
Proof.
  intros HW Ha Hb. assert (0 <= Z.land a b) by (apply Z.land_nonneg; lia). split; [lia|].
  assert (E : Z.land a b = Z.land a b mod 2 ^ W).
  { rewrite <- Z.land_ones by lia. rewrite <- Z.land_assoc, (Z.land_comm b), Z.land_assoc.
    rewrite (Z.land_ones a) by lia. rewrite (Z.mod_small a) by lia. reflexivity. }
  rewrite E. apply mod_pow_bound. lia.
Qed.
Lemma lor_wf W a b : 0 <= W -> 0 <= a < 2 ^ W -> 0 <= b < 2 ^ W -> 0 <= Z.lor a b < 2 ^ W.
Proof.
  intros HW Ha Hb. assert (0 <= Z.lor a b) by (apply Z.lor_nonneg; lia). split; [lia|].
  assert (E : Z.lor a b = Z.lor a b mod 2 ^ W).
  { rewrite <- Z.land_ones by lia. rewrite Z.land_lor_distr_l, !Z.land_ones by lia. rewrite !Z.mod_small by lia. reflexivity. }
  rewrite E. apply mod_pow_bound. lia.
Qed.
Lemma lxor_wf W a b : 0 <= W -> 0 <= a < 2 ^ W -> 0 <= b < 2 ^ W -> 0 <= Z.lxor a b < 2 ^ W.
Proof.
  intros HW Ha Hb. assert (0 <= Z.lxor a b) by (apply Z.lxor_nonneg; lia). split; [lia|].
  assert (E : Z.lxor a b = Z.lxor a b mod 2 ^ W).
  { rewrite <- Z.land_ones by lia. apply Z.bits_inj'. intros n Hn.
    rewrite Z.land_spec, Z.lxor_spec. destruct (Z.ltb_spec n W).
    - rewrite Z.ones_spec_low by lia. rewrite andb_true_r. reflexivity.
    - rewrite !(testbit_small W) by lia. reflexivity. }
  rewrite E. apply mod_pow_bound. lia.
Qed.
Lemma m_not_ok W a : 0 <= W <= 128 -> 0 <= a < 2 ^ W -> m_not W a = Some (2 ^ W - 1 - a).
Proof.
  intros. unfold m_not. rewrite MASK_mask by lia. fold (fnot W a). rewrite fnot_eq by lia.
  apply from_bits_ok; lia.
Qed.
Lemma m_and_ok W a b : 0 <= W <= 128 -> 0 <= a < 2 ^ W -> 0 <= b < 2 ^ W -> m_and W a b = Some (Z.land a b).
Proof. intros. apply from_bits_ok; [lia|]. apply land_wf; lia. Qed.
Lemma m_or_ok W a b : 0 <= W <= 128 -> 0 <= a < 2 ^ W -> 0 <= b < 2 ^ W -> m_or W a b = Some (Z.lor a b).
Proof.
  intros. unfold m_or. rewrite land_MASK by lia. pose proof (lor_wf W a b ltac:(lia) ltac:(lia) ltac:(lia)).
  rewrite Z.mod_small by lia. apply from_bits_ok; lia.
Qed.
Lemma m_xor_ok W a b : 0 <= W <= 128 -> 0 <= a < 2 ^ W -> 0 <= b < 2 ^ W -> m_xor W a b = Some (Z.lxor a b).
Proof.
  intros. unfold m_xor. rewrite land_MASK by lia. pose proof (lxor_wf W a b ltac:(lia) ltac:(lia) ltac:(lia)).
  rewrite Z.mod_small by lia. apply from_bits_ok; lia.
Qed.
Lemma m_and_int_ok W a b : 0 <= W <= 128 -> 0 <= a < 2 ^ W -> 0 <= b -> m_and_int W a b = Some (Z.land a b).
Proof.
  intros. unfold m_and_int, assert_, bind. destruct (Z.leb_spec 0 b); [|lia].
  apply from_bits_ok; [lia|]. apply land_wf; lia.
Qed.
Lemma m_or_int_ok W a b : 0 <= W <= 128 -> 0 <= a < 2 ^ W -> 0 <= b < 2 ^ W - 1 -> m_or_int W a b = Some (Z.lor a b).
Proof.
  intros. unfold m_or_int, assert_, bind. rewrite MASK_eq by lia.
  destruct (Z.leb_spec 0 b); [|lia]. destruct (Z.ltb_spec b (2 ^ W - 1)); [|lia]. cbn [andb].
  rewrite <- MASK_eq, land_MASK by lia. pose proof (lor_wf W a b ltac:(lia) ltac:(lia) ltac:(lia)).
  rewrite Z.mod_small by lia. apply from_bits_ok; lia.
Qed.
Lemma m_or_int_all_ones W a : 0 <= W <= 128 -> m_or_int W a (2 ^ W - 1) = None.
Proof.
  intros. unfold m_or_int, assert_, bind. rewrite MASK_eq by lia. rewrite Z.ltb_irrefl, andb_false_r. reflexivity.
Qed.
Lemma m_xor_int_ok W a b : 0 <= W <= 128 -> 0 <= a < 2 ^ W -> 0 <= b < 2 ^ W -> m_xor_int W a b = Some (Z.lxor a b).
Proof.
  intros. unfold m_xor_int, assert_, bind. destruct (Z.leb_spec 0 b); [|lia].
  rewrite land_MASK by lia. pose proof (lxor_wf W a b ltac:(lia) ltac:(lia) ltac:(lia)).
  rewrite Z.mod_small by lia. apply from_bits_ok; lia.
Qed.

Lemma shiftr_wf W a d : 0 <= W -> 0 <= d -> 0 <= a < 2 ^ W -> 0 <= Z.shiftr a d < 2 ^ W.
Proof.
  intros. rewrite Z.shiftr_div_pow2 by lia. pose proof (pow2_pos d ltac:(lia)).
  split; [apply Z.div_pos; lia|]. apply Z.le_lt_trans with a; [|lia].
  apply Z.div_le_upper_bound; [lia|]. rewrite <- (Z.mul_1_l a) at 1. apply Z.mul_le_mono_nonneg_r; lia.
Qed.
Lemma m_shr_ok W a d : 0 <= W <= 128 -> 0 <= a < 2 ^ W -> 0 <= d < W -> m_shr W a d = Some (a / 2 ^ d).
Proof.
  intros. unfold m_shr, assert_, bind. destruct (Z.leb_spec 0 d); [|lia]. destruct (Z.ltb_spec d W); [|lia]. cbn [andb].
  rewrite <- Z.shiftr_div_pow2 by lia. apply from_bits_ok; [lia|]. apply shiftr_wf; lia.
Qed.
Lemma m_shl_ok W a d : 0 <= W <= 128 -> 0 <= a < 2 ^ W -> 0 <= d < W -> m_shl W a d = Some ((a * 2 ^ d) mod 2 ^ W).
Proof.
  intros. unfold m_shl, assert_, bind. destruct (Z.leb_spec 0 d); [|lia]. destruct (Z.ltb_spec d W); [|lia]. cbn [andb].
  rewrite masked, Z.shiftl_mul_pow2 by lia. reflexivity.
Qed.
Lemma m_shift_bad W a d : ~ 0 <= d < W -> m_shr W a d = None /\ m_shl W a d = None.
Proof.
  intros. unfold m_shr, m_shl, assert_, bind. destruct (Z.leb_spec 0 d), (Z.ltb_spec d W); cbn [andb]; try lia; tauto.
Qed.

Lemma m_get_bits_ok W h l x : 0 <= W <= 128 -> 0 <= l <= h -> h < W -> 0 <= x < 2 ^ W ->
  m_get_bits W h l x = Some ((x / 2 ^ l) mod 2 ^ (h - l + 1)).
Proof.
  intros HW Hl Hh Hx. unfold m_get_bits, assert_, bind. pose proof (word_ge W ltac:(lia)).
  destruct (Z.ltb_spec h W); [|lia]. destruct (Z.leb_spec 0 l); [|lia]. destruct (Z.ltb_spec l (word W)); [|lia].
  destruct (Z.ltb_spec l 0); [lia|]. rewrite masked, Z.shiftr_div_pow2 by lia. reflexivity.
Qed.
(** The empty slice: width zero. *)
Lemma m_get_bits_empty W l x : 0 <= W <= 128 -> 0 <= l <= W -> l < word W -> m_get_bits W (l - 1) l x = Some 0.
Proof.
  intros HW Hl Hh. unfold m_get_bits, assert_, bind.
  destruct (Z.ltb_spec (l - 1) W); [|lia]. destruct (Z.leb_spec 0 l); [|lia]. destruct (Z.ltb_spec l (word W)); [|lia].
  replace (l - 1 - l + 1) with 0 by lia. change (MASK 0) with 0. rewrite Z.land_0_r. reflexivity.
Qed.

Lemma lor_join a b k : 0 <= k -> 0 <= b < 2 ^ k -> Z.lor (Z.shiftl a k) b = a * 2 ^ k + b.
Proof. intros. exact (cat_eq k a b H H0). Qed.

Lemma m_concat_ok A B a b : 0 <= A -> 0 <= B -> A + B <= 128 -> 0 <= a < 2 ^ A -> 0 <= b < 2 ^ B ->
  m_concat A B a b = Some (a * 2 ^ B + b).
Proof.
  intros HA HB H Ha Hb. unfold m_concat. pose proof (word_ge (A + B) ltac:(lia)) as Hw.
  pose proof (join_bound a b A B HA HB Ha Hb) as J.
  rewrite (wrap_wf _ A a), (wrap_wf _ B b) by lia.
  destruct (Z.ltb_spec B 0); [lia|]. cbn [orb]. destruct (Z.eqb_spec A 0) as [E|E].
  - subst A. change (2 ^ 0) with 1 in Ha. replace a with 0 by lia. rewrite Z.shiftl_0_l.
    rewrite (wrap_wf _ 0) by (change (2 ^ 0) with 1; pose proof (word_pos (0 + B)); lia).
    rewrite Z.lor_0_l. replace (0 * 2 ^ B + b) with b by lia. apply from_bits_ok; [lia|]. exact Hb.
  - rewrite (wrap_wf _ (A + B)); [rewrite lor_join by lia; apply from_bits_ok; lia|lia|].
    rewrite Z.shiftl_mul_pow2 by lia. pose proof (pow2_pos B HB).
    pose proof (Z.mul_nonneg_nonneg a (2 ^ B) ltac:(lia) ltac:(lia)). lia.
Qed.
Lemma m_checked_cast_ok W x : 0 <= W <= 128 -> 0 <= x < 2 ^ W -> m_checked_cast W W x = Some x.
Proof. intros. unfold m_checked_cast, assert_, bind. rewrite Z.eqb_refl. apply from_bits_ok; lia. Qed.
Lemma m_checked_cast_bad WD WS x : WD <> WS -> m_checked_cast WD WS x = None.
Proof. intros. unfold m_checked_cast, assert_, bind. destruct (Z.eqb_spec WD WS); [contradiction|reflexivity]. Qed.

Lemma m_zg_ok W : 0 <= W <= 128 -> m_zg W = Some 0.
Proof. intros. apply m_of_int_ok; [lia|]. pose proof (pow2_pos W ltac:(lia)). lia. Qed.
Lemma m_og_ok W : 0 <= W <= 128 -> m_og W = Some (2 ^ W - 1).
Proof.
  intros. unfold m_og, bind. rewrite m_zg_ok by lia. pose proof (pow2_pos W ltac:(lia)).
  rewrite m_not_ok by lia. f_equal. lia.
Qed.

Lemma m_take_lsbs_ok W B x : 0 <= B <= W -> W <= 128 -> 0 <= x < 2 ^ W -> m_take_lsbs W B x = Some (x mod 2 ^ B).
Proof.
  intros. unfold m_take_lsbs, assert_, bind. destruct (Z.leb_spec 0 B); [|lia]. destruct (Z.leb_spec B W); [|lia].
  destruct (Z.eqb_spec B 0) as [E|E].
  - subst. rewrite m_zg_ok by lia. change (2 ^ 0) with 1. rewrite Z.mod_1_r. reflexivity.
  - rewrite m_get_bits_ok by lia. change (2 ^ 0) with 1. rewrite Z.div_1_r. do 3 f_equal. lia.
Qed.
Lemma m_drop_msbs_ok W B x : 0 <= B <= W -> W <= 128 -> 0 <= x < 2 ^ W -> m_drop_msbs W B x = Some (x mod 2 ^ (W - B)).
Proof.
  intros. unfold m_drop_msbs, assert_, bind. destruct (Z.leb_spec 0 B); [|lia]. destruct (Z.leb_spec B W); [|lia].
  destruct (Z.eqb_spec B W) as [E|E].
  - subst. rewrite m_zg_ok by lia. rewrite Z.sub_diag. change (2 ^ 0) with 1. rewrite Z.mod_1_r. reflexivity.
  - rewrite m_get_bits_ok by lia. change (2 ^ 0) with 1. rewrite Z.div_1_r. do 3 f_equal. lia.
Qed.
Lemma m_drop_lsbs_ok W B x : 0 <= B <= W -> W <= 128 -> 0 <= x < 2 ^ W -> m_drop_lsbs W B x = Some (x / 2 ^ B).
Proof.
  intros. unfold m_drop_lsbs, assert_, bind. destruct (Z.leb_spec 0 B); [|lia]. destruct (Z.leb_spec B W); [|lia].
  destruct (Z.eqb_spec B W) as [E|E].
  - subst. rewrite m_zg_ok by lia. rewrite Z.div_small by lia. reflexivity.
  - rewrite m_get_bits_ok by lia. f_equal. replace (W - 1 - B + 1) with (W - B) by lia. apply Z.mod_small.
    apply div_pow_lt; try lia. replace (B + (W - B)) with W by lia. lia.
Qed.
Lemma m_take_msbs_ok W B x : 0 <= B <= W -> W <= 128 -> 0 <= x < 2 ^ W -> m_take_msbs W B x = Some (x / 2 ^ (W - B)).
Proof.
  intros. unfold m_take_msbs, assert_, bind. destruct (Z.leb_spec 0 B); [|lia]. destruct (Z.leb_spec B W); [|lia].
  destruct (Z.eqb_spec B 0) as [E|E].
  - subst. rewrite m_zg_ok by lia. rewrite Z.sub_0_r, Z.div_small by lia. reflexivity.
  - rewrite m_get_bits_ok by lia. f_equal. replace (W - 1 - (W - B) + 1) with B by lia. apply Z.mod_small.
    apply div_pow_lt; try lia. replace (W - B + B) with W by lia. lia.
Qed.
Lemma m_zpad_hi_ok P W x : 0 <= P -> 0 <= W -> P + W <= 128 -> 0 <= x < 2 ^ W -> m_zpad_hi P W x = Some x.
Proof. intros. unfold m_zpad_hi, bind. rewrite m_zg_ok by lia. pose proof (pow2_pos P ltac:(lia)). rewrite m_concat_ok by lia. f_equal. Qed.
Lemma m_opad_hi_ok P W x : 0 <= P -> 0 <= W -> P + W <= 128 -> 0 <= x < 2 ^ W ->
  m_opad_hi P W x = Some ((2 ^ P - 1) * 2 ^ W + x).
Proof. intros. unfold m_opad_hi, bind. rewrite m_og_ok by lia. pose proof (pow2_pos P ltac:(lia)). rewrite m_concat_ok by lia. reflexivity. Qed.
Lemma m_zpad_lo_ok P W x : 0 <= P -> 0 <= W -> P + W <= 128 -> 0 <= x < 2 ^ W -> m_zpad_lo P W x = Some (x * 2 ^ P).
Proof. intros. unfold m_zpad_lo, bind. rewrite m_zg_ok by lia. pose proof (pow2_pos P ltac:(lia)). rewrite m_concat_ok by lia. f_equal. lia. Qed.
Lemma m_opad_lo_ok P W x : 0 <= P -> 0 <= W -> P + W <= 128 -> 0 <= x < 2 ^ W ->
  m_opad_lo P W x = Some (x * 2 ^ P + (2 ^ P - 1)).
Proof. intros. unfold m_opad_lo, bind. rewrite m_og_ok by lia. pose proof (pow2_pos P ltac:(lia)). rewrite m_concat_ok by lia. reflexivity. Qed.
Lemma m_extu_ok W B x : 0 <= W <= B -> B <= 128 -> 0 <= x < 2 ^ W -> m_extu W B x = Some x.
Proof. intros. unfold m_extu, assert_, bind. destruct (Z.leb_spec W B); [|lia]. apply m_zpad_hi_ok; lia. Qed.
Lemma m_resize_ok W B x : 0 <= W <= 128 -> 0 <= B <= 128 -> 0 <= x < 2 ^ W -> m_resize W B x = Some (x mod 2 ^ B).
Proof.
  intros. unfold m_resize, bind.
  assert (E : ctMax 0 (B - W) = Z.max 0 (B - W)) by (unfold ctMax; destruct (Z.ltb_spec (B - W) 0); lia).
  rewrite E. rewrite m_zpad_hi_ok by lia. apply m_take_lsbs_ok; try lia.
  pose proof (pow2_le W (Z.max 0 (B - W) + W) ltac:(lia)). lia.
Qed.
Lemma m_select_ok {A} b (v d : A) : m_select (Z.b2z b) v d = Some (if b then v else d).
Proof. destruct b; reflexivity. Qed.
Lemma m_copybit_ok W b : 0 <= W <= 128 -> m_copybit W (Z.b2z b) = Some (if b then 2 ^ W - 1 else 0).
Proof. intros. unfold m_copybit, bind. rewrite m_og_ok, m_zg_ok by lia. apply m_select_ok. Qed.
Lemma m_add_with_cin_ok W x y c : 1 <= W <= 128 -> 0 <= c < 2 -> m_add_with_cin W x y c = Some ((x + y + c) mod 2 ^ W).
Proof.
  intros. unfold m_add_with_cin, bind. rewrite m_add_ok by lia. rewrite m_zpad_hi_ok by (change (2 ^ 1) with 2; lia).
  rewrite m_add_ok by lia. f_equal. pose proof (pow2_pos W ltac:(lia)). rewrite Zplus_mod_idemp_l. reflexivity.
Qed.
Lemma m_add_cin_ok W x c : 1 <= W <= 128 -> 0 <= c < 2 -> m_add_cin W x c = Some ((x + c) mod 2 ^ W).
Proof.
  intros. unfold m_add_cin, bind. rewrite m_zpad_hi_ok by (change (2 ^ 1) with 2; lia). apply m_add_ok. lia.
Qed.
Lemma m_add_sub_ok W (s : bool) x y : 1 <= W <= 128 -> 0 <= y < 2 ^ W ->
  m_add_sub W (Z.b2z s) x y = Some ((if s then x - y else x + y) mod 2 ^ W).
Proof.
  intros. unfold m_add_sub, bind. rewrite m_not_ok by lia. rewrite m_select_ok.
  rewrite m_add_with_cin_ok by (destruct s; cbn; lia). f_equal. pose proof (pow2_pos W ltac:(lia)).
  destruct s; cbn [Z.b2z].
  - replace (x + (2 ^ W - 1 - y) + 1) with (x - y + 1 * 2 ^ W) by lia. apply Z.mod_add. lia.
  - f_equal. lia.
Qed.
