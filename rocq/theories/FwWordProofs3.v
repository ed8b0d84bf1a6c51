(** User-level laws of slicing and joining, and agreement of the word level with Fw.v. *)
From Coq Require Import ZArith Bool List Ascii String Lia.
From Verif Require Import Fw FwLemmas FwWord FwWordProofs.
Import ListNotations.
Open Scope Z_scope.

Lemma slice_bits W h l x : 0 <= W <= 128 -> 0 <= l <= h -> h < W -> 0 <= x < 2 ^ W ->
  exists r, m_get_bits W h l x = Some r /\ 0 <= r < 2 ^ (h - l + 1) /\
    forall i, 0 <= i -> Z.testbit r i = if i <=? h - l then Z.testbit x (l + i) else false.
Proof.
  intros HW Hl Hh Hx. eexists. split; [apply m_get_bits_ok; lia|]. split; [apply mod_pow_bound; lia|].
  intros i Hi. destruct (Z.leb_spec i (h - l)).
  - rewrite Z.mod_pow2_bits_low by lia. rewrite <- Z.shiftr_div_pow2, Z.shiftr_spec by lia. f_equal. lia.
  - apply Z.mod_pow2_bits_high. lia.
Qed.
Lemma slice_outside W h l x : h >= W \/ l < 0 -> m_get_bits W h l x = None.
Proof.
  intros. unfold m_get_bits, assert_, bind. destruct (Z.ltb_spec h W); [|reflexivity].
  destruct (Z.leb_spec 0 l); [lia|reflexivity].
Qed.
Lemma empty_top_slice W x : W = 32 \/ W = 64 \/ W = 128 -> m_get_bits W (W - 1) W x = None.
Proof. intros [-> | [-> | ->]]; reflexivity. Qed.

Lemma slice_of_concat A B a b h l : 0 <= A -> 0 <= B -> A + B <= 128 -> 0 <= a < 2 ^ A -> 0 <= b < 2 ^ B ->
  exists c, m_concat A B a b = Some c /\ 0 <= c < 2 ^ (A + B) /\
    (0 <= l <= h -> h < B -> m_get_bits (A + B) h l c = m_get_bits B h l b) /\
    (B <= l <= h -> h < A + B -> m_get_bits (A + B) h l c = m_get_bits A (h - B) (l - B) a).
Proof.
  intros HA HB HAB Ha Hb. exists (a * 2 ^ B + b). pose proof (join_bound a b A B HA HB Ha Hb) as J.
  split; [apply m_concat_ok; lia|]. split; [exact J|]. split; intros Hl Hh.
  - rewrite !m_get_bits_ok by lia. f_equal.
    replace (a * 2 ^ B) with ((a * 2 ^ (B - l)) * 2 ^ l)
      by (rewrite <- Z.mul_assoc, <- pow2_add by lia; do 2 f_equal; lia).
    pose proof (pow2_pos l ltac:(lia)). rewrite Z.div_add_l by lia.
    replace (a * 2 ^ (B - l)) with ((a * 2 ^ (B - l - (h - l + 1))) * 2 ^ (h - l + 1))
      by (rewrite <- Z.mul_assoc, <- pow2_add by lia; do 2 f_equal; lia).
    pose proof (pow2_pos (h - l + 1) ltac:(lia)). rewrite Z.add_comm, Z.mod_add by lia. reflexivity.
  - rewrite !m_get_bits_ok by lia. f_equal.
    replace (2 ^ l) with (2 ^ B * 2 ^ (l - B)) by (rewrite <- pow2_add by lia; f_equal; lia).
    pose proof (pow2_pos B ltac:(lia)). pose proof (pow2_pos (l - B) ltac:(lia)).
    rewrite <- Z.div_div by lia. rewrite (join_div a b B) by lia. do 2 f_equal. lia.
Qed.
Lemma parts_of_concat A B a b : 0 <= A -> 0 <= B -> A + B <= 128 -> 0 <= a < 2 ^ A -> 0 <= b < 2 ^ B ->
  exists c, m_concat A B a b = Some c /\ c = a * 2 ^ B + b /\
    m_take_msbs (A + B) A c = Some a /\ m_drop_lsbs (A + B) B c = Some a /\
    m_take_lsbs (A + B) B c = Some b /\ m_drop_msbs (A + B) A c = Some b.
Proof.
  intros HA HB HAB Ha Hb. exists (a * 2 ^ B + b). pose proof (join_bound a b A B HA HB Ha Hb) as J.
  split; [apply m_concat_ok; lia|]. split; [reflexivity|].
  rewrite m_take_msbs_ok, m_drop_lsbs_ok, m_take_lsbs_ok, m_drop_msbs_ok by lia.
  replace (A + B - A) with B by lia. rewrite (join_div a b B), (join_mod a b B) by lia. repeat split.
Qed.
Lemma concat_of_parts W k x : 0 <= k <= W -> W <= 128 -> 0 <= x < 2 ^ W ->
  exists h l, m_take_msbs W (W - k) x = Some h /\ m_take_lsbs W k x = Some l /\ 0 <= h < 2 ^ (W - k) /\ 0 <= l < 2 ^ k /\
    m_concat (W - k) k h l = Some x.
Proof.
  intros Hk HW Hx. exists (x / 2 ^ k), (x mod 2 ^ k).
  assert (B1 : 0 <= x / 2 ^ k < 2 ^ (W - k)) by (apply div_pow_lt; try lia; replace (k + (W - k)) with W by lia; lia).
  pose proof (mod_pow_bound x k ltac:(lia)) as B2.
  split; [rewrite m_take_msbs_ok by lia; do 3 f_equal; lia|]. split; [apply m_take_lsbs_ok; lia|].
  split; [exact B1|]. split; [exact B2|]. rewrite m_concat_ok by lia. f_equal.
  pose proof (pow2_pos k ltac:(lia)). pose proof (Z.div_mod x (2 ^ k) ltac:(lia)). lia.
Qed.
Lemma single_bits W x : 1 <= W <= 128 -> 0 <= x < 2 ^ W ->
  (forall b, 0 <= b < W -> m_get_bit W b x = Some (Z.b2z (Z.testbit x b))) /\
  m_take_lsb W x = Some (Z.b2z (Z.odd x)) /\ m_drop_lsb W x = Some (x / 2) /\
  m_take_msb W x = Some (if x <? 2 ^ (W - 1) then 0 else 1) /\
  m_drop_msb W x = Some (x mod 2 ^ (W - 1)).
Proof.
  intros HW Hx.
  assert (G : forall b, 0 <= b < W -> m_get_bit W b x = Some (Z.b2z (Z.testbit x b))).
  { intros b Hb. unfold m_get_bit. rewrite m_get_bits_ok by lia. f_equal. replace (b - b + 1) with 1 by lia. change (2 ^ 1) with 2.
    rewrite Z.testbit_odd, Z.shiftr_div_pow2 by lia. apply odd_mod2. }
  split; [exact G|]. split; [unfold m_take_lsb; rewrite G by lia; rewrite Z.bit0_odd; reflexivity|].
  assert (P : 2 ^ W = 2 * 2 ^ (W - 1)) by (rewrite <- pow2_S by lia; f_equal; lia).
  pose proof (pow2_pos (W - 1) ltac:(lia)). split.
  - unfold m_drop_lsb. destruct (Z.eq_dec W 1) as [->|].
    + change (m_get_bits 1 (1 - 1) 1 x) with (m_get_bits 1 (1 - 1) 1 x). rewrite m_get_bits_empty by (vm_compute; intuition congruence).
      change (2 ^ 1) with 2 in Hx. f_equal. symmetry. apply Z.div_small. lia.
    + rewrite m_get_bits_ok by lia. f_equal. change (2 ^ 1) with 2. replace (W - 1 - 1 + 1) with (W - 1) by lia.
      apply Z.mod_small. split; [apply Z.div_pos; lia|]. apply Z.div_lt_upper_bound; lia.
  - split.
    + unfold m_take_msb. unfold m_get_bit. rewrite m_get_bits_ok by lia. f_equal. replace (W - 1 - (W - 1) + 1) with 1 by lia. change (2 ^ 1) with 2.
      destruct (Z.ltb_spec x (2 ^ (W - 1))); [rewrite Z.div_small by lia; reflexivity|].
      replace (x / 2 ^ (W - 1)) with 1; [reflexivity|]. apply Z.div_unique with (x - 2 ^ (W - 1)); lia.
    + unfold m_drop_msb. destruct (Z.eq_dec W 1) as [->|].
      * change (1 - 2) with (0 - 1). rewrite m_get_bits_empty by (vm_compute; intuition congruence).
        change (2 ^ (1 - 1)) with 1. rewrite Z.mod_1_r. reflexivity.
      * rewrite m_get_bits_ok by lia. rewrite Z.pow_0_r, Z.div_1_r. do 3 f_equal. lia.
Qed.

(** Agreement with Fw.v. *)
Definition fw_agrees : Prop :=
  (forall W a b, 0 <= W <= 128 -> m_add W a b = Some (fadd W a b) /\ m_sub W a b = Some (fsub W a b)) /\
  (forall W O a b, 0 <= W -> 0 <= O -> O + W <= 128 -> wf W a -> wf O b -> m_mul W O a b = Some (fmul a b)) /\
  (forall W a b, 0 <= W <= 128 -> wf W a -> wf W b ->
     m_not W a = Some (fnot W a) /\ m_and W a b = Some (fand a b) /\ m_or W a b = Some (for_ W a b) /\
     m_xor W a b = Some (fxor W a b)) /\
  (forall W a d, 0 <= W <= 128 -> wf W a -> m_shr W a d = fshr W a d /\ m_shl W a d = fshl W a d) /\
  (forall W h l x, 0 <= W <= 128 -> l <= h -> wf W x -> m_get_bits W h l x = get_bits W h l x) /\
  (forall A B a b, 0 <= A -> 0 <= B -> A + B <= 128 -> wf A a -> wf B b -> m_concat A B a b = Some (cat B a b)) /\
  (forall W, 0 <= W <= 128 -> m_zg W = Some (zg W) /\ m_og W = Some (og W)) /\
  (forall W v, 0 <= W <= 128 -> - 2 ^ 31 <= v < 2 ^ 31 -> m_of_int W v = of_int W v) /\
  (forall WD WS x, 0 <= WS <= 128 -> wf WS x -> m_checked_cast WD WS x = checked_cast WD WS x) /\
  (forall a b, m_cmp Z.eqb a b = Some (feq a b) /\ m_cmp (fun x y => negb (x =? y)) a b = Some (fne a b) /\
     m_cmp Z.ltb a b = Some (flt a b) /\ m_cmp Z.leb a b = Some (fle a b) /\
     m_cmp (fun x y => y <? x) a b = Some (fgt a b) /\ m_cmp (fun x y => y <=? x) a b = Some (fge a b)) /\
  (forall x, m_to_int x = to_int x).
Lemma fw_agrees_proof : fw_agrees.
Proof.
  unfold fw_agrees, wf. split; [|split; [|split; [|split; [|split; [|split; [|split; [|split; [|split; [|split]]]]]]]]].
  - intros. rewrite m_add_ok, m_sub_ok, fadd_eq, fsub_eq by lia. split; reflexivity.
  - intros. rewrite m_mul_ok by lia. reflexivity.
  - intros. rewrite m_not_ok, m_and_ok, m_or_ok, m_xor_ok by lia. rewrite fnot_eq by lia. unfold fand, for_, fxor.
    rewrite !land_mask by lia. rewrite !Z.mod_small by (apply lor_wf || apply lxor_wf; lia). repeat split.
  - intros. destruct (Z.leb_spec 0 d), (Z.ltb_spec d W).
    + rewrite m_shr_ok, m_shl_ok, fshr_ok, fshl_ok by lia. split; reflexivity.
    + destruct (m_shift_bad W a d ltac:(lia)) as [-> ->]. unfold fshr, fshl. destruct (Z.ltb_spec d W); [lia|].
      rewrite andb_false_r. split; reflexivity.
    + destruct (m_shift_bad W a d ltac:(lia)) as [-> ->]. unfold fshr, fshl. destruct (Z.leb_spec 0 d); [lia|]. split; reflexivity.
    + destruct (m_shift_bad W a d ltac:(lia)) as [-> ->]. unfold fshr, fshl. destruct (Z.leb_spec 0 d); [lia|]. split; reflexivity.
  - intros. destruct (Z.ltb_spec h W) as [L|L]; [destruct (Z.leb_spec 0 l) as [L2|L2]|].
    + rewrite m_get_bits_ok, get_bits_ok by lia. reflexivity.
    + rewrite slice_outside by lia. unfold get_bits. destruct (Z.leb_spec 0 l); [lia|]. rewrite ?andb_false_r. reflexivity.
    + rewrite slice_outside by lia. unfold get_bits. destruct (Z.ltb_spec h W); [lia|]. rewrite ?andb_false_r, ?andb_false_l. reflexivity.
  - intros. rewrite m_concat_ok, cat_eq by lia. reflexivity.
  - intros. rewrite m_zg_ok, m_og_ok, og_eq by lia. split; reflexivity.
  - intros. destruct (Z.leb_spec 0 v), (Z.ltb_spec v (2 ^ W)).
    + rewrite m_of_int_ok, of_int_ok by lia. reflexivity.
    + rewrite m_of_int_bad by lia. unfold of_int. rewrite mask_pow by lia. destruct (Z.leb_spec v (2 ^ W - 1)); [lia|].
      rewrite ?andb_false_r. reflexivity.
    + rewrite m_of_int_bad by lia. unfold of_int. destruct (Z.leb_spec 0 v); [lia|]. rewrite ?andb_false_r. reflexivity.
    + rewrite m_of_int_bad by lia. unfold of_int. destruct (Z.leb_spec 0 v); [lia|]. rewrite ?andb_false_r. reflexivity.
  - intros. destruct (Z.eq_dec WD WS) as [->|].
    + rewrite m_checked_cast_ok, checked_cast_ok by lia. reflexivity.
    + rewrite m_checked_cast_bad by lia. unfold checked_cast. destruct (Z.eqb_spec WD WS); [lia|reflexivity].
  - intros. rewrite !m_cmp_ok. unfold feq, fne, flt, fle, fgt, fge. repeat split.
  - intros. unfold m_to_int, to_int, assert_, bind. destruct (x <=? 2 ^ 31 - 1); reflexivity.
Qed.

Lemma bitwise_all W a b : 0 <= W <= 128 -> 0 <= a < 2 ^ W -> 0 <= b < 2 ^ W ->
  exists n c d e, m_not W a = Some n /\ m_and W a b = Some c /\ m_or W a b = Some d /\ m_xor W a b = Some e /\
    n = 2 ^ W - 1 - a /\ 0 <= c < 2 ^ W /\ 0 <= d < 2 ^ W /\ 0 <= e < 2 ^ W /\
    forall i, 0 <= i < W -> Z.testbit n i = negb (Z.testbit a i) /\ Z.testbit c i = andb (Z.testbit a i) (Z.testbit b i) /\
      Z.testbit d i = orb (Z.testbit a i) (Z.testbit b i) /\ Z.testbit e i = xorb (Z.testbit a i) (Z.testbit b i).
Proof.
  intros HW Ha Hb. exists (fnot W a), (Z.land a b), (Z.lor a b), (Z.lxor a b).
  split; [rewrite m_not_ok, fnot_eq by lia; reflexivity|]. split; [apply m_and_ok; lia|]. split; [apply m_or_ok; lia|].
  split; [apply m_xor_ok; lia|]. split; [apply fnot_eq; lia|]. split; [apply land_wf; lia|]. split; [apply lor_wf; lia|].
  split; [apply lxor_wf; lia|]. intros i Hi. unfold fnot. rewrite Z.lxor_spec, testbit_mask by lia.
  destruct (Z.ltb_spec i W); [|lia]. rewrite Z.land_spec, Z.lor_spec, Z.lxor_spec. rewrite xorb_true_r. repeat split.
Qed.
Lemma or_all_ones W a : 0 <= W <= 128 -> 0 <= a < 2 ^ W ->
  m_or W a (2 ^ W - 1) = Some (2 ^ W - 1) /\ m_or_int W a (2 ^ W - 1) = None.
Proof.
  intros. split; [|apply m_or_int_all_ones; lia]. rewrite m_or_ok by lia. f_equal. rewrite <- mask_pow by lia.
  apply Z.bits_inj'. intros i Hi. rewrite Z.lor_spec, testbit_mask by lia. destruct (Z.ltb_spec i W).
  - apply orb_true_r.
  - rewrite (testbit_small W a i) by lia. reflexivity.
Qed.
Lemma of_int_spec W v : 0 <= W <= 128 -> - 2 ^ 31 <= v < 2 ^ 31 ->
  m_of_int W v = if (0 <=? v) && (v <? 2 ^ W) then Some v else None.
Proof.
  intros. destruct (Z.leb_spec 0 v), (Z.ltb_spec v (2 ^ W)); cbn [andb]; [apply m_of_int_ok; lia|apply m_of_int_bad; lia..].
Qed.
