(** SoftFloat's integer primitives do what primitives.h documents. *)
From Coq Require Import ZArith Bool List Lia.
From Verif Require Import Fw FwLemmas SpecLemmas Sf754Lemmas SoftFloat SfProofs1 SfProofs2 SfProofs8 SfPrim SpecPrim.
Open Scope Z_scope.

Lemma neg_and d : 1 <= d <= 63 -> Z.land (- d) 63 = 64 - d.
Proof. intros H. change 63 with (Z.ones 6). rewrite Z.land_ones by lia. symmetry. apply (Z.mod_unique _ _ (-1)); [left|]; change (2 ^ 6) with 64; lia. Qed.
Lemma neg_and8 d : 1 <= d <= 63 -> Z.land (uw 8 (- d)) 63 = 64 - d.
Proof.
  intros H. unfold uw. replace (- d mod 2 ^ 8) with (256 - d). 2: { apply (Z.mod_unique _ _ (-1)); [left|]; change (2 ^ 8) with 256; lia. }
  change 63 with (Z.ones 6). rewrite Z.land_ones by lia. symmetry. apply (Z.mod_unique _ _ 3); [left|]; change (2 ^ 6) with 64; lia.
Qed.

Lemma ushl_small W x k : 0 <= k < W -> uint W x -> ushl W x k = Some (x mod 2 ^ (W - k) * 2 ^ k).
Proof.
  intros Hk Hx. unfold ushl, assert_. replace ((0 <=? k) && (k <? W)) with true by (symmetry; apply andb_true_iff; split; [apply Z.leb_le|apply Z.ltb_lt]; lia).
  cbn [bind]. f_equal. unfold uw. rewrite Z.shiftl_mul_pow2 by lia.
  replace (2 ^ W) with (2 ^ (W - k) * 2 ^ k) by (rewrite <- pow2_add by lia; f_equal; lia).
  pose proof (pow2_pos k ltac:(lia)). pose proof (pow2_pos (W - k) ltac:(lia)). apply Z.mul_mod_distr_r; lia.
Qed.
Lemma ushr_small W x k : 0 <= k < W -> uint W x -> ushr W x k = Some (x / 2 ^ k).
Proof.
  intros Hk Hx. unfold ushr, assert_, uw. replace ((0 <=? k) && (k <? W)) with true by (symmetry; apply andb_true_iff; split; [apply Z.leb_le|apply Z.ltb_lt]; lia).
  cbn [bind]. f_equal. rewrite Z.mod_small by exact Hx. apply Z.shiftr_div_pow2. lia.
Qed.

Lemma split64 d : 0 <= d <= 64 -> 2 ^ 64 = 2 ^ d * 2 ^ (64 - d) /\ 0 < 2 ^ d /\ 0 < 2 ^ (64 - d).
Proof. intros H. rewrite <- pow2_add by lia. split; [f_equal; lia|]. split; apply pow2_pos; lia. Qed.

Lemma shortShiftLeft128_ok a64 a0 d : uint 64 a64 -> uint 64 a0 -> 1 <= d <= 63 ->
  exists z, shortShiftLeft128 a64 a0 d = Some z /\ uint 64 (fst z) /\ uint 64 (snd z) /\
    cat2 z = (cat a64 a0 * 2 ^ d) mod 2 ^ 128.
Proof.
  intros Ha Hb Hd. unfold shortShiftLeft128. rewrite neg_and, !ushl_small, ushr_small by (assumption || lia). cbn [bind].
  destruct (split64 d ltac:(lia)) as (S & P & Q). unfold uint in *. rewrite lor_join; [|lia|].
  2: { split; [apply Z.div_pos; lia|]. apply Z.div_lt_upper_bound; lia. }
  eexists. split; [reflexivity|]. unfold cat2, cat. cbn [fst snd]. rewrite S in *. change (2 ^ 128) with (2 ^ 64 * 2 ^ 64). rewrite S.
  remember (2 ^ d) as p. remember (2 ^ (64 - d)) as q.
  pose proof (Z.div_mod a64 q ltac:(lia)) as D1. pose proof (Z.mod_pos_bound a64 q Q) as B1.
  pose proof (Z.div_mod a0 q ltac:(lia)) as D2. pose proof (Z.mod_pos_bound a0 q Q) as B2.
  assert (0 <= a0 / q < p) by (split; [apply Z.div_pos; lia|apply Z.div_lt_upper_bound; lia]).
  assert (R1 : 0 <= a64 mod q * p + a0 / q < p * q) by nia.
  assert (R2 : 0 <= a0 mod q * p < p * q) by nia.
  split; [exact R1|]. split; [exact R2|].
  apply (Z.mod_unique _ _ (a64 / q)); [left; nia|].
  rewrite D1 at 1. rewrite D2 at 1. ring.
Qed.

Lemma shr_words a64 a0 d : uint 64 a64 -> uint 64 a0 -> 1 <= d <= 63 ->
  uint 64 (a64 / 2 ^ d) /\ uint 64 (a64 mod 2 ^ d * 2 ^ (64 - d) + a0 / 2 ^ d) /\ 0 <= a0 / 2 ^ d < 2 ^ (64 - d) /\
  cat (a64 / 2 ^ d) (a64 mod 2 ^ d * 2 ^ (64 - d) + a0 / 2 ^ d) = cat a64 a0 / 2 ^ d /\
  cat a64 a0 mod 2 ^ d = a0 mod 2 ^ d.
Proof.
  intros Ha Hb Hd. destruct (split64 d ltac:(lia)) as (S & P & Q). unfold uint, cat in *. rewrite S in *.
  remember (2 ^ d) as p. remember (2 ^ (64 - d)) as q.
  pose proof (Z.div_mod a64 p ltac:(lia)) as D1. pose proof (Z.mod_pos_bound a64 p P) as B1.
  pose proof (Z.div_mod a0 p ltac:(lia)) as D2. pose proof (Z.mod_pos_bound a0 p P) as B2.
  assert (0 <= a0 / p < q) by (split; [apply Z.div_pos; lia|apply Z.div_lt_upper_bound; lia]).
  assert (0 <= a64 / p < q) by (split; [apply Z.div_pos; lia|apply Z.div_lt_upper_bound; lia]).
  split; [nia|]. split; [nia|]. split; [assumption|].
  replace (a64 * (p * q) + a0) with (a0 + a64 * q * p) by ring.
  rewrite Z.div_add, Z.mod_add by lia. split; [|reflexivity]. rewrite D1 at 3. ring.
Qed.

Lemma shortShiftRight128_ok a64 a0 d : uint 64 a64 -> uint 64 a0 -> 1 <= d <= 63 ->
  exists z, shortShiftRight128 a64 a0 d = Some z /\ uint 64 (fst z) /\ uint 64 (snd z) /\
    cat2 z = cat a64 a0 / 2 ^ d.
Proof.
  intros Ha Hb Hd. unfold shortShiftRight128. rewrite neg_and, !ushr_small, ushl_small by (assumption || lia). cbn [bind].
  replace (64 - (64 - d)) with d by lia. destruct (shr_words a64 a0 d Ha Hb Hd) as (R1 & R2 & R3 & R4 & _).
  rewrite lor_join by lia. eexists. split; [reflexivity|]. unfold cat2. cbn [fst snd]. auto.
Qed.

Lemma lor_b2z q b : 0 <= q -> Z.lor q (Z.b2z b) = if b then (if Z.odd q then q else q + 1) else q.
Proof.
  intros Hq. destruct b; cbn [Z.b2z]; [|apply Z.lor_0_r]. rewrite lor_1_val by lia. rewrite <- Z.negb_even. destruct (Z.even q); reflexivity.
Qed.

Lemma shift_mod_zero x d W : 0 <= d < W -> uint W x -> (x mod 2 ^ d * 2 ^ (W - d) =? 0) = (x mod 2 ^ d =? 0).
Proof.
  intros Hd Hx. pose proof (pow2_pos d ltac:(lia)). pose proof (pow2_pos (W - d) ltac:(lia)).
  destruct (Z.eqb_spec (x mod 2 ^ d) 0) as [->|N]; [reflexivity|]. apply Z.eqb_neq. nia.
Qed.

Lemma shortShiftRightJam128_ok a64 a0 d : uint 64 a64 -> uint 64 a0 -> 1 <= d <= 63 ->
  exists z, shortShiftRightJam128 a64 a0 d = Some z /\ uint 64 (fst z) /\ uint 64 (snd z) /\
    cat2 z = shift_right_jam (cat a64 a0) d.
Proof.
  intros Ha Hb Hd. unfold shortShiftRightJam128. rewrite neg_and8, !ushr_small, !ushl_small by (assumption || lia). cbn [bind].
  replace (64 - (64 - d)) with d by lia. destruct (shr_words a64 a0 d Ha Hb Hd) as (R1 & R2 & R3 & R4 & R5).
  rewrite lor_join by lia. rewrite shift_mod_zero by (assumption || lia).
  eexists. split; [reflexivity|]. unfold cat2. cbn [fst snd]. split; [exact R1|].
  unfold shift_right_jam. rewrite R5, <- R4.
  remember (a64 mod 2 ^ d * 2 ^ (64 - d) + a0 / 2 ^ d) as q. unfold uint in *.
  rewrite lor_b2z by lia.
  assert (HO : Z.odd (cat (a64 / 2 ^ d) q) = Z.odd q).
  { unfold cat. rewrite Z.odd_add, Z.odd_mul. change (Z.odd (2 ^ 64)) with false. rewrite andb_false_r. apply xorb_false_l. }
  rewrite HO. destruct (a0 mod 2 ^ d =? 0); cbn [negb].
  - split; [lia|]. reflexivity.
  - rewrite <- (Z.negb_even q), Zeven_mod. pose proof (Z.mod_pos_bound q 2 ltac:(lia)). pose proof (Z.div_mod q 2 ltac:(lia)).
    change (2 ^ 64) with (2 * 2 ^ 63) in *. unfold Zeq_bool. rewrite <- Z.eqb_compare in *.
    destruct (Z.eqb_spec (q mod 2) 0) as [N|N]; cbn [negb]; unfold cat; split; lia.
Qed.

(** The extra uint. *)
Lemma extra_or e x k b extra : uint 64 e -> 0 <= extra < 2 ^ 64 -> b = negb (extra =? 0) ->
  Z.testbit e 63 = Z.testbit x (k - 1) ->
  (x mod 2 ^ (k - 1) = 0 <-> e mod 2 ^ 63 = 0 /\ extra = 0) ->
  extra_field x k (Z.lor e (Z.b2z b)).
Proof.
  intros He Hx Hb HT HZ. unfold extra_field. split; [|split].
  - apply lor_bound; [lia|exact He|]. destruct b; cbn; lia.
  - rewrite Z.lor_spec, HT. replace (Z.testbit (Z.b2z b) 63) with false by (destruct b; reflexivity). apply orb_false_r.
  - rewrite HZ. rewrite <- !Z.land_ones by lia. rewrite Z.land_lor_distr_l, Z.lor_eq_0_iff.
    assert (Z.land (Z.b2z b) (Z.ones 63) = 0 <-> extra = 0).
    { subst b. destruct (Z.eqb_spec extra 0) as [->|N]; cbn [negb Z.b2z].
      - split; reflexivity.
      - split; [intros C; vm_compute in C; discriminate|lia]. }
    tauto.
Qed.

Lemma cat_bits a x k : uint 64 x -> 0 <= k -> Z.testbit (cat a x) (64 + k) = Z.testbit a k.
Proof.
  intros Hx Hk. replace (64 + k) with (k + 64) by lia. rewrite <- Z.div_pow2_bits by lia. f_equal.
  unfold cat. rewrite Z.add_comm, Z.div_add by lia. rewrite Z.div_small by exact Hx. lia.
Qed.
Lemma cat_mod a x k : uint 64 x -> 0 <= k -> cat a x mod 2 ^ (64 + k) = cat (a mod 2 ^ k) x.
Proof.
  intros Hx Hk. rewrite pow2_add by lia. pose proof (pow2_pos k Hk). unfold cat, uint in *.
  symmetry. apply (Z.mod_unique _ _ (a / 2 ^ k)).
  - left. pose proof (Z.mod_pos_bound a (2 ^ k) ltac:(lia)). nia.
  - rewrite (Z.div_mod a (2 ^ k)) at 1 by lia. ring.
Qed.
Lemma cat_div a x k : uint 64 x -> 0 <= k -> cat a x / 2 ^ (64 + k) = a / 2 ^ k.
Proof.
  intros Hx Hk. rewrite pow2_add by lia. pose proof (pow2_pos k Hk). rewrite <- Z.div_div by lia. f_equal.
  unfold cat. rewrite Z.add_comm, Z.div_add by lia. rewrite Z.div_small by exact Hx. lia.
Qed.

Lemma extra_short a extra d : uint 64 a -> uint 64 extra -> 1 <= d <= 63 ->
  extra_field (cat a extra) (64 + d) (Z.lor (a mod 2 ^ d * 2 ^ (64 - d)) (Z.b2z (negb (extra =? 0)))).
Proof.
  intros Ha Hx Hd. destruct (split64 d ltac:(lia)) as (S & P & Q).
  assert (HP : 2 ^ d = 2 * 2 ^ (d - 1)) by (replace d with (d - 1 + 1) at 1 by lia; apply pow2_S; lia).
  pose proof (pow2_pos (d - 1) ltac:(lia)) as P'.
  pose proof (Z.mod_pos_bound a (2 ^ d) P) as B.
  apply (extra_or _ _ _ _ extra); [|exact Hx|reflexivity| |].
  - unfold uint. rewrite S. nia.
  - replace (64 + d - 1) with (64 + (d - 1)) by lia. rewrite cat_bits by (assumption || lia).
    rewrite Z.mul_pow2_bits by lia. replace (63 - (64 - d)) with (d - 1) by lia. apply Z.mod_pow2_bits_low. lia.
  - replace (64 + d - 1) with (64 + (d - 1)) by lia. rewrite cat_mod by (assumption || lia).
    replace (2 ^ 63) with (2 ^ (d - 1) * 2 ^ (64 - d)) by (rewrite <- pow2_add by lia; f_equal; lia).
    rewrite Z.mul_mod_distr_r by lia.
    replace ((a mod 2 ^ d) mod 2 ^ (d - 1)) with (a mod 2 ^ (d - 1)).
    2: { rewrite HP, (Z.mul_comm 2), Z.rem_mul_r by lia. rewrite Z.mul_comm, Z.mod_add by lia. symmetry. apply Z.mod_mod. lia. }
    pose proof (Z.mod_pos_bound a (2 ^ (d - 1)) P') as B'. unfold cat, uint in *. split; intros; nia.
Qed.

Lemma shortShiftRightJam64Extra_ok a extra d : uint 64 a -> uint 64 extra -> 1 <= d <= 63 ->
  exists v e, shortShiftRightJam64Extra a extra d = Some (v, e) /\
    v = cat a extra / 2 ^ (64 + d) /\ extra_field (cat a extra) (64 + d) e.
Proof.
  intros Ha Hx Hd. unfold shortShiftRightJam64Extra. rewrite neg_and, ushr_small, ushl_small by (assumption || lia). cbn [bind].
  replace (64 - (64 - d)) with d by lia. do 2 eexists. split; [reflexivity|]. split; [rewrite cat_div by (assumption || lia); reflexivity|].
  apply extra_short; assumption.
Qed.

Lemma shortShiftRightJam128Extra_ok a64 a0 extra d : uint 64 a64 -> uint 64 a0 -> uint 64 extra -> 1 <= d <= 63 ->
  exists z64 z0 e, shortShiftRightJam128Extra a64 a0 extra d = Some (z64, z0, e) /\ uint 64 z64 /\ uint 64 z0 /\
    cat z64 z0 = cat (cat a64 a0) extra / 2 ^ (64 + d) /\ extra_field (cat (cat a64 a0) extra) (64 + d) e.
Proof.
  intros Ha Hb Hx Hd. unfold shortShiftRightJam128Extra. rewrite neg_and8, !ushr_small, !ushl_small by (assumption || lia). cbn [bind].
  replace (64 - (64 - d)) with d by lia. destruct (shr_words a64 a0 d Ha Hb Hd) as (R1 & R2 & R3 & R4 & R5).
  rewrite lor_join by lia. do 3 eexists. split; [reflexivity|]. split; [exact R1|]. split; [exact R2|].
  split; [rewrite cat_div by (assumption || lia); exact R4|].
  destruct (extra_short a0 extra d Hb Hx Hd) as (X1 & X2 & X3). split; [exact X1|]. split.
  - rewrite X2. replace (64 + d - 1) with (64 + (d - 1)) by lia. rewrite !cat_bits by (assumption || lia).
    unfold cat. rewrite <- (Z.mod_pow2_bits_low (a64 * 2 ^ 64 + a0) 64) by lia. rewrite Z.add_comm, Z.mod_add by lia.
    rewrite Z.mod_small by exact Hb. reflexivity.
  - rewrite X3. replace (64 + d - 1) with (64 + (d - 1)) by lia. rewrite !cat_mod by (assumption || lia).
    replace (cat a64 a0 mod 2 ^ (d - 1)) with (a0 mod 2 ^ (d - 1)); [reflexivity|].
    unfold cat. replace (2 ^ 64) with (2 ^ (65 - d) * 2 ^ (d - 1)) by (rewrite <- pow2_add by lia; f_equal; lia).
    rewrite Z.mul_assoc, Z.add_comm, Z.mod_add by (pose proof (pow2_pos (d - 1) ltac:(lia)); lia). reflexivity.
Qed.

Lemma shiftRightJam64Extra_ok a extra d : uint 64 a -> uint 64 extra -> 1 <= d ->
  exists v e, shiftRightJam64Extra a extra d = Some (v, e) /\
    v = cat a extra / 2 ^ (64 + d) /\ extra_field (cat a extra) (64 + d) e.
Proof.
  intros Ha Hx Hd. unfold shiftRightJam64Extra. destruct (Z.ltb_spec d 64) as [L|G].
  { destruct (shortShiftRightJam64Extra_ok a extra d Ha Hx ltac:(lia)) as (v & e & H & HR).
    exists v, e. split; [|exact HR]. revert H. unfold shortShiftRightJam64Extra.
    destruct (ushr 64 a d); cbn [bind]; [|discriminate]. destruct (ushl 64 a (Z.land (- d) 63)); cbn [bind]; [|discriminate]. auto. }
  cbn [bind]. do 2 eexists. split; [reflexivity|].
  assert (HP : 2 ^ 64 <= 2 ^ d) by (apply pow2_le; lia).
  split; [rewrite cat_div by (assumption || lia); symmetry; apply Z.div_small; unfold uint in Ha; lia|].
  apply (extra_or _ _ _ _ extra); [|exact Hx|reflexivity| |].
  - destruct (d =? 64); [exact Ha|]. unfold uint. destruct (a =? 0); cbn; lia.
  - replace (64 + d - 1) with (64 + (d - 1)) by lia. rewrite cat_bits by (assumption || lia).
    destruct (Z.eqb_spec d 64) as [->|N]; [reflexivity|].
    replace (Z.testbit a (d - 1)) with false.
    2: { symmetry. destruct (Z.eq_dec a 0) as [->|]; [apply Z.bits_0|]. apply Z.bits_above_log2; [unfold uint in Ha; lia|].
         apply Z.log2_lt_pow2; [unfold uint in Ha; lia|]. unfold uint in Ha. assert (2 ^ 64 <= 2 ^ (d - 1)) by (apply pow2_le; lia). lia. }
    destruct (a =? 0); reflexivity.
  - replace (64 + d - 1) with (64 + (d - 1)) by lia. rewrite cat_mod by (assumption || lia).
    destruct (Z.eqb_spec d 64) as [->|N].
    + change (64 - 1) with 63. pose proof (Z.mod_pos_bound a (2 ^ 63) ltac:(lia)). unfold cat, uint in *. split; intros; lia.
    + assert (2 ^ 64 <= 2 ^ (d - 1)) by (apply pow2_le; lia). unfold uint in *. rewrite Z.mod_small by lia.
      unfold cat. destruct (Z.eqb_spec a 0) as [->|Na]; cbn [negb Z.b2z].
      * split; intros; [split; [reflexivity|lia]|lia].
      * split; [intros; lia|]. intros [C _]. vm_compute in C. discriminate.
Qed.
