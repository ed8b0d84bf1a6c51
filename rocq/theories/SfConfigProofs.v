(** The settings of SoftFloat do not change a result. *)
From Coq Require Import ZArith Zpow_facts Bool Lia.
From Verif Require Import Spec Spec754 Fw FwLemmas SpecLemmas Sf754Lemmas SoftFloat SfProofs1 SfProofs2 SfProofs3 SfProofs4 SfProofs5 SfProofs6 SfProofs8 SfProofs9 SfProofs10 SpecNan NanProofs2 SfPrim SpecPrim SfPrimProofs SfPrimProofs2 SfConfig.
Open Scope Z_scope.

Lemma not_nan_dec (v : fval) : {v = NaN} + {v <> NaN}.
Proof. destruct v; [left; reflexivity|right; discriminate|right; discriminate|right; discriminate]. Qed.

(** Two versions with the same value are the same. *)
Lemma same_words E F W r1 r2 v : 3 <= E <= 15 -> 1 <= F -> W = E + F + 1 -> v <> NaN ->
  okr E F W r1 v -> okr E F W r2 v -> r1 = r2.
Proof.
  intros HE HF HW N (x & -> & X1 & X2) (y & -> & Y1 & Y2). subst W. f_equal. apply (word754_unique E F); try assumption; congruence.
Qed.

Section Two.
Context (E F U C W : Z).
Context (HW : W = E + F + 1) (HE : 4 <= E <= 15) (HF : 2 <= F) (HU : W <= U) (HC : 16 <= C) (H64 : W <= 64).
Context (Hpow : exists w, 0 <= w /\ W = 2 ^ w) (HE14 : E <= 14).

Lemma mul_same m1 m2 a b :
  (forall x y, 2 ^ F <= x < 2 ^ (F + 1) -> 2 ^ F <= y < 2 ^ (F + 1) -> m1 x y = Some (jam (x * y * 2 ^ (2 * E - 1)) (2 ^ W))) ->
  (forall x y, 2 ^ F <= x < 2 ^ (F + 1) -> 2 ^ F <= y < 2 ^ (F + 1) -> m2 x y = Some (jam (x * y * 2 ^ (2 * E - 1)) (2 ^ W))) ->
  0 <= a < 2 ^ W -> 0 <= b < 2 ^ W -> sf_mul E F U C m1 a b = sf_mul E F U C m2 a b.
Proof.
  intros H1 H2 Ha Hb.
  destruct (not_nan_dec (mul754 E F (decode754 E F a) (decode754 E F b))) as [N|N].
  - rewrite !(mul_nan_ok E F U C W HW HE HF) by assumption. reflexivity.
  - apply (same_words E F W _ _ (mul754 E F (decode754 E F a) (decode754 E F b))); try assumption; try lia;
      apply sf_mul_ok; try assumption; lia.
Qed.

Lemma div_same d1 d2 a b :
  (forall x y, 2 ^ F <= x < 2 ^ (F + 1) -> 2 ^ F <= y < 2 ^ (F + 1) ->
    exists r, d1 x y = Some r /\ 2 ^ (W - 2) <= r < 2 ^ (W - 1) /\ jam (2 * r) (2 ^ (E - 2)) = jam (2 * div_num W x y) (y * 2 ^ (E - 2))) ->
  (forall x y, 2 ^ F <= x < 2 ^ (F + 1) -> 2 ^ F <= y < 2 ^ (F + 1) ->
    exists r, d2 x y = Some r /\ 2 ^ (W - 2) <= r < 2 ^ (W - 1) /\ jam (2 * r) (2 ^ (E - 2)) = jam (2 * div_num W x y) (y * 2 ^ (E - 2))) ->
  0 <= a < 2 ^ W -> 0 <= b < 2 ^ W -> sf_div E F U C d1 a b = sf_div E F U C d2 a b.
Proof.
  intros H1 H2 Ha Hb.
  destruct (not_nan_dec (div754 E F (decode754 E F a) (decode754 E F b))) as [N|N].
  - rewrite !(div_nan_ok E F U C W HW HE HF) by assumption. reflexivity.
  - apply (same_words E F W _ _ (div754 E F (decode754 E F a) (decode754 E F b))); try assumption; try lia;
      apply sf_div_ok; try assumption; lia.
Qed.
End Two.

Lemma f32_before_ok U a b : 32 <= U -> 2 ^ 23 <= a < 2 ^ (23 + 1) -> 2 ^ 23 <= b < 2 ^ (23 + 1) ->
  f32_mulsig_before U a b = Some (jam (a * b * 2 ^ (2 * 8 - 1)) (2 ^ 32)).
Proof.
  intros HU Ha Hb. rewrite <- (f32_mulsig_ok U a b HU Ha Hb). unfold f32_mulsig_before, f32_mulsig.
  assert (UP : 2 ^ 32 <= 2 ^ U) by (apply pow2_le; lia). change (23 + 1) with 24 in *.
  rewrite !ushl_ok by lia. cbn [bind]. unfold assert_.
  replace (a <? 2 ^ 24) with true by (symmetry; apply Z.ltb_lt; lia). replace (b <? 2 ^ 24) with true by (symmetry; apply Z.ltb_lt; lia).
  cbn [bind].
  assert (AB : 0 < a * b < 2 ^ 48) by (split; [apply Z.mul_pos_pos; lia|change (2 ^ 48) with (2 ^ 24 * 2 ^ 24); apply Z.mul_lt_mono_nonneg; lia]).
  unfold uw at 3. rewrite (Z.mod_small (a * b)) by lia. rewrite ushl_ok by lia. cbn [bind]. do 2 f_equal.
  unfold uw. replace (a * 2 ^ 7 * (b * 2 ^ 8)) with (a * b * 2 ^ 15) by ring. rewrite Z.mod_small by lia. reflexivity.
Qed.

Lemma f64_int64_ok m a b : (forall x y, uint 64 x -> uint 64 y -> uint 64 (fst (m x y)) /\ uint 64 (snd (m x y)) /\ cat2 (m x y) = x * y) ->
  2 ^ 52 <= a < 2 ^ (52 + 1) -> 2 ^ 52 <= b < 2 ^ (52 + 1) ->
  f64_mulsig_int64 m a b = Some (jam (a * b * 2 ^ (2 * 11 - 1)) (2 ^ 64)).
Proof.
  intros Hm Ha Hb. unfold f64_mulsig_int64. change (52 + 1) with 53 in *. rewrite !ushl_ok by lia. cbn [bind]. f_equal.
  destruct (Hm (a * 2 ^ 10) (b * 2 ^ 11) ltac:(unfold uint; lia) ltac:(unfold uint; lia)) as (M1 & M2 & M3).
  replace (a * b * 2 ^ (2 * 11 - 1)) with (a * 2 ^ 10 * (b * 2 ^ 11)) by (change (2 ^ (2 * 11 - 1)) with (2 ^ 10 * 2 ^ 11); ring).
  rewrite <- M3. unfold cat2, cat, uint, jam in *. remember (fst (m _ _)) as h. remember (snd (m _ _)) as l.
  replace ((h * 2 ^ 64 + l) / 2 ^ 64) with h by (apply (Z.div_unique _ _ _ l); lia).
  replace ((h * 2 ^ 64 + l) mod 2 ^ 64) with l by (apply (Z.mod_unique _ _ h); lia). reflexivity.
Qed.

Lemma f64_portable_eq a b : 2 ^ 52 <= a < 2 ^ (52 + 1) -> 2 ^ 52 <= b < 2 ^ (52 + 1) -> f64_mulsig_portable a b = f64_mulsig a b.
Proof.
  intros Ha Hb. unfold f64_mulsig_portable, f64_mulsig. change (52 + 1) with 53 in *. rewrite !ushl_ok by lia. cbn [bind].
  destruct (mul64To128M_ok (a * 2 ^ 10) (b * 2 ^ 11) ltac:(unfold uint; lia) ltac:(unfold uint; lia)) as [-> _].
  unfold mul64To128M_inline. cbv zeta.
  assert (U1 : uw 64 (a * 2 ^ 10) = a * 2 ^ 10) by (apply Z.mod_small; lia).
  assert (U2 : uw 64 (b * 2 ^ 11) = b * 2 ^ 11) by (apply Z.mod_small; lia). rewrite !U1, !U2.
  change (32 * 3) with 96. change (32 * 2) with 64. change (32 * 1) with 32. change (32 * 0) with 0. rewrite Z.shiftr_0_r.
  replace (uw 64 (Z.shiftl (uw 32 (Z.shiftr (uw 128 (a * 2 ^ 10 * (b * 2 ^ 11))) 96)) 32)) with
    (Z.shiftl (uw 32 (Z.shiftr (uw 128 (a * 2 ^ 10 * (b * 2 ^ 11))) 96)) 32); [reflexivity|].
  unfold uw. rewrite Z.shiftl_mul_pow2 by lia. symmetry. apply Z.mod_small.
  pose proof (Z.mod_pos_bound (Z.shiftr ((a * 2 ^ 10 * (b * 2 ^ 11)) mod 2 ^ 128) 96) (2 ^ 32) ltac:(lia)). lia.
Qed.

Lemma f32_div64_ok U a b : 32 <= U -> 2 ^ 23 <= a < 2 ^ (23 + 1) -> 2 ^ 23 <= b < 2 ^ (23 + 1) ->
  exists r, f32_divsig_div64 U a b = Some r /\ 2 ^ (32 - 2) <= r < 2 ^ (32 - 1) /\
    jam (2 * r) (2 ^ (8 - 2)) = jam (2 * div_num 32 a b) (b * 2 ^ (8 - 2)).
Proof.
  intros HU Ha Hb. assert (UP : 2 ^ 32 <= 2 ^ U) by (apply pow2_le; lia).
  unfold f32_divsig_div64. change (23 + 1) with 24 in *. change (32 - 2) with 30. change (32 - 1) with 31. change (8 - 2) with 6.
  assert (HN : ushl 64 a (if a <? b then 31 else 30) = Some (div_num 32 a b) /\ b * 2 ^ 30 <= div_num 32 a b < b * (2 ^ 31 - 64)).
  { unfold div_num. destruct (Z.ltb_spec a b); rewrite ushl_ok by lia; (split; [f_equal; lia|lia]). }
  destruct HN as [-> HN]. cbn [bind]. unfold assert_. replace (b =? 0) with false by (symmetry; apply Z.eqb_neq; lia). cbn [negb bind].
  remember (div_num 32 a b) as N eqn:EN. clear EN.
  assert (HQ : 2 ^ 30 <= N / b < 2 ^ 31 - 64) by (split; [apply Z.div_le_lower_bound; lia|apply Z.div_lt_upper_bound; lia]).
  pose proof (Z.div_mod N b ltac:(lia)) as DM. pose proof (Z.mod_pos_bound N b ltac:(lia)) as BM.
  remember (N / b) as q eqn:Eq. remember (N mod b) as r eqn:Er. clear Eq Er.
  unfold uw. rewrite !(Z.mod_small q) by lia.
  assert (Hqb : 0 <= b * q < 2 ^ 64) by nia. rewrite (Z.mod_small (b * q)) by lia.
  eexists. split; [reflexivity|].
  change 63 with (2 ^ 6 - 1). rewrite land_low by lia.
  assert (QK : q = 64 * (q / 2 ^ 6) + q mod 2 ^ 6) by (apply (Z.div_mod q (2 ^ 6)); lia).
  pose proof (Z.mod_pos_bound q (2 ^ 6) ltac:(lia)) as QM. change (2 ^ 6) with 64 in *. remember (q / 64) as k eqn:Ek. clear Ek.
  destruct (Z.eqb_spec (q mod 64) 0) as [Z0|N0].
  - rewrite lor_b2z by lia. assert (Hodd : Z.odd q = false) by (rewrite QK, Z0, Z.add_0_r, Z.odd_mul; reflexivity). rewrite Hodd.
    destruct (Z.eqb_spec (b * q) N) as [EQ|NE]; cbn [negb].
    + split; [lia|]. apply (jam_side N b 64 _ k); [lia|lia|lia|right; nia].
    + split; [lia|]. apply (jam_side N b 64 _ k); [lia|lia|lia|left; nia].
  - split; [lia|]. apply (jam_side N b 64 _ k); [lia|lia|lia|left; nia].
Qed.

Lemma rem_half x : - 2 ^ 62 <= x < 2 ^ 62 -> Z.testbit ((2 * x) mod 2 ^ 64) 63 = Z.testbit (x mod 2 ^ 64) 63 /\ ((2 * x) mod 2 ^ 64 =? 0) = (x mod 2 ^ 64 =? 0).
Proof.
  intros H. rewrite !sign_bit, !mod64_zero by lia. split.
  - destruct (Z.ltb_spec (2 * x) 0), (Z.ltb_spec x 0); lia || reflexivity.
  - destruct (Z.eqb_spec (2 * x) 0), (Z.eqb_spec x 0); lia || reflexivity.
Qed.

Lemma f32_int64_eq U a b : 32 <= U -> 2 ^ 23 <= a < 2 ^ (23 + 1) -> 2 ^ 23 <= b < 2 ^ (23 + 1) -> f32_divsig_int64 U a b = f32_divsig U a b.
Proof.
  intros HU Ha Hb. assert (UP : 2 ^ 32 <= 2 ^ U) by (apply pow2_le; lia).
  unfold f32_divsig_int64, f32_divsig. change (23 + 1) with 24 in *.
  assert (HA : exists A, ushl U a (if a <? b then 8 else 7) = Some A /\ A <= b * 2 ^ 8 - 128 /\ b * 2 ^ 8 <= 2 * A).
  { destruct (Z.ltb_spec a b) as [L|G].
    - exists (a * 2 ^ 8). rewrite ushl_ok by lia. split; [reflexivity|]. lia.
    - exists (a * 2 ^ 7). rewrite ushl_ok by lia. split; [reflexivity|]. lia. }
  destruct HA as (A & -> & A1 & A2). rewrite (ushl_ok U b 8) by lia. cbn [bind]. cbv zeta.
  remember (b * 2 ^ 8) as B eqn:EB.
  assert (HB : 2 ^ 31 <= B < 2 ^ 32) by lia. assert (BM : B mod 256 = 0) by (subst B; change (2 ^ 8) with 256; apply Z.mod_mul; lia).
  assert (UB : uw 32 B = B) by (apply Z.mod_small; lia). rewrite UB.
  destruct (f32_divsig_core U A B HU HB BM A1 A2) as (C1 & C2 & C3).
  remember (A * approxRecip32_1 U B) as ar eqn:Ear.
  assert (U1 : uw 64 ar = ar) by (apply Z.mod_small; lia). rewrite U1, !Z.shiftr_div_pow2 by lia.
  remember (ar / 2 ^ 32 + 2) as z eqn:Ez. replace (ar / 2 ^ 32) with (z - 2) by lia. clear Ear Ez U1.
  assert (U2 : uw U (z - 2) = z - 2) by (apply Z.mod_small; lia). rewrite !U2. replace (z - 2 + 2) with z by lia.
  assert (U3 : uw U z = z) by (apply Z.mod_small; lia). rewrite !U3. f_equal.
  change (Z.land z 63) with (Z.land z (2 ^ 6 - 1)). rewrite !land_low by lia. change (Z.lnot 3) with (Z.lnot (2 ^ 2 - 1)). rewrite land_lnot_low by lia.
  destruct (Z.ltb_spec (z mod 2 ^ 6) 2) as [L|G]; [|reflexivity].
  assert (ZM : 0 <= z mod 2 ^ 2 <= 1) by (clear - L; Z.to_euclidean_division_equations; lia).
  remember (z - z mod 2 ^ 2) as y eqn:Ey. assert (HY : z - 1 <= y <= z) by lia. clear Ey ZM L.
  assert (U4 : uw U (Z.shiftl y 1) = 2 * y) by (unfold uw; rewrite Z.shiftl_mul_pow2 by lia; rewrite Z.mod_small by lia; lia). rewrite U4.
  unfold uw. rewrite !Z.shiftl_mul_pow2 by lia. rewrite !Zminus_mod_idemp_r, Zminus_mod_idemp_l.
  replace (A * 2 ^ 32 - 2 * y * B) with (2 * (A * 2 ^ 31 - y * B)) by ring.
  destruct (rem_half (A * 2 ^ 31 - y * B)) as [-> ->]; [|reflexivity].
  assert ((z - 1) * B <= y * B) by (apply Z.mul_le_mono_nonneg_r; lia). assert (y * B <= z * B) by (apply Z.mul_le_mono_nonneg_r; lia).
  change (2 ^ 62) with (2 ^ 30 * 2 ^ 32). lia.
Qed.

Lemma recip_div64_fine : recip_fine recip_div64.
Proof.
  intros B HB. unfold recip_div64, uw. rewrite (Z.mod_small B) by lia. change 9223372036854775807 with (2 ^ 63 - 1).
  pose proof (Z.div_mod (2 ^ 63 - 1) B ltac:(lia)) as DM. pose proof (Z.mod_pos_bound (2 ^ 63 - 1) B ltac:(lia)) as BM.
  assert (0 <= (2 ^ 63 - 1) / B < 2 ^ 32) by (split; [apply Z.div_pos; lia|apply Z.div_lt_upper_bound; lia]).
  remember ((2 ^ 63 - 1) / B) as q. rewrite Z.mod_small by lia. lia.
Qed.

(** The contract in primitives.h is enough. *)
Lemma documented_fine recip :
  (forall a, 2 ^ 31 <= a < 2 ^ 32 -> uint 32 (recip a) /\ recip a * a <= 2 ^ 63 /\ 1000 * (2 ^ 63 - recip a * a) <= 2006 * a) -> recip_fine recip.
Proof.
  intros H B HB. destruct (H B HB) as (H1 & H2 & H3). unfold uint in H1. split; [|lia]. split; [|lia].
  destruct (Z.eq_dec (recip B * B) (2 ^ 63)) as [E|N]; [exfalso|lia].
  assert (HD : (B | 2 ^ 63)) by (exists (recip B); lia).
  destruct (Zpow_facts.Zdivide_power_2 B 2 63 ltac:(lia) ltac:(lia) Znumtheory.prime_2 HD) as [k EB].
  assert (k = 31).
  { destruct (Z_lt_ge_dec k 0); [rewrite Z.pow_neg_r in EB by lia; lia|].
    destruct (Z_lt_ge_dec k 31); [assert (2 ^ k < 2 ^ 31) by (apply Z.pow_lt_mono_r; lia); lia|]. destruct (Z_lt_ge_dec 31 k); [assert (2 ^ 32 <= 2 ^ k) by (apply pow2_le; lia); lia|lia]. }
  subst k. remember (recip B) as r eqn:Er. clear Er. rewrite EB in E. lia.
Qed.

Lemma config32 U a b : 32 <= U -> uint 32 a -> uint 32 b ->
  f32_mul_before U a b = f32_mul U a b /\ f32_div_div64 U a b = f32_div U a b /\ f32_div_int64 U a b = f32_div U a b.
Proof.
  unfold uint. intros HU Ha Hb. split; [|split].
  - apply (mul_same 8 23 U 32 32); try assumption; try lia; [exact pow32| |]; intros; [apply f32_before_ok|apply f32_mulsig_ok]; assumption.
  - apply (div_same 8 23 U 32 32); try assumption; try lia; [exact pow32| |]; intros; [apply f32_div64_ok|apply f32_divsig_ok]; assumption.
  - apply (div_same 8 23 U 32 32); try assumption; try lia; [exact pow32| |]; intros; [rewrite f32_int64_eq by assumption|]; apply f32_divsig_ok; assumption.
Qed.

Lemma with_recip recip a b : recip_fine recip -> uint 64 a -> uint 64 b -> f64_div_with recip a b = f64_div a b.
Proof.
  unfold uint. intros HR Ha Hb. apply (div_same 11 52 64 16 64); try assumption; try lia; [exact pow64| |]; intros; [apply f64_divsig_with_ok|apply f64_divsig_ok]; assumption.
Qed.

Lemma config64 a b : uint 64 a -> uint 64 b ->
  f64_mul_portable a b = f64_mul a b /\ f64_div_with recip_div64 a b = f64_div a b.
Proof.
  intros Ha Hb. split; [|apply with_recip; [exact recip_div64_fine|assumption|assumption]].
  unfold uint in *. apply (mul_same 11 52 64 16 64); try assumption; try lia; [exact pow64| |]; intros; [rewrite f64_portable_eq by assumption|]; apply f64_mulsig_ok; assumption.
Qed.

Lemma any_product m : (forall x y, uint 64 x -> uint 64 y -> uint 64 (fst (m x y)) /\ uint 64 (snd (m x y)) /\ cat2 (m x y) = x * y) ->
  forall a b, uint 64 a -> uint 64 b -> f64_mul_int64 m a b = f64_mul a b.
Proof.
  intros Hm a b Ha Hb. unfold uint in Ha, Hb. apply (mul_same 11 52 64 16 64); try assumption; try lia; [exact pow64| |]; intros; [apply f64_int64_ok|apply f64_mulsig_ok]; assumption.
Qed.

Lemma any_recip recip :
  (forall a, 2 ^ 31 <= a < 2 ^ 32 -> uint 32 (recip a) /\ recip a * a <= 2 ^ 63 /\ 1000 * (2 ^ 63 - recip a * a) <= 2006 * a) ->
  forall a b, uint 64 a -> uint 64 b -> f64_div_with recip a b = f64_div a b.
Proof. intros H a b Ha Hb. apply with_recip; [apply documented_fine; exact H|assumption|assumption]. Qed.

Lemma hypotheses_met :
  (forall a, 2 ^ 31 <= a < 2 ^ 32 -> uint 32 (recip_div64 a) /\ recip_div64 a * a <= 2 ^ 63 /\ 1000 * (2 ^ 63 - recip_div64 a * a) <= 2006 * a) /\
  (let m x y := (x * y / 2 ^ 64, x * y mod 2 ^ 64) in
   forall x y, uint 64 x -> uint 64 y -> uint 64 (fst (m x y)) /\ uint 64 (snd (m x y)) /\ cat2 (m x y) = x * y).
Proof.
  split.
  - intros B HB. unfold recip_div64, uw, uint. rewrite (Z.mod_small B) by lia. change 9223372036854775807 with (2 ^ 63 - 1).
    pose proof (Z.div_mod (2 ^ 63 - 1) B ltac:(lia)) as DM. pose proof (Z.mod_pos_bound (2 ^ 63 - 1) B ltac:(lia)) as BM.
    assert (0 <= (2 ^ 63 - 1) / B < 2 ^ 32) by (split; [apply Z.div_pos; lia|apply Z.div_lt_upper_bound; lia]).
    remember ((2 ^ 63 - 1) / B) as q. rewrite Z.mod_small by lia. lia.
  - cbv zeta. unfold uint, cat2, cat. cbn [fst snd]. intros x y Hx Hy. pose proof (mul_bound _ _ _ _ Hx Hy) as P.
    split; [split; [apply Z.div_pos; lia|apply Z.div_lt_upper_bound; lia]|]. split; [apply Z.mod_pos_bound; lia|].
    pose proof (Z.div_mod (x * y) (2 ^ 64) ltac:(lia)). lia.
Qed.
