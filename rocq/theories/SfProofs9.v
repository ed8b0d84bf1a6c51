(** SoftFloat: the significands of the binary32 and binary64 quotients. *)
From Coq Require Import ZArith Bool Lia.
From Verif Require Import Spec Spec754 Fw FwLemmas SpecLemmas ValueLemmas Sf754Lemmas SoftFloat SfProofs1 SfProofs2 SfProofs3 SfProofs8.
Open Scope Z_scope.

(** res is on the same side of every multiple of c as N/B. *)
Lemma jam_side N B c res k : 0 < B -> 0 < c -> 0 <= k ->
  (k * c * B < N < (k + 1) * c * B /\ k * c < res < (k + 1) * c) \/ (N = k * c * B /\ res = k * c) ->
  jam (2 * res) c = jam (2 * N) (B * c).
Proof.
  intros HB Hc Hk [[H1 H2]|[H1 H2]].
  - rewrite (jam_two res c k) by lia. rewrite (jam_two N (B * c) k); [reflexivity|apply Z.mul_pos_pos; lia|lia|lia].
  - rewrite (jam_two_exact res c k) by lia. rewrite (jam_two_exact N (B * c) k); [reflexivity|apply Z.mul_pos_pos; lia|lia|lia].
Qed.

Lemma sign_bit x : - 2 ^ 63 <= x < 2 ^ 63 -> Z.testbit (x mod 2 ^ 64) 63 = (x <? 0).
Proof.
  intros H. destruct (Z.ltb_spec x 0) as [L|G].
  - replace (x mod 2 ^ 64) with (x + 2 ^ 64) by (symmetry; rewrite <- (Z.mod_add x 1) by lia; apply Z.mod_small; lia).
    apply Z.testbit_true; [lia|]. replace ((x + 2 ^ 64) / 2 ^ 63) with 1; [reflexivity|].
    apply (Z.div_unique _ _ _ (x + 2 ^ 63)); lia.
  - rewrite Z.mod_small by lia. apply Z.testbit_false; [lia|]. rewrite Z.div_small by lia. reflexivity.
Qed.

Lemma mod64_zero x : - 2 ^ 63 <= x < 2 ^ 63 -> (x mod 2 ^ 64 =? 0) = (x =? 0).
Proof.
  intros H. destruct (Z.eqb_spec x 0) as [->|N]; [reflexivity|]. apply Z.eqb_neq.
  destruct (Z_lt_ge_dec x 0).
  - replace (x mod 2 ^ 64) with (x + 2 ^ 64) by (symmetry; rewrite <- (Z.mod_add x 1) by lia; apply Z.mod_small; lia). lia.
  - rewrite Z.mod_small by lia. lia.
Qed.

Lemma land_lnot_low a k : 0 <= k -> Z.land a (Z.lnot (2 ^ k - 1)) = a - a mod 2 ^ k.
Proof.
  intros Hk. replace (2 ^ k - 1) with (Z.ones k) by (rewrite Z.ones_equiv; lia).
  rewrite <- Z.ldiff_land, Z.ldiff_ones_r by lia. rewrite Z.shiftl_mul_pow2, Z.shiftr_div_pow2 by lia.
  pose proof (pow2_pos k Hk). pose proof (Z.div_mod a (2 ^ k) ltac:(lia)). lia.
Qed.

(** Near the top of the range the general bound is not enough for binary32; there are 2^16 operands. *)
Definition recip_fast (a : Z) : Z :=
  let i := Z.land (Z.shiftr a 27) 15 in
  let eps := Z.land (Z.shiftr a 11) 65535 in
  let r0 := recip_k0s i - Z.shiftr (recip_k1s i * eps) 20 in
  let sg := 1099511627775 - Z.shiftr (r0 * a) 7 in
  let r1 := 65536 * r0 + Z.shiftr (r0 * sg) 24 in
  r1 + Z.shiftr (r1 * Z.shiftr (sg * sg) 32) 48.

Lemma recip_fast_eq a : recip_fast a = recip_plain a.
Proof.
  unfold recip_fast, recip_plain. cbv zeta. change 15 with (2 ^ 4 - 1). change 65535 with (2 ^ 16 - 1). rewrite !land_low by lia.
  rewrite (Z.shiftr_div_pow2 a 27), (Z.shiftr_div_pow2 a 11) by lia.
  remember (recip_k0s _ - _) as r0 eqn:E. rewrite !Z.shiftr_div_pow2 by lia. reflexivity.
Qed.

Lemma recip_top_ok : all_below 16 (fun k => let a := 4278190080 + k * 256 in 9223372036854775808 - recip_fast a * a <=? 8589934592) 0 = true.
Proof. vm_compute. reflexivity. Qed.

Lemma recip32_le U B : 32 <= U -> 2 ^ 31 <= B < 2 ^ 32 -> B mod 256 = 0 ->
  0 < 2 ^ 63 - approxRecip32_1 U B * B <= 2 ^ 33 /\ 0 <= approxRecip32_1 U B < 2 ^ 32.
Proof.
  intros HU HB HM. destruct (approxRecip_ok U B HU HB) as (R1 & R2 & R3). split; [|exact R2]. split; [lia|].
  destruct (Z_le_gt_dec B (2 ^ 32 - 2 ^ 24)) as [L|G]; [lia|].
  pose proof (all_below_spec _ _ _ recip_top_ok ((B - 4278190080) / 256)) as T. cbv beta zeta in T.
  assert (EB : 4278190080 + (B - 4278190080) / 256 * 256 = B) by (clear - HM; Z.to_euclidean_division_equations; lia).
  rewrite EB, recip_fast_eq in T. rewrite R3. apply Z.leb_le. apply T. change (2 ^ Z.of_nat 16) with 65536. lia.
Qed.

Lemma f32_divsig_core U A B : 32 <= U -> 2 ^ 31 <= B < 2 ^ 32 -> B mod 256 = 0 -> A <= B - 128 -> B <= 2 * A ->
  let r := approxRecip32_1 U B in
  let z := A * r / 2 ^ 32 + 2 in
  0 <= A * r < 2 ^ 64 /\ 2 ^ 30 <= z < 2 ^ 31 - 62 /\ (z - 2) * B < A * 2 ^ 31 < (z + 1) * B.
Proof.
  intros HU HB HM HA HA2. cbv zeta. destruct (recip32_le U B HU HB HM) as [R1 R2].
  remember (approxRecip32_1 U B) as r eqn:Er. clear Er.
  assert (AR : 0 <= A * r < 2 ^ 64) by (clear - R2 HB HA HA2; nia). split; [exact AR|].
  remember (A * r / 2 ^ 32) as z0 eqn:Ez.
  assert (Z1 : 2 ^ 32 * z0 <= A * r < 2 ^ 32 * (z0 + 1)) by (clear - Ez; Z.to_euclidean_division_equations; lia).
  assert (AD : 0 < A * (2 ^ 63 - r * B)) by (apply Z.mul_pos_pos; lia).
  assert (AD2 : A * (2 ^ 63 - r * B) <= (B - 128) * 2 ^ 33) by (apply Z.mul_le_mono_nonneg; lia).
  assert (ZB1 : 2 ^ 32 * z0 * B <= A * r * B) by (apply Z.mul_le_mono_nonneg_r; lia).
  assert (ZB2 : A * r * B < 2 ^ 32 * (z0 + 1) * B) by (apply Z.mul_lt_mono_pos_r; lia).
  assert (L : (z0 + 2 - 2) * B < A * 2 ^ 31 < (z0 + 2 + 1) * B) by lia.
  split; [|exact L].
  clear - L HB HA HA2. split.
  - assert (2 ^ 30 * B < (z0 + 3) * B) by lia. apply (proj2 (Z.mul_lt_mono_pos_r B _ _ ltac:(lia))) in H. lia.
  - assert (z0 * B < (2 ^ 31 - 64) * B) by lia. apply (proj2 (Z.mul_lt_mono_pos_r B _ _ ltac:(lia))) in H. lia.
Qed.

Lemma f32_divsig_ok U a b : 32 <= U -> 2 ^ 23 <= a < 2 ^ (23 + 1) -> 2 ^ 23 <= b < 2 ^ (23 + 1) ->
  exists r, f32_divsig U a b = Some r /\ 2 ^ (32 - 2) <= r < 2 ^ (32 - 1) /\
    jam (2 * r) (2 ^ (8 - 2)) = jam (2 * div_num 32 a b) (b * 2 ^ (8 - 2)).
Proof.
  intros HU Ha Hb. assert (UP : 2 ^ 32 <= 2 ^ U) by (apply pow2_le; lia).
  unfold f32_divsig. change (23 + 1) with 24 in *. change (32 - 2) with 30. change (32 - 1) with 31. change (8 - 2) with 6.
  assert (HA : exists A, ushl U a (if a <? b then 8 else 7) = Some A /\ A <= b * 2 ^ 8 - 128 /\ b * 2 ^ 8 <= 2 * A /\ A * 2 ^ 31 = div_num 32 a b * 2 ^ 8).
  { unfold div_num. destruct (Z.ltb_spec a b) as [L|G].
    - exists (a * 2 ^ 8). rewrite ushl_ok by lia. split; [reflexivity|]. lia.
    - exists (a * 2 ^ 7). rewrite ushl_ok by lia. split; [reflexivity|]. lia. }
  destruct HA as (A & -> & A1 & A2 & AN). rewrite (ushl_ok U b 8) by lia. cbn [bind]. cbv zeta.
  remember (b * 2 ^ 8) as B eqn:EB.
  assert (HB : 2 ^ 31 <= B < 2 ^ 32) by lia. assert (BM : B mod 256 = 0) by (subst B; change (2 ^ 8) with 256; apply Z.mod_mul; lia).
  assert (UB : uw 32 B = B) by (apply Z.mod_small; lia). rewrite UB.
  destruct (f32_divsig_core U A B HU HB BM A1 A2) as (C1 & C2 & C3).
  remember (A * approxRecip32_1 U B) as ar eqn:Ear.
  assert (U1 : uw 64 ar = ar) by (apply Z.mod_small; lia). rewrite U1, Z.shiftr_div_pow2 by lia.
  remember (ar / 2 ^ 32 + 2) as z eqn:Ez. replace (ar / 2 ^ 32) with (z - 2) by lia. clear Ear Ez U1.
  assert (U2 : uw U (z - 2) = z - 2) by (apply Z.mod_small; lia). rewrite U2. replace (z - 2 + 2) with z by lia.
  assert (U3 : uw U z = z) by (apply Z.mod_small; lia). rewrite U3.
  eexists. split; [reflexivity|].
  change (Z.land z 63) with (Z.land z (2 ^ 6 - 1)). rewrite !land_low by lia. change (Z.lnot 3) with (Z.lnot (2 ^ 2 - 1)). rewrite land_lnot_low by lia.
  replace (jam (2 * div_num 32 a b) (b * 2 ^ 6)) with (jam (2 * (A * 2 ^ 31)) (B * 2 ^ 6)).
  2:{ rewrite AN. subst B. replace (2 * (div_num 32 a b * 2 ^ 8)) with (2 * div_num 32 a b * 2 ^ 8) by ring.
      replace (b * 2 ^ 8 * 2 ^ 6) with (b * 2 ^ 6 * 2 ^ 8) by ring. apply jam_scale; lia. }
  remember (A * 2 ^ 31) as N eqn:EN. clear AN UB U2 U3.
  remember (z / 2 ^ 6) as k eqn:Ek.
  assert (ZK : z = 64 * k + z mod 2 ^ 6) by (subst k; apply (Z.div_mod z (2 ^ 6)); lia).
  pose proof (Z.mod_pos_bound z (2 ^ 6) ltac:(lia)) as ZM. change (2 ^ 6) with 64 in *.
  destruct (Z.ltb_spec (z mod 64) 2) as [L|G].
  - assert (Z4 : z - z mod 2 ^ 2 = 64 * k) by (clear - ZK L ZM; Z.to_euclidean_division_equations; lia). rewrite Z4.
    assert (MB1 : (64 * k - 2) * B <= (z - 2) * B) by (apply Z.mul_le_mono_nonneg_r; lia).
    assert (MB2 : (z + 1) * B <= (64 * k + 2) * B) by (apply Z.mul_le_mono_nonneg_r; lia).
    assert (U4 : uw U (Z.shiftl (64 * k) 1) = 128 * k) by (unfold uw; rewrite Z.shiftl_mul_pow2 by lia; rewrite Z.mod_small by lia; lia).
    rewrite U4.
    assert (U5 : uw 64 (Z.shiftl A 32 - uw 64 (128 * k * B)) = (2 * (N - 64 * k * B)) mod 2 ^ 64).
    { unfold uw. rewrite Zminus_mod_idemp_r. f_equal. rewrite Z.shiftl_mul_pow2 by lia. subst N. ring. }
    rewrite U5, sign_bit, mod64_zero by lia.
    assert (U6 : uw U (64 * k - 4) = 64 * k - 4) by (apply Z.mod_small; lia). rewrite U6.
    assert (K30 : N < 64 * k * B -> 2 ^ 24 < k).
    { intros LN. assert (2 ^ 30 * B < 64 * k * B) by lia. apply (proj2 (Z.mul_lt_mono_pos_r B _ _ ltac:(lia))) in H. lia. }
    rewrite lor_1_val by lia. rewrite Z.even_mul. change (Z.even 64) with true. cbn [orb].
    destruct (Z.ltb_spec (2 * (N - 64 * k * B)) 0) as [LN|GN].
    + specialize (K30 ltac:(lia)). split; [lia|]. apply (jam_side N B 64 _ (k - 1)); lia.
    + destruct (Z.eqb_spec (2 * (N - 64 * k * B)) 0) as [EQ|NE]; cbn [negb].
      * split; [lia|]. apply (jam_side N B 64 _ k); lia.
      * split; [lia|]. apply (jam_side N B 64 _ k); lia.
  - split; [lia|].
    assert (MB1 : 64 * k * B <= (z - 2) * B) by (apply Z.mul_le_mono_nonneg_r; lia).
    assert (MB2 : (z + 1) * B <= (64 * k + 64) * B) by (apply Z.mul_le_mono_nonneg_r; lia).
    apply (jam_side N B 64 _ k); lia.
Qed.

(** The binary64 quotient: two half quotients from the reciprocal of the high half of the divisor. *)
Lemma step64 x d hi lo :
  uw 64 (uw 64 (Z.shiftl (uw 64 (x - uw 64 (d * hi))) 28) - uw 64 (d * lo)) = (2 ^ 28 * x - d * (2 ^ 28 * hi + lo)) mod 2 ^ 64.
Proof.
  unfold uw. rewrite Z.shiftl_mul_pow2 by lia.
  rewrite Zminus_mod_idemp_l, Zminus_mod_idemp_r. rewrite <- (Zminus_mod_idemp_l (_ * 2 ^ 28)).
  rewrite Zmult_mod_idemp_l, Zminus_mod_idemp_l. rewrite <- (Zminus_mod_idemp_l (_ * 2 ^ 28)).
  rewrite <- (Zmult_mod_idemp_l (x - _)), Zminus_mod_idemp_r, Zmult_mod_idemp_l, Zminus_mod_idemp_l. f_equal. ring.
Qed.

(** One half quotient of x by B with the reciprocal estimate c. *)
Lemma half_quotient x B c kp s :
  0 < x < 2 ^ 64 -> 2 ^ 63 <= B < 2 ^ 64 -> 0 <= c -> kp = 2 ^ 95 - c * B -> 0 < kp ->
  2 ^ 32 * s <= (x / 2 ^ 32) * c < 2 ^ 32 * (s + 1) ->
  s * B < 2 ^ 31 * x /\ 2 ^ 95 * x - 2 ^ 64 * (s * B) < x * kp + 2 ^ 127 + 2 ^ 64 * B.
Proof.
  intros Hx HB Hc Ek Hk Hs.
  assert (X : 2 ^ 32 * (x / 2 ^ 32) <= x < 2 ^ 32 * (x / 2 ^ 32) + 2 ^ 32) by (clear; Z.to_euclidean_division_equations; lia).
  remember (x / 2 ^ 32) as h eqn:Eh. clear Eh.
  assert (P1 : 2 ^ 32 * h * c <= x * c) by (apply Z.mul_le_mono_nonneg_r; lia).
  assert (P2 : (x - 2 ^ 32) * c <= 2 ^ 32 * h * c) by (apply Z.mul_le_mono_nonneg_r; lia).
  assert (Q1 : 2 ^ 64 * s * B <= x * c * B) by (apply Z.mul_le_mono_nonneg_r; lia).
  assert (Q2 : (x - 2 ^ 32) * c * B < 2 ^ 64 * (s + 1) * B) by (apply Z.mul_lt_mono_pos_r; lia).
  assert (XK : 0 < x * kp) by (apply Z.mul_pos_pos; lia).
  replace (x * c * B) with (2 ^ 95 * x - x * kp) in Q1 by (subst kp; ring).
  replace ((x - 2 ^ 32) * c * B) with (2 ^ 95 * x - x * kp - 2 ^ 32 * (2 ^ 95 - kp)) in Q2 by (subst kp; ring).
  split; lia.
Qed.

(** All that matters of the reciprocal. *)
Definition recip_fine (recip : Z -> Z) : Prop :=
  forall B, 2 ^ 31 <= B < 2 ^ 32 -> 0 < 2 ^ 63 - recip B * B <= 2 * B + 2 ^ 25 /\ 0 <= recip B < 2 ^ 32.

Lemma f64_divsig_core recip A B : recip_fine recip -> 2 ^ 63 <= B < 2 ^ 64 -> A <= B - 2 ^ 10 -> B <= 2 * A ->
  let c := recip (B / 2 ^ 32) - 2 in
  let s := (A / 2 ^ 32) * c / 2 ^ 32 in
  let rem16 := 2 ^ 32 * A - 2 * s * B in
  0 <= c < 2 ^ 32 /\ 0 <= s < 2 ^ 31 /\ 0 < rem16 /\ 64 * rem16 < 2 ^ 70 + 641 * B /\
  forall rem, rem16 = 16 * rem ->
    let q0 := rem / 2 ^ 32 * c / 2 ^ 32 in
    0 <= q0 < 2 ^ 31 - 4 /\ q0 * B < 2 ^ 31 * rem < (q0 + 5) * B.
Proof.
  intros HR HB HA HA2. cbv zeta.
  assert (Hh : 2 ^ 31 <= B / 2 ^ 32 < 2 ^ 32) by (clear - HB; Z.to_euclidean_division_equations; lia).
  assert (HBh : 2 ^ 32 * (B / 2 ^ 32) <= B < 2 ^ 32 * (B / 2 ^ 32) + 2 ^ 32) by (clear; Z.to_euclidean_division_equations; lia).
  destruct (HR (B / 2 ^ 32) Hh) as (R1 & R2).
  remember (B / 2 ^ 32) as Bh eqn:EBh. remember (recip Bh) as R eqn:ER. clear ER EBh.
  remember (R - 2) as c eqn:Ec.
  assert (Hc : 0 <= c < 2 ^ 32) by (clear - R1 R2 Hh Ec; nia). split; [exact Hc|].
  remember (2 ^ 95 - c * B) as kp eqn:Ek.
  assert (K1 : 0 < kp <= 4 * B + 2 ^ 57).
  { assert (c * B <= c * (2 ^ 32 * Bh + 2 ^ 32)) by (apply Z.mul_le_mono_nonneg_l; lia).
    assert (c * (2 ^ 32 * Bh) <= c * B) by (apply Z.mul_le_mono_nonneg_l; lia).
    assert (c * Bh = R * Bh - 2 * Bh) by (subst c; ring). lia. }
  assert (HAr : 0 < A < 2 ^ 64) by lia.
  remember (A / 2 ^ 32 * c / 2 ^ 32) as s eqn:Es.
  assert (S1 : 2 ^ 32 * s <= A / 2 ^ 32 * c < 2 ^ 32 * (s + 1)) by (clear - Es; Z.to_euclidean_division_equations; lia).
  assert (S0 : 0 <= s) by (subst s; apply Z.div_pos; [apply Z.mul_nonneg_nonneg; [apply Z.div_pos; lia|lia]|lia]).
  destruct (half_quotient A B c kp s HAr HB ltac:(lia) Ek ltac:(lia) S1) as [H1 H2]. clear Es S1.
  split. { split; [lia|]. assert (s * B < 2 ^ 31 * B) by lia. apply (proj2 (Z.mul_lt_mono_pos_r B _ _ ltac:(lia))) in H. lia. }
  split; [lia|].
  assert (AK : A * kp <= B * (4 * B + 2 ^ 57)) by (apply Z.mul_le_mono_nonneg; lia).
  assert (BB : B * (4 * B + 2 ^ 57) <= B * (4 * 2 ^ 64 + 2 ^ 57)) by (apply Z.mul_le_mono_nonneg_l; lia).
  assert (RB : 64 * (2 ^ 32 * A - 2 * s * B) < 2 ^ 70 + 641 * B) by lia. split; [exact RB|].
  intros rem Er.
  assert (Hr : 0 < rem < 2 ^ 64) by lia.
  remember (rem / 2 ^ 32 * c / 2 ^ 32) as q0 eqn:Eq.
  assert (Q1 : 2 ^ 32 * q0 <= rem / 2 ^ 32 * c < 2 ^ 32 * (q0 + 1)) by (clear - Eq; Z.to_euclidean_division_equations; lia).
  assert (Q0 : 0 <= q0) by (subst q0; apply Z.div_pos; [apply Z.mul_nonneg_nonneg; [apply Z.div_pos; lia|lia]|lia]).
  destruct (half_quotient rem B c kp q0 Hr HB ltac:(lia) Ek ltac:(lia) Q1) as [G1 G2]. clear Eq Q1.
  rewrite Er in RB.
  assert (RK : rem * kp <= rem * (4 * B + 2 ^ 57)) by (apply Z.mul_le_mono_nonneg_l; lia).
  assert (RR : 1024 * (rem * B) <= (2 ^ 70 + 641 * B) * B) by (replace (1024 * (rem * B)) with (64 * (16 * rem) * B) by ring; apply Z.mul_le_mono_nonneg_r; lia).
  assert (B2 : B * B <= 2 ^ 64 * B) by (apply Z.mul_le_mono_nonneg_r; lia).
  clear - G1 G2 RK RR B2 HB RB Q0 Hr.
  split.
  - split; [lia|]. assert (q0 * B < (2 ^ 31 - 4) * B) by lia. apply (proj2 (Z.mul_lt_mono_pos_r B _ _ ltac:(lia))) in H. lia.
  - lia.
Qed.

Lemma f64_divsig_with_ok recip a b : recip_fine recip -> 2 ^ 52 <= a < 2 ^ (52 + 1) -> 2 ^ 52 <= b < 2 ^ (52 + 1) ->
  exists r, f64_divsig_with recip a b = Some r /\ 2 ^ (64 - 2) <= r < 2 ^ (64 - 1) /\
    jam (2 * r) (2 ^ (11 - 2)) = jam (2 * div_num 64 a b) (b * 2 ^ (11 - 2)).
Proof.
  intros HR Ha Hb. unfold f64_divsig_with. change (52 + 1) with 53 in *. change (64 - 2) with 62. change (64 - 1) with 63. change (11 - 2) with 9.
  assert (HA : exists A, ushl 64 a (if a <? b then 11 else 10) = Some A /\ A <= b * 2 ^ 11 - 2 ^ 10 /\ b * 2 ^ 11 <= 2 * A /\ A * 2 ^ 63 = div_num 64 a b * 2 ^ 11).
  { unfold div_num. destruct (Z.ltb_spec a b) as [L|G].
    - exists (a * 2 ^ 11). rewrite ushl_ok by lia. split; [reflexivity|]. lia.
    - exists (a * 2 ^ 10). rewrite ushl_ok by lia. split; [reflexivity|]. lia. }
  destruct HA as (A & -> & A1 & A2 & AN). rewrite (ushl_ok 64 b 11) by lia. cbn [bind]. cbv zeta.
  remember (b * 2 ^ 11) as B eqn:EB.
  assert (HB : 2 ^ 63 <= B < 2 ^ 64) by lia.
  assert (BL : B = 2 ^ 32 * (B / 2 ^ 32) + 16 * (B mod 2 ^ 32 / 2 ^ 4)) by (clear - EB; Z.to_euclidean_division_equations; lia).
  destruct (f64_divsig_core recip A B HR HB A1 A2) as (C1 & C2 & C3 & C4 & C5).
  rewrite !step64. rewrite !Z.shiftr_div_pow2 by lia. rewrite !Z.shiftl_mul_pow2 by lia.
  assert (Hh : 2 ^ 31 <= B / 2 ^ 32 < 2 ^ 32) by (clear - HB; Z.to_euclidean_division_equations; lia).
  assert (U1 : uw 32 (B / 2 ^ 32) = B / 2 ^ 32) by (apply Z.mod_small; lia). rewrite !U1.
  remember (recip (B / 2 ^ 32) - 2) as c eqn:Ec.
  assert (U2 : uw 32 c = c) by (apply Z.mod_small; lia). rewrite !U2.
  assert (Hah : 0 <= A / 2 ^ 32 < 2 ^ 32) by (clear - HB A1 A2; Z.to_euclidean_division_equations; lia).
  assert (U3 : uw 32 (A / 2 ^ 32) = A / 2 ^ 32) by (apply Z.mod_small; lia). rewrite !U3.
  assert (U4 : uw 64 (A / 2 ^ 32 * c) = A / 2 ^ 32 * c) by (apply Z.mod_small; clear - Hah C1; nia). rewrite !U4.
  remember (A / 2 ^ 32 * c / 2 ^ 32) as s eqn:Es.
  assert (U5 : uw 32 s = s) by (apply Z.mod_small; lia). rewrite !U5.
  assert (U6 : uw 32 (s * 2 ^ 1) = 2 * s) by (unfold uw; rewrite Z.mod_small; lia). rewrite !U6.
  change (uw 32 B) with (B mod 2 ^ 32) in *.
  remember (2 ^ 28 * A - 2 * s * (2 ^ 28 * (B / 2 ^ 32) + B mod 2 ^ 32 / 2 ^ 4)) as rem eqn:Er.
  remember (B / 2 ^ 32) as bh eqn:Ebh. remember (B mod 2 ^ 32 / 2 ^ 4) as bl eqn:Ebl.
  assert (E16 : 2 ^ 32 * A - 2 * s * B = 16 * rem) by (rewrite Er, BL; ring).
  destruct (C5 rem E16) as [Q1 Q2]. rewrite E16 in C3, C4. clear C5 U1 U2 U3 U4 U5 U6 Hah Es Ec.
  rewrite (Z.mod_small rem) by lia.
  assert (Hrh : 0 <= rem / 2 ^ 32 < 2 ^ 32) by (clear - C3 C4 HB; Z.to_euclidean_division_equations; lia).
  assert (U1 : uw 32 (rem / 2 ^ 32) = rem / 2 ^ 32) by (apply Z.mod_small; lia). rewrite U1.
  assert (U2 : uw 64 (rem / 2 ^ 32 * c) = rem / 2 ^ 32 * c) by (apply Z.mod_small; clear - Hrh C1; nia). rewrite U2.
  remember (rem / 2 ^ 32 * c / 2 ^ 32) as q0 eqn:Eq. clear Eq U1 U2 Hrh.
  remember (q0 + 4) as q eqn:Eq.
  assert (U1 : uw 32 q = q) by (apply Z.mod_small; lia). rewrite U1.
  remember (s * 2 ^ 32 + q * 2 ^ 4) as z eqn:Ez.
  replace (jam (2 * div_num 64 a b) (b * 2 ^ 9)) with (jam (2 * (A * 2 ^ 63)) (B * 2 ^ 9)).
  2:{ rewrite AN. subst B. replace (2 * (div_num 64 a b * 2 ^ 11)) with (2 * div_num 64 a b * 2 ^ 11) by ring.
      replace (b * 2 ^ 11 * 2 ^ 9) with (b * 2 ^ 9 * 2 ^ 11) by ring.
      assert (0 <= div_num 64 a b) by lia. apply jam_scale; lia. }
  remember (A * 2 ^ 63) as N eqn:EN. clear AN.
  assert (NZ : N - s * 2 ^ 32 * B = 2 ^ 35 * rem) by lia.
  assert (W1 : (z - 64) * B < N < (z + 16) * B).
  { rewrite Ez, Eq. clear - NZ Q2. lia. }
  assert (ZR : 2 ^ 62 <= z < 2 ^ 63 - 448).
  { split.
    - assert (2 ^ 62 * B < (z + 16) * B) by lia. apply (proj2 (Z.mul_lt_mono_pos_r B _ _ ltac:(lia))) in H. lia.
    - assert ((z - 64) * B < (2 ^ 63 - 512) * B) by lia. apply (proj2 (Z.mul_lt_mono_pos_r B _ _ ltac:(lia))) in H. lia. }
  assert (U2 : uw 64 z = z) by (apply Z.mod_small; lia). rewrite U2.
  eexists. split; [reflexivity|].
  change (Z.land z 511) with (Z.land z (2 ^ 9 - 1)). rewrite !land_low by lia.
  change (Z.lnot 7) with (Z.lnot (2 ^ 3 - 1)). change (Z.lnot 127) with (Z.lnot (2 ^ 7 - 1)). rewrite !land_lnot_low by lia.
  remember (z / 2 ^ 9) as k eqn:Ek.
  assert (ZK : z = 512 * k + z mod 2 ^ 9) by (subst k; apply (Z.div_mod z (2 ^ 9)); lia).
  pose proof (Z.mod_pos_bound z (2 ^ 9) ltac:(lia)) as ZM. change (2 ^ 9) with 512 in *.
  assert (Z16 : exists w, z = 16 * w) by (exists (s * 2 ^ 28 + q); lia). destruct Z16 as [w Ew].
  destruct (Z.ltb_spec (z mod 512) 64) as [L|G].
  - assert (Z4 : z - z mod 2 ^ 7 = 512 * k) by (clear - ZK L ZM; Z.to_euclidean_division_equations; lia). rewrite Z4.
    assert (Q4 : s * 2 ^ 32 + (q - q mod 2 ^ 3) * 2 ^ 4 = 512 * k).
    { rewrite <- Z4, Ez. clear. Z.to_euclidean_division_equations. lia. }
    remember (q - q mod 2 ^ 3) as q' eqn:Eq'.
    assert (Hq' : 0 <= q' <= q) by (clear - Eq' Eq Q1; Z.to_euclidean_division_equations; lia).
    assert (U3 : uw 32 (q' * 2 ^ 1) = 2 * q') by (unfold uw; rewrite Z.mod_small; lia). rewrite U3.
    remember (2 ^ 28 * rem - 2 * q' * (2 ^ 28 * bh + bl)) as r2 eqn:Er2.
    assert (E2 : 128 * r2 = N - 512 * k * B).
    { rewrite <- Q4. replace N with (s * 2 ^ 32 * B + 2 ^ 35 * rem) by lia. rewrite Er2, BL. ring. }
    assert (MB1 : (512 * k - 64) * B <= (z - 64) * B) by (apply Z.mul_le_mono_nonneg_r; lia).
    assert (MB2 : (z + 16) * B <= (512 * k + 64) * B) by (apply Z.mul_le_mono_nonneg_r; lia).
    clear Er2 Er BL Ebh Ebl.
    rewrite sign_bit, mod64_zero by lia.
    assert (U4 : uw 64 (512 * k - 128) = 512 * k - 128) by (apply Z.mod_small; lia). rewrite U4.
    assert (K30 : N < 512 * k * B -> 2 ^ 53 < k).
    { intros LN. assert (2 ^ 62 * B < 512 * k * B) by lia. apply (proj2 (Z.mul_lt_mono_pos_r B _ _ ltac:(lia))) in H. lia. }
    rewrite lor_1_val by lia. rewrite Z.even_mul. change (Z.even 512) with true. cbn [orb].
    destruct (Z.ltb_spec r2 0) as [LN|GN].
    + specialize (K30 ltac:(lia)). split; [lia|]. apply (jam_side N B 512 _ (k - 1)); lia.
    + destruct (Z.eqb_spec r2 0) as [EQ|NE]; cbn [negb].
      * split; [lia|]. apply (jam_side N B 512 _ k); lia.
      * split; [lia|]. apply (jam_side N B 512 _ k); lia.
  - split; [lia|].
    assert (MB1 : 512 * k * B <= (z - 64) * B) by (apply Z.mul_le_mono_nonneg_r; lia).
    assert (MB2 : (z + 16) * B <= (512 * k + 512) * B) by (apply Z.mul_le_mono_nonneg_r; lia).
    apply (jam_side N B 512 _ k); lia.
Qed.

Lemma approxRecip_fine : recip_fine (approxRecip32_1 64).
Proof. intros B HB. destruct (approxRecip_ok 64 B ltac:(lia) HB) as (R1 & R2 & _). split; [lia|exact R2]. Qed.

Lemma f64_divsig_ok a b : 2 ^ 52 <= a < 2 ^ (52 + 1) -> 2 ^ 52 <= b < 2 ^ (52 + 1) ->
  exists r, f64_divsig a b = Some r /\ 2 ^ (64 - 2) <= r < 2 ^ (64 - 1) /\
    jam (2 * r) (2 ^ (11 - 2)) = jam (2 * div_num 64 a b) (b * 2 ^ (11 - 2)).
Proof. exact (f64_divsig_with_ok _ a b approxRecip_fine). Qed.
