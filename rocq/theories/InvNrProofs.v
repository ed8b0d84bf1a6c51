(** Rounding of fractions, the Newton step and its error. *)
From Coq Require Import ZArith Bool Lia.
From Verif Require Import Fw FwLemmas Spec Flopoco InvNr.
Open Scope Z_scope.

(** ** round_frac *)
Lemma add_cin_eq W x c : 0 < W -> 0 <= c < 2 -> add_cin W x c = (x + c) mod 2 ^ W.
Proof. intros HW Hc. unfold add_cin. rewrite zpad_hi_eq by (change (2 ^ 1) with 2; lia). apply fadd_eq. lia. Qed.
Lemma split_msb W e : 0 < W -> 0 <= e < 2 ^ (W + 1) -> take_msb (W + 1) e = Some (e / 2 ^ W) /\ drop_msb (W + 1) e = Some (e mod 2 ^ W).
Proof.
  intros HW He. pose proof (div_pow_lt e W 1 ltac:(lia) ltac:(lia) He) as Q. change (2 ^ 1) with 2 in Q. unfold take_msb, drop_msb. split.
  - rewrite get_bit_ok by lia. replace (W + 1 - 1) with W by lia. rewrite (Z.mod_small _ 2) by lia. reflexivity.
  - rewrite (get_bits_w _ _ _ W) by lia. change (2 ^ 0) with 1. rewrite Z.div_1_r. reflexivity.
Qed.
(** What the third case computes: q + c, c decided by the guard bit, the last bit kept and the bits below
    the two dropped first. *)
Definition rf_up (D x : Z) : bool :=
  let q := x / 2 ^ D in let r := x mod 2 ^ D in
  (2 ^ (D - 1) <=? r) && (Z.odd q || negb (r mod 2 ^ (D - 2) =? 0)).
Lemma mod_mod_pow x a b : 0 <= a <= b -> (x mod 2 ^ b) mod 2 ^ a = x mod 2 ^ a.
Proof.
  intros H. replace b with (a + (b - a)) by lia. rewrite pow2_add by lia. pose proof (pow2_pos a ltac:(lia)). pose proof (pow2_pos (b - a) ltac:(lia)).
  rewrite Z.rem_mul_r by lia. rewrite Z.mul_comm, Z.mod_add by lia. apply Z.mod_mod. lia.
Qed.
Lemma guard_bit x D : 1 <= D -> (x / 2 ^ (D - 1)) mod 2 = Z.b2z (2 ^ (D - 1) <=? x mod 2 ^ D).
Proof.
  intros HD. assert (P := pow2_pos (D - 1) ltac:(lia)). assert (E : 2 ^ D = 2 ^ (D - 1) * 2) by (rewrite <- (pow2_S (D - 1)) || idtac; replace D with (D - 1 + 1) at 1 by lia; rewrite pow2_S by lia; lia).
  rewrite E. rewrite Z.rem_mul_r by lia. pose proof (Z.mod_pos_bound x (2 ^ (D - 1)) P). pose proof (Z.mod_pos_bound (x / 2 ^ (D - 1)) 2 ltac:(lia)).
  remember ((x / 2 ^ (D - 1)) mod 2) as g. assert (g = 0 \/ g = 1) as [-> | ->] by lia; symmetry; [replace (_ <=? _) with false by lia|replace (_ <=? _) with true by lia]; reflexivity.
Qed.
Lemma round_frac2 wR wX x : 1 <= wR -> wR + 2 <= wX -> 0 <= x < 2 ^ wX ->
  round_frac wR wX x = Some ((x / 2 ^ (wX - wR) + Z.b2z (rf_up (wX - wR) x)) mod 2 ^ wR, (x / 2 ^ (wX - wR) + Z.b2z (rf_up (wX - wR) x)) / 2 ^ wR).
Proof.
  intros HR HX Hx. unfold round_frac. replace (wX <=? wR) with false by lia. replace (wR + 1 =? wX) with false by lia.
  remember (wX - wR) as D. rewrite take_msbs_ok, get_bit_ok, get_bit_ok, take_lsbs_ok by lia. cbn [bind]. rewrite <- HeqD.
  assert (Q : 0 <= x / 2 ^ D < 2 ^ wR) by (apply div_pow_lt; [lia|lia|replace (D + wR) with wX by lia; exact Hx]).
  rewrite odd_mod2, to_bool_b2z. rewrite (guard_bit x D) by lia. unfold fne, zg.
  assert (C : (if Z.odd (x / 2 ^ D) then Z.b2z (2 ^ (D - 1) <=? x mod 2 ^ D) else fand (Z.b2z (2 ^ (D - 1) <=? x mod 2 ^ D)) (Z.b2z (negb (x mod 2 ^ (D - 2) =? 0)))) = Z.b2z (rf_up D x)).
  { unfold rf_up. cbv zeta. rewrite mod_mod_pow by lia. destruct (Z.odd _), (2 ^ (D - 1) <=? _), (_ =? 0); reflexivity. }
  rewrite C. remember (Z.b2z (rf_up D x)) as c. assert (0 <= c < 2) by (subst c; destruct (rf_up D x); cbn; lia).
  rewrite zpad_hi_eq by lia. rewrite add_cin_eq by lia. rewrite Z.mod_small by (rewrite pow2_S by lia; lia).
  destruct (split_msb wR (x / 2 ^ D + c)) as [-> ->]; [lia|rewrite pow2_S by lia; lia|]. reflexivity.
Qed.
Lemma rf_up_bounds D x : 2 <= D -> (rf_up D x = true -> 2 ^ D <= 2 * (x mod 2 ^ D)) /\ (rf_up D x = false -> 4 * (x mod 2 ^ D) <= 3 * 2 ^ D) /\
  (Z.odd (x / 2 ^ D) = true -> 2 ^ D <= 2 * (x mod 2 ^ D) -> rf_up D x = true).
Proof.
  intros HD. unfold rf_up. cbv zeta. assert (E1 : 2 ^ D = 4 * 2 ^ (D - 2)) by (replace D with (D - 2 + 2) at 1 by lia; rewrite pow2_add by lia; change (2 ^ 2) with 4; lia).
  assert (E2 : 2 ^ (D - 1) = 2 * 2 ^ (D - 2)) by (replace (D - 1) with (D - 2 + 1) by lia; rewrite pow2_S by lia; lia).
  pose proof (mod_pow_bound x D ltac:(lia)) as R. remember (x mod 2 ^ D) as r. assert (P := pow2_pos (D - 2) ltac:(lia)).
  split; [|split].
  - intros H. apply andb_prop in H as [H _]. lia.
  - intros H. destruct (2 ^ (D - 1) <=? r) eqn:G; [|lia]. cbn [andb] in H. apply orb_false_elim in H as [_ H]. apply negb_false_iff, Z.eqb_eq in H.
    pose proof (div_mod_eq r (2 ^ (D - 2)) P). rewrite H in H0. assert (r / 2 ^ (D - 2) < 4) by (apply Z.div_lt_upper_bound; lia). nia.
  - intros O H. rewrite O. replace (2 ^ (D - 1) <=? r) with true by lia. reflexivity.
Qed.
(** One dropped bit: ties to even. None dropped: exact. *)
Lemma round_frac1 wR x : 1 <= wR -> 0 <= x < 2 ^ (wR + 1) -> round_frac wR (wR + 1) x = Some (rne_div x 2 mod 2 ^ wR, rne_div x 2 / 2 ^ wR).
Proof.
  intros HR Hx. unfold round_frac. replace (wR + 1 <=? wR) with false by lia. rewrite Z.eqb_refl. rewrite !get_bit_ok by lia. unfold drop_lsb. rewrite (get_bits_w _ _ _ wR) by lia. cbn [bind].
  change (2 ^ 0) with 1. rewrite Z.div_1_r. change (2 ^ 1) with 2. pose proof (div_pow_lt x 1 wR ltac:(lia) ltac:(lia) ltac:(replace (1 + wR) with (wR + 1) by lia; exact Hx)) as Q. change (2 ^ 1) with 2 in Q.
  rewrite (Z.mod_small (x / 2)) by lia.
  assert (C : (x / 2) + fand ((x / 2) mod 2) (x mod 2) = rne_div x 2).
  { unfold rne_div. cbv zeta. rewrite (odd_mod2 (x / 2)). pose proof (Z.mod_pos_bound x 2 ltac:(lia)). rewrite <- Z.negb_odd. assert (x mod 2 = 0 \/ x mod 2 = 1) as [E|E] by lia; rewrite E; destruct (Z.odd (x / 2)); cbn [fand Z.b2z negb Z.ltb Z.compare Z.mul Pos.mul Z.land Pos.compare Pos.compare_cont]; unfold fand; cbn; lia. }
  assert (B : 0 <= fand ((x / 2) mod 2) (x mod 2) < 2) by (rewrite !odd_mod2; destruct (Z.odd (x / 2)), (Z.odd x); cbn; lia).
  rewrite zpad_hi_eq by lia. rewrite add_cin_eq by lia. rewrite C. rewrite Z.mod_small by (rewrite pow2_S by lia; lia).
  destruct (split_msb wR (rne_div x 2)) as [-> ->]; [lia|rewrite pow2_S by lia; lia|]. reflexivity.
Qed.
Lemma round_frac0 wR wX x : 0 <= wX <= wR -> round_frac wR wX x = Some (x * 2 ^ (wR - wX), 0).
Proof. intros H. unfold round_frac. replace (wX <=? wR) with true by lia. rewrite zpad_lo_eq by lia. reflexivity. Qed.

(** ** One Newton step, on the integers z = g/2^k and y = Y/2^w *)
Lemma newton_num k w r g Y (zp := g * 2 ^ (k + w + 1) - g * g * Y) (D := 2 * k + w - r) :
  1 <= k -> 1 <= w -> 1 <= r -> 2 <= D -> 0 <= g < 2 ^ (k + 1) -> 0 <= Y < 2 ^ (w + 1) -> 0 <= zp <= 2 ^ (2 * k + w) ->
  newton_step 0 (- r) 0 (- k) 0 (- w) g Y = Some (zp / 2 ^ D + Z.b2z (rf_up D zp)) /\ zp / 2 ^ D + Z.b2z (rf_up D zp) <= 2 ^ r.
Proof.
  intros Hk Hw Hr HD Hg HY Hz.
  assert (S : sub_match (0 + 1) (- k + 1) (2 * 0 + 1 + 0 + 1) (2 * - k + - w) g (fix_mul_ (fix_mul_ g g) Y) = zp).
  { unfold sub_match, ctMax, ctMin, fix_mul_, fmul. replace (2 * 0 + 1 + 0 + 1 <? 0 + 1) with false by lia. replace (- k + 1 <? 2 * - k + - w) with false by lia. cbv zeta.
    replace (- k + 1 - (2 * - k + - w)) with (k + w + 1) by lia. replace (2 * - k + - w - (2 * - k + - w)) with 0 by lia.
    rewrite !zpad_lo_eq by lia. rewrite fsub_eq by lia. change (2 ^ 0) with 1. rewrite Z.mul_1_r.
    assert (B1 : 0 <= g * 2 ^ (k + w + 1) < 2 ^ (0 + 1 - (2 * - k + - w) + 1)).
    { replace (0 + 1 - (2 * - k + - w) + 1) with (k + 1 + (k + w + 1)) by lia. rewrite (pow2_add (k + 1)) by lia. pose proof (pow2_pos (k + w + 1) ltac:(lia)). nia. }
    assert (B2 : 0 <= g * g * Y < 2 ^ (2 * 0 + 1 + 0 + 1 - (2 * - k + - w) + 1)).
    { replace (2 * 0 + 1 + 0 + 1 - (2 * - k + - w) + 1) with (k + 1 + (k + 1) + (w + 1)) by lia. rewrite !pow2_add with (b := w + 1) by lia. rewrite (pow2_add (k + 1)) by lia. remember (2 ^ (k + 1)) as a. remember (2 ^ (w + 1)) as b. 
      split; [nia|]. apply Z.mul_lt_mono_nonneg; [nia|nia|lia|lia]. }
    rewrite !zpad_hi_eq by (first [lia|assumption]). fold zp. apply Z.mod_small. split; [lia|]. apply Z.le_lt_trans with (2 ^ (2 * k + w)); [lia|]. apply pow2_lt; lia. }
  assert (HP : 2 ^ (2 * k + w) = 2 ^ r * 2 ^ D) by (rewrite <- pow2_add by lia; f_equal; unfold D; lia).
  pose proof (pow2_pos D ltac:(lia)) as PD. pose proof (pow2_pos r ltac:(lia)) as Pr.
  assert (Q : 0 <= zp / 2 ^ D <= 2 ^ r).
  { split; [apply Z.div_pos; lia|]. apply Z.div_le_upper_bound; [lia|]. rewrite Z.mul_comm, <- HP. lia. }
  remember (Z.b2z (rf_up D zp)) as c. assert (Hc : 0 <= c <= 1) by (subst c; destruct (rf_up D zp); cbn; lia).
  assert (QR : zp / 2 ^ D + c <= 2 ^ r).
  { destruct (Z.eq_dec (zp / 2 ^ D) (2 ^ r)) as [E|E]; [|lia]. pose proof (div_mod_eq zp (2 ^ D) PD). rewrite E in H. pose proof (mod_pow_bound zp D ltac:(lia)).
    assert (M : zp mod 2 ^ D = 0) by nia. destruct (rf_up D zp) eqn:U; [|cbn in Heqc; lia]. destruct (rf_up_bounds D zp HD) as [U1 _]. specialize (U1 U). lia. }
  split; [|exact QR]. unfold newton_step. cbv zeta. rewrite S. unfold ctMax, ctMin. replace (2 * 0 + 1 + 0 + 1 <? 0 + 1) with false by lia. replace (- k + 1 <? 2 * - k + - w) with false by lia.
  unfold round_to_lsb. replace (2 * 0 + 1 + 0 + 1 - - r + 1) with (r + 3) by lia. replace (2 * 0 + 1 + 0 + 1 - (2 * - k + - w) + 1) with (2 * k + w + 3) by lia.
  assert (P3 : 2 ^ (r + 3) = 8 * 2 ^ r) by (rewrite pow2_add by lia; change (2 ^ 3) with 8; lia).
  rewrite round_frac2; [|lia|unfold D in HD; lia|split; [lia|]; apply Z.le_lt_trans with (2 ^ (2 * k + w)); [lia|apply pow2_lt; lia]]. cbn [bind fst snd].
  replace (2 * k + w + 3 - (r + 3)) with D by (unfold D; lia). rewrite <- Heqc.
  rewrite (Z.div_small (zp / 2 ^ D + c)) by lia. rewrite (Z.mod_small (zp / 2 ^ D + c)) by lia. cbn [to_bool Z.eqb negb assert_ bind].
  unfold truncate_to_msb. replace (0 <=? 2 * 0 + 1 + 0 + 1) with true by lia. cbn [assert_ bind]. replace (2 * 0 + 1 + 0 + 1 - - r + 1) with (r + 3) by lia. replace (2 * 0 + 1 + 0 + 1 - 0) with 2 by lia.
  rewrite take_msbs_ok, drop_msbs_ok by lia. cbn [bind fst snd]. replace (r + 3 - 2) with (r + 1) by lia.
  rewrite Z.div_small by (rewrite pow2_S by lia; lia). rewrite Z.mod_small by (rewrite pow2_S by lia; lia). reflexivity.
Qed.

(** Its error. s = g Y - 2^(k+w) is the error of z in units of 2^-k, times Y. *)
Definition res (k w g Y : Z) : Z := g * Y - 2 ^ (k + w).
Lemma newton_err k w r g Y : 1 <= k -> 1 <= w -> 1 <= r -> 2 <= 2 * k + w - r -> 2 ^ w <= Y < 2 ^ (w + 1) -> 0 <= g < 2 ^ (k + 1) ->
  - 2 ^ (k + w) <= res k w g Y <= 2 ^ (k + w) ->
  exists R c, newton_step 0 (- r) 0 (- k) 0 (- w) g Y = Some R /\ 0 <= R <= 2 ^ r /\
    2 ^ (2 * k + w - r) * res r w R Y = Y * c - res k w g Y * res k w g Y /\ - (3 * 2 ^ (2 * k + w - r)) <= 4 * c /\ 2 * c <= 2 ^ (2 * k + w - r).
Proof.
  intros Hk Hw Hr HD HY Hg Hs. remember (2 * k + w - r) as D.
  pose proof (pow2_pos (k + w) ltac:(lia)) as PK. pose proof (pow2_pos w ltac:(lia)) as PW.
  remember (g * 2 ^ (k + w + 1) - g * g * Y) as zp.
  assert (I : Y * zp = 2 ^ (k + w) * 2 ^ (k + w) - res k w g Y * res k w g Y). { subst zp. unfold res. rewrite pow2_S by lia. ring. }
  assert (B : 0 <= zp <= 2 ^ (2 * k + w)).
  { assert (E : 2 ^ (2 * k + w) * 2 ^ w = 2 ^ (k + w) * 2 ^ (k + w)) by (rewrite <- !pow2_add by lia; f_equal; lia).
    remember (res k w g Y) as s. remember (2 ^ (k + w)) as K. remember (2 ^ (2 * k + w)) as P. assert (0 <= Y * zp) by nia. assert (Y * zp <= P * 2 ^ w) by nia. split; [nia|]. 
    destruct (Z.le_gt_cases zp P); [assumption|]. exfalso. nia. }
  assert (Hz : zp = g * 2 ^ (k + w + 1) - g * g * Y) by exact Heqzp. destruct (newton_num k w r g Y) as [N L]; try lia. rewrite <- Hz, <- HeqD in N, L.
  remember (zp / 2 ^ D + Z.b2z (rf_up D zp)) as R. exists R, (R * 2 ^ D - zp). split; [exact N|]. pose proof (pow2_pos D ltac:(lia)) as PD.
  assert (0 <= zp / 2 ^ D) by (apply Z.div_pos; lia). split; [split; [subst R; destruct (rf_up D zp); cbn [Z.b2z]; lia|exact L]|].
  split.
  - unfold res at 1. assert (E : 2 ^ (k + w) * 2 ^ (k + w) = 2 ^ D * 2 ^ (r + w)) by (rewrite <- !pow2_add by lia; f_equal; lia).
    replace (2 ^ D * (R * Y - 2 ^ (r + w))) with (2 ^ D * R * Y - 2 ^ D * 2 ^ (r + w)) by ring. rewrite <- E. replace (Y * (R * 2 ^ D - zp)) with (2 ^ D * R * Y - Y * zp) by ring. rewrite I. ring.
  - pose proof (div_mod_eq zp (2 ^ D) PD). destruct (rf_up_bounds D zp ltac:(lia)) as [U1 [U2 _]]. pose proof (mod_pow_bound zp D ltac:(lia)).
    subst R. destruct (rf_up D zp); cbn [Z.b2z]; [specialize (U1 eq_refl)|specialize (U2 eq_refl)]; nia.
Qed.
(** So: if 4 s^2 <= Y 2^D, the new error is at most one unit; smaller if that is strict; and so on. *)
Lemma newton_unit k w r g Y : 1 <= k -> 1 <= w -> 1 <= r -> 2 <= 2 * k + w - r -> 2 ^ w <= Y < 2 ^ (w + 1) -> 0 <= g < 2 ^ (k + 1) ->
  - 2 ^ (k + w) <= res k w g Y <= 2 ^ (k + w) -> 4 * (res k w g Y * res k w g Y) <= Y * 2 ^ (2 * k + w - r) ->
  exists R, newton_step 0 (- r) 0 (- k) 0 (- w) g Y = Some R /\ 0 <= R <= 2 ^ r /\ - Y <= res r w R Y <= Y /\
    (4 * (res k w g Y * res k w g Y) < Y * 2 ^ (2 * k + w - r) -> - Y < res r w R Y < Y).
Proof.
  intros Hk Hw Hr HD HY Hg Hs H4. destruct (newton_err k w r g Y Hk Hw Hr HD HY Hg Hs) as [R [c [N [B [E [C1 C2]]]]]]. exists R. split; [exact N|]. split; [exact B|].
  pose proof (pow2_pos w ltac:(lia)) as PW. pose proof (pow2_pos (2 * k + w - r) ltac:(lia)) as PD. remember (2 ^ (2 * k + w - r)) as d. remember (res k w g Y) as s. remember (res r w R Y) as t. assert (0 <= s * s) by nia. remember (s * s) as ss.
  assert (4 * (d * t) >= - (4 * (Y * d))) by nia. assert (2 * (d * t) <= Y * d) by nia. split; [split; nia|]. intros H4'. assert (4 * (d * t) > - (4 * (Y * d))) by nia. split; nia.
Qed.
Lemma newton_five k w r g Y : 1 <= k -> 1 <= w -> 1 <= r -> 2 <= 2 * k + w - r -> 2 ^ w <= Y < 2 ^ (w + 1) -> 0 <= g < 2 ^ (k + 1) ->
  - 2 ^ (k + w) <= res k w g Y <= 2 ^ (k + w) -> 2 * (res k w g Y * res k w g Y) <= Y * 2 ^ (2 * k + w - r) ->
  exists R, newton_step 0 (- r) 0 (- k) 0 (- w) g Y = Some R /\ 0 <= R <= 2 ^ r /\ - (5 * Y) <= 4 * res r w R Y <= 5 * Y.
Proof.
  intros Hk Hw Hr HD HY Hg Hs H4. destruct (newton_err k w r g Y Hk Hw Hr HD HY Hg Hs) as [R [c [N [B [E [C1 C2]]]]]]. exists R. split; [exact N|]. split; [exact B|].
  pose proof (pow2_pos w ltac:(lia)) as PW. pose proof (pow2_pos (2 * k + w - r) ltac:(lia)) as PD. remember (2 ^ (2 * k + w - r)) as d. remember (res k w g Y) as s. remember (res r w R Y) as t. assert (0 <= s * s) by nia. remember (s * s) as ss.
  assert (4 * (d * t) >= - (5 * (Y * d))) by nia. assert (2 * (d * t) <= Y * d) by nia. split; nia.
Qed.
