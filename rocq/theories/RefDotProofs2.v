(** The reference in double arithmetic: rounding to a double before rounding down changes nothing. *)
From Coq Require Import ZArith List Bool Lia.
From Verif Require Import Fw FwLemmas Spec SpecLemmas SpecDot SpecDbl SpecMpfr Flopoco FlopocoLemmas FlopocoProofs MpfrLib Mpfr MpfrProofs MpfrProofs2 Dbl DblProofs DblProofs2 DblProofs3 Dot DotProofs DotProofs2 DotProofs5 RefDot RefDotProofs.
Open Scope Z_scope.

Lemma emax_10 E : 1 <= E <= 10 -> -511 <= emin E /\ emax E <= 512.
Proof. intros HE. unfold emin, emax, bias. assert (2 ^ (E - 1) <= 2 ^ 9) by (apply Z.pow_le_mono_r; lia). lia. Qed.
Lemma rndd_inf E F V k : 0 <= F -> 0 < V -> emax E < Z.log2 V + k -> emin E <= emax E -> rndd E F (V, k) = Inf false.
Proof.
  intros HF HV HX HR. unfold rndd, trunc_range, trunc_pos. rewrite mag_1 by exact HV. unfold finish. replace (Z.log2 V - F + k + F) with (Z.log2 V + k) by lia. replace (Z.log2 V + k <? emin E) with false by lia. replace (emax E <? Z.log2 V + k) with true by lia. reflexivity.
Qed.
Lemma rndd_at E F V k : 0 <= F <= Z.log2 V -> 0 < V -> rndd E F (V, k) = finish (emin E) (emax E) F false (V / 2 ^ (Z.log2 V - F), Z.log2 V - F + k).
Proof. intros HF HV. unfold rndd. apply trunc_char; [exact HF|]. rewrite Z.add_1_r. apply Z.log2_spec. exact HV. Qed.
Lemma dbl_over s m e : 0 < m -> 1024 <= Z.log2 m + e -> dbl_round s m e = Inf s.
Proof.
  intros Hm He. pose proof (dbl_scaled m e Hm) as S. cbv zeta in S. unfold dbl_round. cbv zeta. rewrite (Z.max_l (Z.log2 m + e - 52)) in * by lia. destruct S as [S1 S2]. specialize (S2 ltac:(lia)).
  remember (Z.log2 m + e - 52) as q eqn:Eq. pose proof (den2_pos 1 (e - q) ltac:(lia)) as Pd. pose proof (rne_bounds (num2 m (e - q)) (den2 1 (e - q)) Pd) as [R1 R2].
  assert (2 ^ 52 <= num2 m (e - q) / den2 1 (e - q)) by (apply Z.div_le_lower_bound; lia). remember (rne_div (num2 m (e - q)) (den2 1 (e - q))) as r.
  replace (r =? 0) with false by lia. destruct (r =? 2 ^ 53); [replace (971 <? q + 1) with true by lia|replace (971 <? q) with true by lia]; reflexivity.
Qed.
(** A number A 2^d with a small tail keeps A in front when it is rounded to a double. *)
Lemma dbl_front A B d k : 0 < A -> Z.log2 A <= 50 -> 0 <= B -> 0 < d -> B < 2 ^ (d - 1) -> 2 ^ 53 <= A * 2 ^ d + B -> -1074 <= Z.log2 (A * 2 ^ d + B) + k - 52 <= 971 ->
  exists r, dbl_round false (A * 2 ^ d + B) k = Num false r (Z.log2 A + d + k - 52) /\ 2 ^ 52 <= r < 2 ^ 53 /\ r / 2 ^ (52 - Z.log2 A) = A /\ Z.log2 (A * 2 ^ d + B) = Z.log2 A + d.
Proof.
  intros HA LA HB Hd HT HV HQ. pose proof (Z.log2_spec A HA) as SA. pose proof (Z.log2_nonneg A) as L0. remember (Z.log2 A) as a eqn:Ea. rewrite <- Z.add_1_r in SA.
  pose proof (pow2_pos (d - 1) ltac:(lia)) as Pd1. assert (E2 : 2 ^ d = 2 * 2 ^ (d - 1)) by (rewrite <- Z.pow_succ_r by lia; f_equal; lia).
  assert (LV : Z.log2 (A * 2 ^ d + B) = a + d).
  { apply Z.log2_unique; [lia|]. rewrite <- Z.add_1_r. replace (a + d + 1) with ((a + 1) + d) by lia. rewrite !pow2_add by lia. rewrite pow2_add in SA by lia. nia. }
  rewrite LV in HQ. assert (D53 : 53 <= a + d). { rewrite <- LV. apply Z.log2_le_pow2; lia. }
  unfold dbl_round. cbv zeta. rewrite LV. rewrite (Z.max_l (a + d + k - 52)) by lia. remember (a + d + k - 52) as q eqn:Eq. unfold num2, den2. rewrite (Z.max_l 0 (k - q)), (Z.max_r 0 (- (k - q))) by lia. rewrite Z.pow_0_r, Z.mul_1_r, Z.mul_1_l.
  replace (- (k - q)) with (a + d - 52) by lia. remember (a + d - 52) as c eqn:Ec. remember (52 - a) as g eqn:Eg. pose proof (pow2_pos c ltac:(lia)) as Pc. pose proof (pow2_pos g ltac:(lia)) as Pg.
  assert (Ed : 2 ^ d = 2 ^ g * 2 ^ c) by (rewrite <- pow2_add by lia; f_equal; lia).
  assert (Eg2 : 2 ^ g = 2 * 2 ^ (g - 1)) by (rewrite <- Z.pow_succ_r by lia; f_equal; lia). pose proof (pow2_pos (g - 1) ltac:(lia)) as Pg1.
  assert (Ed1 : 2 ^ (d - 1) = 2 ^ (g - 1) * 2 ^ c) by (rewrite <- pow2_add by lia; f_equal; lia).
  assert (DV : (A * 2 ^ d + B) / 2 ^ c = A * 2 ^ g + B / 2 ^ c) by (rewrite Ed; replace (A * (2 ^ g * 2 ^ c) + B) with (B + A * 2 ^ g * 2 ^ c) by ring; rewrite Z.div_add by lia; lia).
  assert (BC : 0 <= B / 2 ^ c < 2 ^ (g - 1)) by (split; [apply Z.div_pos; lia|apply Z.div_lt_upper_bound; lia]).
  pose proof (rne_bounds (A * 2 ^ d + B) (2 ^ c) Pc) as [R1 R2]. rewrite DV in R1, R2. remember (rne_div (A * 2 ^ d + B) (2 ^ c)) as r eqn:Er.
  assert (Eg1 : 1 < 2 ^ (g - 1)). { change 1 with (2 ^ 0). apply Z.pow_lt_mono_r; lia. }
  assert (RB : A * 2 ^ g <= r < (A + 1) * 2 ^ g) by lia.
  assert (B1 : 2 ^ 52 <= r < 2 ^ 53). { replace 53 with ((a + 1) + g) by lia. replace 52 with (a + g) by lia. rewrite !(pow2_add _ g) by lia. nia. }
  exists r. replace (r =? 2 ^ 53) with false by lia. replace (r =? 0) with false by lia. replace (971 <? q) with false by lia. split; [reflexivity|]. split; [exact B1|]. split; [|reflexivity].
  symmetry. apply (Z.div_unique r (2 ^ g) A (r - A * 2 ^ g)); lia.
Qed.
(** The sum of two products, rounded to a double and then down. *)
Lemma dbl_down E F A B d k : 1 <= E <= 10 -> 1 <= F <= 12 -> 2 ^ (2 * F) <= A < 2 ^ (2 * F + 2) -> 2 ^ (2 * F) <= B < 2 ^ (2 * F + 2) -> 0 <= d -> -1074 <= k ->
  rounds_to E F (fl_of_mpfr E F (F + 1) true (mpfr_set (F + 1) RNDD (dbl_round false (A * 2 ^ d + B) k))) (rndd E F (A * 2 ^ d + B, k)).
Proof.
  intros HE HF HA HB Hd Hk. assert (HO : ok_ef E F) by (split; lia). destruct (emax_10 E HE) as [Lo Hi]. pose proof (pow2_pos d Hd) as Pd. pose proof (pow2_pos (2 * F) ltac:(lia)) as PF.
  assert (HV : 0 < A * 2 ^ d + B) by nia. assert (EM : emin E <= emax E) by (unfold emin, emax, bias; pose proof (pow2_pos (E - 1) ltac:(lia)); lia).
  destruct (Z_le_gt_dec 1024 (Z.log2 (A * 2 ^ d + B) + k)) as [G|G].
  { rewrite dbl_over by assumption. cbn [mpfr_set]. rewrite rndd_inf by (assumption || lia). apply sp_inf. exact HO. }
  destruct (Z_lt_ge_dec (A * 2 ^ d + B) (2 ^ 53)) as [S|S].
  { destruct (dbl_exact false (A * 2 ^ d + B) k) as [J ->]; [lia|lia|lia|]. remember (k - Z.max (Z.log2 (A * 2 ^ d + B) + k - 52) (-1074)) as j. remember (A * 2 ^ d + B) as V. cbn [mpfr_set]. pose proof (pow2_pos j J).
    replace (rndd E F (V, k)) with (rndd E F (V * 2 ^ j, k - j)). apply down_num; [exact HO|nia]. rewrite rndd_scale by lia. f_equal. f_equal. lia. }
  assert (LA : 2 * F <= Z.log2 A <= 2 * F + 1). { split; [apply Z.log2_le_pow2; lia|]. apply Z.lt_succ_r. apply Z.log2_lt_pow2; [lia|]. replace (Z.succ (2 * F + 1)) with (2 * F + 2) by lia. lia. }
  assert (D : 2 * F + 3 <= d).
  { destruct (Z_le_gt_dec (2 * F + 3) d) as [Y|Y]; [exact Y|exfalso]. assert (2 ^ d <= 2 ^ (2 * F + 2)) by (apply Z.pow_le_mono_r; lia). assert (2 ^ (2 * F + 2) * 2 ^ (2 * F + 2) <= 2 ^ 52) by (rewrite <- pow2_add by lia; apply Z.pow_le_mono_r; lia).
    assert (2 ^ (2 * F + 2) <= 2 ^ 26) by (apply Z.pow_le_mono_r; lia). clear - S HA HB H H0 H1 Pd PF. nia. }
  assert (LV : 53 <= Z.log2 (A * 2 ^ d + B)) by (apply Z.log2_le_pow2; lia). destruct (dbl_front A B d k) as (r & -> & R1 & R2 & R3); try lia.
  { assert (2 ^ (2 * F + 2) <= 2 ^ (d - 1)) by (apply Z.pow_le_mono_r; lia). lia. }
  cbn [mpfr_set]. assert (LR : Z.log2 r = 52) by (apply Z.log2_unique; [lia|exact R1]).
  replace (rndd E F (A * 2 ^ d + B, k)) with (rndd E F (r, Z.log2 A + d + k - 52)). apply down_num; [exact HO|lia].
  rewrite (rndd_at E F r) by lia. rewrite (rndd_at E F (A * 2 ^ d + B)) by lia. rewrite LR, R3. f_equal. f_equal; [|lia].
  replace (52 - F) with ((52 - Z.log2 A) + (Z.log2 A - F)) by lia. replace (Z.log2 A + d - F) with (d + (Z.log2 A - F)) by lia. rewrite !pow2_add by lia. rewrite <- !Z.div_div by (try apply Z.pow_nonzero; try apply pow2_pos; lia). rewrite R2. f_equal.
  symmetry. rewrite Z.add_comm, Z.div_add by lia. assert (2 ^ (2 * F + 2) <= 2 ^ d) by (apply Z.pow_le_mono_r; lia). rewrite (Z.div_small B) by lia. lia.
Qed.
Lemma dbl_num m e : 0 < m < 2 ^ 53 -> -1074 <= e -> Z.log2 m + e <= 1023 -> exists j, 0 <= j /\ dbl_round false m e = Num false (m * 2 ^ j) (e - j).
Proof. intros Hm He HU. destruct (dbl_exact false m e Hm He HU) as [J R]. eexists. split; [exact J|exact R]. Qed.
Lemma dbl_prod m i e n j f : 0 < m -> 0 < n -> 0 <= i -> 0 <= j -> dbl_mul (Num false (m * 2 ^ i) (e - i)) (Num false (n * 2 ^ j) (f - j)) = dbl_round false (m * n) (e + f).
Proof.
  intros Hm Hn Hi Hj. cbn [dbl_mul xorb]. replace (m * 2 ^ i * (n * 2 ^ j)) with (m * n * 2 ^ (i + j)) by (rewrite pow2_add by lia; ring). replace (e - i + (f - j)) with (e + f - (i + j)) by lia. apply dbl_round_scale; nia.
Qed.
Lemma dbl_sum P i x Q j y : 0 < P -> 0 < Q -> 0 <= i -> 0 <= j -> y <= x -> dbl_add (Num false (P * 2 ^ i) (x - i)) (Num false (Q * 2 ^ j) (y - j)) = dbl_round false (P * 2 ^ (x - y) + Q) y.
Proof.
  intros HP HQ Hi Hj Hxy. cbn [dbl_add]. cbv zeta. remember (Z.min (x - i) (y - j)) as k eqn:Ek. pose proof (pow2_pos (x - y) ltac:(lia)) as Px. pose proof (pow2_pos (y - k) ltac:(lia)) as Pk.
  replace (P * 2 ^ i * 2 ^ (x - i - k) + Q * 2 ^ j * 2 ^ (y - j - k)) with ((P * 2 ^ (x - y) + Q) * 2 ^ (y - k)).
  2:{ rewrite <- !Z.mul_assoc, <- !pow2_add by lia. rewrite Z.mul_add_distr_r, <- Z.mul_assoc, <- pow2_add by lia. f_equal; f_equal; f_equal; lia. }
  assert (HV : 0 < (P * 2 ^ (x - y) + Q) * 2 ^ (y - k)) by nia. replace (_ =? 0) with false by lia. replace (_ <? 0) with false by lia. rewrite Z.abs_eq by lia. replace k with (y - (y - k)) at 2 by lia. apply dbl_round_scale; [lia|nia].
Qed.
Lemma dbl_sum' P i x Q j y : 0 < P -> 0 < Q -> 0 <= i -> 0 <= j -> x <= y -> dbl_add (Num false (P * 2 ^ i) (x - i)) (Num false (Q * 2 ^ j) (y - j)) = dbl_round false (Q * 2 ^ (y - x) + P) x.
Proof.
  intros. rewrite <- (dbl_sum Q j y P i x) by assumption. cbn [dbl_add]. cbv zeta. rewrite (Z.min_comm (y - j)), (Z.add_comm (Q * 2 ^ j * _)). reflexivity.
Qed.
Lemma dadd_comm p q : dadd p q = dadd q p.
Proof. destruct p, q. unfold dadd. cbv zeta. rewrite Z.min_comm, Z.add_comm. reflexivity. Qed.
Lemma rndd_dadd_inf E F P x Q y : 0 <= F -> 0 < P -> 0 < Q -> emin E <= emax E -> emax E < Z.log2 P + x -> rndd E F (dadd (P, x) (Q, y)) = Inf false.
Proof.
  intros HF HP HQ HE HX. rewrite (rndd_dadd E F P x Q y (Z.min x y) _ HF HP HQ ltac:(lia) ltac:(lia) eq_refl). pose proof (pow2_pos (x - Z.min x y) ltac:(lia)). pose proof (pow2_pos (y - Z.min x y) ltac:(lia)).
  apply rndd_inf; [exact HF|nia| |exact HE]. assert (Z.log2 (P * 2 ^ (x - Z.min x y)) <= Z.log2 (P * 2 ^ (x - Z.min x y) + Q * 2 ^ (y - Z.min x y))) by (apply Z.log2_le_mono; nia).
  rewrite Z.log2_mul_pow2 in H1 by lia. lia.
Qed.
Lemma dbl_dot E F P x Q y : 1 <= E <= 10 -> 1 <= F <= 12 -> 2 ^ (2 * F) <= P < 2 ^ (2 * F + 2) -> 2 ^ (2 * F) <= Q < 2 ^ (2 * F + 2) -> -1046 <= x -> -1046 <= y ->
  rounds_to E F (fl_of_mpfr E F (F + 1) true (mpfr_set (F + 1) RNDD (dbl_add (dbl_round false P x) (dbl_round false Q y)))) (rndd E F (dadd (P, x) (Q, y))).
Proof.
  intros HE HF HP HQ Hx Hy. assert (HO : ok_ef E F) by (split; lia). destruct (emax_10 E HE) as [Lo Hi]. assert (EM : emin E <= emax E) by (unfold emin, emax, bias; pose proof (pow2_pos (E - 1) ltac:(lia)); lia).
  pose proof (pow2_pos (2 * F) ltac:(lia)) as PF. assert (B26 : 2 ^ (2 * F + 2) <= 2 ^ 26) by (apply Z.pow_le_mono_r; lia).
  destruct (Z_le_gt_dec 1024 (Z.log2 P + x)) as [GP|GP].
  { rewrite (dbl_over false P x) by lia. rewrite rndd_dadd_inf by lia. destruct (dbl_round_sign false Q y) as [(? & ? & ->)|[->| ->]]; apply sp_inf; exact HO. }
  destruct (Z_le_gt_dec 1024 (Z.log2 Q + y)) as [GQ|GQ].
  { rewrite (dbl_over false Q y) by lia. rewrite dadd_comm, rndd_dadd_inf by lia. destruct (dbl_round_sign false P x) as [(? & ? & ->)|[->| ->]]; apply sp_inf; exact HO. }
  destruct (dbl_num P x) as (i & I & ->); [lia|lia|lia|]. destruct (dbl_num Q y) as (j & J & ->); [lia|lia|lia|].
  destruct (Z_le_gt_dec y x) as [G|G].
  - rewrite dbl_sum by lia. rewrite (rndd_dadd E F P x Q y y (P * 2 ^ (x - y) + Q)) by (try rewrite Z.sub_diag, Z.pow_0_r; lia). apply dbl_down; lia.
  - rewrite dbl_sum' by lia. rewrite dadd_comm, (rndd_dadd E F Q y P x x (Q * 2 ^ (y - x) + P)) by (try rewrite Z.sub_diag, Z.pow_0_r; lia). apply dbl_down; lia.
Qed.
Lemma ref_small_ok E F a0 a1 b0 b1 : 1 <= E <= 10 -> 1 <= F <= 12 -> wf (E + F + 3) a0 -> wf (E + F + 3) a1 -> wf (E + F + 3) b0 -> wf (E + F + 3) b1 ->
  pos_normal (decode E F a0) -> pos_normal (decode E F a1) -> pos_normal (decode E F b0) -> pos_normal (decode E F b1) ->
  rounds_to E F (dot2_ref_small E F a0 a1 b0 b1) (dot2_spec E F (decode E F a0) (decode E F a1) (decode E F b0) (decode E F b1)).
Proof.
  intros HE HF W0 W1 V0 V1 P0 P1 Q0 Q1. destruct (emax_10 E HE) as [Lo Hi]. unfold dot2_ref_small. replace (52 <? (F + 1) * 4) with false by lia. cbn [negb assert_ bind]. rewrite !to_double_approx_ok by (assumption || lia). cbn [bind]. cbv zeta.
  destruct (dot_num E F a0 ltac:(lia) ltac:(lia) W0 P0) as (m0 & e0 & -> & M0 & X0). destruct (dot_num E F a1 ltac:(lia) ltac:(lia) W1 P1) as (m1 & e1 & -> & M1 & X1).
  destruct (dot_num E F b0 ltac:(lia) ltac:(lia) V0 Q0) as (n0 & f0 & -> & N0 & Y0). destruct (dot_num E F b1 ltac:(lia) ltac:(lia) V1 Q1) as (n1 & f1 & -> & N1 & Y1).
  assert (L : forall m, 2 ^ F <= m < 2 ^ (F + 1) -> 0 < m < 2 ^ 53 /\ Z.log2 m = F).
  { intros m Hm. pose proof (pow2_pos F ltac:(lia)). assert (2 ^ (F + 1) <= 2 ^ 53) by (apply Z.pow_le_mono_r; lia). split; [lia|]. apply Z.log2_unique; [lia|]. rewrite <- Z.add_1_r. exact Hm. }
  destruct (L m0 M0) as [A0 A0']. destruct (L m1 M1) as [A1 A1']. destruct (L n0 N0) as [B0 B0']. destruct (L n1 N1) as [B1 B1'].
  unfold to_dbl. destruct (dbl_num m0 e0) as (i0 & I0 & ->); [lia|lia|lia|]. destruct (dbl_num m1 e1) as (i1 & I1 & ->); [lia|lia|lia|]. destruct (dbl_num n0 f0) as (j0 & J0 & ->); [lia|lia|lia|]. destruct (dbl_num n1 f1) as (j1 & J1 & ->); [lia|lia|lia|].
  rewrite !dbl_prod by lia. unfold dot2_spec. cbn [dmul]. apply dbl_dot; [exact HE|exact HF|apply prod_bounds; (assumption || lia)|apply prod_bounds; (assumption || lia)|lia|lia].
Qed.
Lemma ref_ok E F a0 a1 b0 b1 : 1 <= E <= 29 -> 1 <= F <= 128 -> E <= 10 \/ 12 <= F -> wf (E + F + 3) a0 -> wf (E + F + 3) a1 -> wf (E + F + 3) b0 -> wf (E + F + 3) b1 ->
  pos_normal (decode E F a0) -> pos_normal (decode E F a1) -> pos_normal (decode E F b0) -> pos_normal (decode E F b1) ->
  rounds_to E F (dot2_ref E F a0 a1 b0 b1) (dot2_spec E F (decode E F a0) (decode E F a1) (decode E F b0) (decode E F b1)).
Proof.
  intros HE HF HC W0 W1 V0 V1 P0 P1 Q0 Q1. unfold dot2_ref. destruct ((F + 1) * 4 <? 52) eqn:T; [apply ref_small_ok|apply ref_large_ok]; (assumption || lia).
Qed.
