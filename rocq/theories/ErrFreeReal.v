(** Fast2Sum and 2Sum on real numbers: nothing overflows if the first sum does not; proofs for C76 and C77. *)
From Coq Require Import ZArith Bool Lia Reals Lra.
From Flocq Require Import Core Sterbenz Pff2Flocq.
From Verif Require Import FwLemmas SpecFlocq ErrFreeProofs.
Open Scope Z_scope.

Section Top.
Variables (lo hi F : Z).
(** The format: F+1 digits, multiples of 2^lo, below 2^(hi+1). *)
Hypothesis (HF : 1 <= F) (L0 : lo <= 0) (LO : lo + 1 <= hi - F).
#[local] Instance PR : Prec_gt_0 (F + 1).
Proof. unfold Prec_gt_0. lia. Qed.
Notation RT := (rt lo F).
Notation FL := (flt lo F).

Lemma rt_flt v : FL (RT v).
Proof. apply generic_format_round; [apply FLT_exp_valid; exact PR|apply valid_rnd_N]. Qed.
Lemma rt_id v : FL v -> RT v = v.
Proof. intros H. apply round_generic; [apply valid_rnd_N|exact H]. Qed.
Lemma rt_nearest v g : FL g -> (Rabs (RT v - v) <= Rabs (g - v))%R.
Proof. intros G. pose proof (round_N_pt radix2 (FLT_exp lo (F + 1)) (fun x => negb (Z.even x)) v) as [_ NP]. exact (NP g G). Qed.
Lemma rt_le v g : FL g -> (Rabs v <= g)%R -> (Rabs (RT v) <= g)%R.
Proof. intros G H. apply abs_round_le_generic; try typeclasses eauto; assumption. Qed.

(** The largest number and its last place. *)
Definition lastp := bpow radix2 (hi - F).
Definition top := (IZR (2 ^ (F + 1) - 1) * lastp)%R.
Notation U := lastp.
Notation Om := top.
Lemma U_pos : (0 < U)%R.
Proof. apply bpow_gt_0. Qed.
Lemma p2 : 4 <= 2 ^ (F + 1).
Proof. pose proof (pow2_le 2 (F + 1) ltac:(lia)). lia. Qed.
Lemma Om_U : (U <= Om)%R.
Proof. unfold top. pose proof U_pos. pose proof p2. assert (1 <= IZR (2 ^ (F + 1) - 1))%R by (apply IZR_le; lia). nra. Qed.
Lemma Om_lt : (Om < bpow radix2 (hi + 1))%R.
Proof.
  unfold top, lastp. replace (hi + 1) with (F + 1 + (hi - F)) by lia. rewrite bpow_plus. apply Rmult_lt_compat_r; [apply bpow_gt_0|].
  rewrite <- pow_bpow by lia. apply IZR_lt. lia.
Qed.
Lemma Om_flt : FL Om.
Proof.
  apply generic_format_FLT. exists (Float radix2 (2 ^ (F + 1) - 1) (hi - F)); [reflexivity| |].
  - cbn [Fnum]. change (Zpower radix2 (F + 1)) with (2 ^ (F + 1)). pose proof p2. lia.
  - cbn [Fexp]. lia.
Qed.
Lemma Om_half : FL (Om / 2).
Proof.
  apply generic_format_FLT. exists (Float radix2 (2 ^ (F + 1) - 1) (hi - F - 1)).
  - unfold F2R, top, lastp. cbn [Fnum Fexp]. replace (hi - F) with (hi - F - 1 + 1) at 1 by lia. rewrite bpow_plus. change (bpow radix2 1) with 2%R. field.
  - cbn [Fnum]. change (Zpower radix2 (F + 1)) with (2 ^ (F + 1)). pose proof p2. lia.
  - cbn [Fexp]. lia.
Qed.
Lemma rt_opp v : RT (- v) = (- RT v)%R.
Proof. rewrite round_NE_opp. reflexivity. Qed.
Lemma half_U v : (Rabs (RT v) < bpow radix2 (hi + 1))%R -> (Rabs (RT v - v) <= U / 2)%R.
Proof.
  intros H. pose proof (error_le_half_ulp_round radix2 (FLT_exp lo (F + 1)) (fun x => negb (Z.even x)) v) as R. apply Rle_trans with (1 := R).
  assert (ulp radix2 (FLT_exp lo (F + 1)) (RT v) <= U)%R; [|lra].
  destruct (Req_dec (RT v) 0) as [Z0|NZ].
  - rewrite Z0, ulp_FLT_0 by exact PR. apply bpow_le. lia.
  - rewrite ulp_neq_0 by exact NZ. apply bpow_le. pose proof (mag_le_bpow radix2 (RT v) (hi + 1) NZ H) as K. unfold cexp. remember (RT v) as q. unfold FLT_exp. lia.
Qed.

(** If |x| is the largest number, the sum minus x is exact. *)
Lemma top_exact x y : FL x -> FL y -> (Rabs x = Om)%R -> (Rabs y <= Om)%R -> (Rabs (RT (x + y)) <= Om)%R -> FL (RT (x + y) - x).
Proof.
  assert (P : forall x y, FL x -> FL y -> (x = Om)%R -> (Rabs y <= Om)%R -> (Rabs (RT (x + y)) <= Om)%R -> FL (RT (x + y) - x)).
  { clear x y. intros x y Hx Hy -> By Ba. apply Rabs_le_inv in By. apply Rabs_le_inv in Ba.
    destruct (Rle_or_lt (Om / 2) (RT (Om + y))) as [H|H].
    - replace (RT (Om + y) - Om)%R with (- (Om - RT (Om + y)))%R by ring. apply generic_format_opp. apply sterbenz; try typeclasses eauto; [exact Om_flt|apply rt_flt|lra].
    - assert (X : FL (Om + y)).
      { replace (Om + y)%R with (Om - - y)%R by ring. apply sterbenz; try typeclasses eauto; [exact Om_flt|apply generic_format_opp; exact Hy|]. split; [pose proof Om_U; pose proof U_pos; lra|].
        destruct (Rle_or_lt Om (2 * - y)) as [G|G]; [exact G|exfalso].
        assert (Om / 2 <= RT (Om + y))%R; [|lra]. rewrite <- (rt_id _ Om_half). apply round_le; try typeclasses eauto. lra. }
      rewrite (rt_id _ X). replace (Om + y - Om)%R with y by ring. exact Hy. }
  intros Hx Hy X By Ba. destruct (Rle_or_lt 0 x) as [S|S].
  - rewrite Rabs_pos_eq in X by exact S. apply P; assumption.
  - rewrite Rabs_left in X by exact S. specialize (P (- x) (- y))%R. replace (- x + - y)%R with (- (x + y))%R in P by ring. rewrite rt_opp in P.
    replace (RT (x + y) - x)%R with (- (- RT (x + y) - - x))%R by ring. apply generic_format_opp. apply P; [apply generic_format_opp; exact Hx|apply generic_format_opp; exact Hy|exact X|rewrite Rabs_Ropp; exact By|rewrite Rabs_Ropp; exact Ba].
Qed.


Lemma fast_real x y : FL x -> FL y -> (Rabs x <= Om)%R -> (Rabs (RT (x + y)) <= Om)%R -> (Rabs y <= Rabs x)%R ->
  let s := RT (x + y) in let z := RT (x - s) in let b := RT (y + z) in (Rabs z <= Om)%R /\ (Rabs b <= Om)%R /\ (s + b = x + y)%R.
Proof.
  intros Fx Fy Bx Ba L s z b. pose proof Om_U as OU. pose proof U_pos as UP. pose proof Om_lt as OL.
  assert (X : (Rabs (x - s) <= Om)%R).
  { assert (S : (0 <= x -> 0 <= s)%R /\ (x <= 0 -> s <= 0)%R).
    { unfold s. split; intros S.
      - rewrite <- (round_0 radix2 (FLT_exp lo (F + 1)) ZnearestE). apply round_le; try typeclasses eauto. rewrite (Rabs_pos_eq _ S) in L. apply Rabs_le_inv in L. lra.
      - rewrite <- (round_0 radix2 (FLT_exp lo (F + 1)) ZnearestE). apply round_le; try typeclasses eauto. rewrite (Rabs_left1 _ S) in L. apply Rabs_le_inv in L. lra. }
    fold s in Ba. apply Rabs_le_inv in Bx. apply Rabs_le_inv in Ba. apply Rabs_le. destruct (Rle_or_lt 0 x) as [P|P]; [pose proof (proj1 S P); lra|pose proof (proj2 S (Rlt_le _ _ P)); lra]. }
  split; [exact (rt_le _ _ Om_flt X)|].
  assert (K : (s + b = x + y)%R). { apply Fast2Sum_correct; try lia; [exact choice_ok|exact Fx|exact Fy|exact L]. }
  split; [|exact K]. replace b with (- (s - (x + y)))%R by lra. rewrite Rabs_Ropp. pose proof (half_U (x + y) ltac:(lra)) as H. fold s in H. lra.
Qed.
Lemma two_real x y : FL x -> FL y -> (Rabs x = Om \/ Rabs x <= Om - U)%R -> (Rabs y <= Om - U)%R -> (Rabs (RT (x + y)) <= Om)%R ->
  let s := RT (x + y) in let x' := RT (s - x) in let t := RT (s - x') in let dx := RT (x - t) in let dy := RT (y - x') in let b := RT (dx + dy) in
  (Rabs x' <= Om)%R /\ (Rabs t <= Om)%R /\ (Rabs dx <= Om)%R /\ (Rabs dy <= Om)%R /\ (Rabs b <= Om)%R /\ (s + b = x + y)%R.
Proof.
  intros Fx Fy Cx Cy Ba s x' t dx dy b. pose proof Om_U as OU. pose proof U_pos as UP. pose proof Om_lt as OL.
  pose proof (half_U (x + y) ltac:(lra)) as H1. fold s in H1.
  assert (B2 : (Rabs (s - x) <= Om)%R). { replace (s - x)%R with (y + (s - (x + y)))%R by ring. pose proof (Rabs_triang y (s - (x + y))). lra. }
  pose proof (rt_le _ _ Om_flt B2) as R2. fold x' in R2. pose proof (half_U (s - x) ltac:(fold x'; lra)) as H2. fold x' in H2.
  assert (B3 : (Rabs (s - x') <= Om)%R).
  { destruct Cx as [Cx|Cx].
    - assert (PX : x' = (s - x)%R) by (apply rt_id; apply top_exact; try assumption; lra).
      rewrite PX. replace (s - (s - x))%R with x by ring. lra.
    - replace (s - x')%R with (x + - (x' - (s - x)))%R by ring. pose proof (Rabs_triang x (- (x' - (s - x)))) as T. rewrite Rabs_Ropp in T. lra. }
  pose proof (rt_le _ _ Om_flt B3) as R3. fold t in R3. pose proof (half_U (s - x') ltac:(fold t; lra)) as H3. fold t in H3.
  assert (B4 : (Rabs (x - t) <= Om)%R). { replace (x - t)%R with ((x' - (s - x)) + - (t - (s - x')))%R by ring. pose proof (Rabs_triang (x' - (s - x)) (- (t - (s - x')))) as K. rewrite Rabs_Ropp in K. lra. }
  assert (B5 : (Rabs (y - x') <= Om)%R). { replace (y - x')%R with (- (s - (x + y)) + - (x' - (s - x)))%R by ring. pose proof (Rabs_triang (- (s - (x + y))) (- (x' - (s - x)))) as K. rewrite !Rabs_Ropp in K. lra. }
  assert (Q : (s + b = x + y)%R). { apply TwoSum_correct; try lia; [exact choice_ok|exact Fx|exact Fy]. }
  split; [exact R2|]. split; [exact R3|]. split; [exact (rt_le _ _ Om_flt B4)|]. split; [exact (rt_le _ _ Om_flt B5)|]. split; [|exact Q].
  replace b with (- (s - (x + y)))%R by lra. rewrite Rabs_Ropp. lra.
Qed.
(** A number with F+1 digits below 2^(hi+1) is the largest or at most the one before. *)
Lemma num_cases m e : 0 <= m < 2 ^ (F + 1) -> e <= hi - F -> (IZR m * bpow radix2 e = Om \/ IZR m * bpow radix2 e <= Om - U)%R.
Proof.
  intros M EM. pose proof U_pos as UP. pose proof p2 as P2. unfold top.
  destruct (Z.eq_dec e (hi - F)) as [->|N].
  - fold U. destruct (Z.eq_dec m (2 ^ (F + 1) - 1)) as [->|NM]; [left; reflexivity|right].
    assert (IZR m <= IZR (2 ^ (F + 1) - 1) - 1)%R by (rewrite <- minus_IZR; apply IZR_le; lia). nra.
  - right. assert (BH : (bpow radix2 e * 2 <= U)%R). { unfold lastp. change 2%R with (bpow radix2 1). rewrite <- bpow_plus. apply bpow_le. lia. }
    assert (IZR m <= IZR (2 ^ (F + 1)))%R by (apply IZR_le; lia). assert (4 <= IZR (2 ^ (F + 1)))%R by (apply IZR_le; lia).
    rewrite minus_IZR. pose proof (bpow_gt_0 radix2 e). nra.
Qed.
Lemma top_only m e : 2 ^ F <= m < 2 ^ (F + 1) -> e <= hi - F -> (IZR m * bpow radix2 e = Om)%R -> m = 2 ^ (F + 1) - 1 /\ e = hi - F.
Proof.
  intros M EM A. pose proof p2 as P. unfold top, lastp in A.
  replace (hi - F) with (hi - F - e + e) in A by lia. rewrite (bpow_plus radix2 (hi - F - e) e) in A. rewrite <- Rmult_assoc in A. apply Rmult_eq_reg_r in A; [|pose proof (bpow_gt_0 radix2 e); lra].
  rewrite <- pow_bpow in A by lia. rewrite <- mult_IZR in A. apply eq_IZR in A. pose proof (pow2_pos (hi - F - e) ltac:(lia)).
  assert (2 ^ (hi - F - e) = 1) by nia. assert (hi - F - e = 0). { destruct (Z.eq_dec (hi - F - e) 0) as [|N]; [assumption|]. pose proof (pow2_le 1 (hi - F - e) ltac:(lia)). lia. }
  split; [nia|lia].
Qed.
End Top.
