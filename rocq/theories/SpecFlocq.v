(** The specification against Flocq: the rounding of Spec.v and SpecDbl.v is Flocq's rounding to nearest even on real
    numbers. These theorems use the axioms of the standard library's real numbers. *)
From Coq Require Import ZArith Bool Lia Reals Lra.
From Flocq Require Import Core.
From Verif Require Import Fw FwLemmas Spec SpecLemmas SpecDbl MpfrProofs MpfrProofs2 DblProofs.
From Verif Require ValueLemmas.
Open Scope Z_scope.

(** The real number a finite value stands for. *)
Definition rv (x : fval) : R :=
  match x with Num s m e => (if s then - (IZR m * bpow radix2 e) else IZR m * bpow radix2 e)%R | _ => 0%R end.

Lemma rne_flocq n d : 0 < d -> rne_div n d = ZnearestE (IZR n / IZR d).
Proof.
  intros Hd. unfold Znearest. rewrite Zfloor_div by lia. assert (PD : (0 < IZR d)%R) by (apply IZR_lt; lia).
  assert (NZ : IZR d <> 0%R) by lra.
  pose proof (Z.div_mod n d ltac:(lia)) as DM. pose proof (Z.mod_pos_bound n d Hd) as MB. unfold rne_div. cbv zeta. remember (n / d) as q. remember (n mod d) as r.
  assert (X : (IZR n / IZR d - IZR q = IZR r / IZR d)%R). { rewrite DM at 1. rewrite plus_IZR, mult_IZR. field. exact NZ. }
  rewrite X.
  assert (CE : r <> 0 -> Zceil (IZR n / IZR d) = q + 1).
  { intros NR. rewrite Zceil_floor_neq. rewrite Zfloor_div by lia. rewrite <- Heqq. reflexivity.
    rewrite Zfloor_div by lia. rewrite <- Heqq. intros Q. assert (IZR r / IZR d = 0)%R by lra. assert (IZR r = 0)%R by (apply (Rmult_eq_reg_r (/ IZR d)); [unfold Rdiv in H; lra|apply Rinv_neq_0_compat; exact NZ]). apply eq_IZR in H0. lia. }
  assert (CMP : Rcompare (IZR r / IZR d) (/ 2) = (2 * r ?= d)).
  { rewrite <- (Rcompare_mult_r (2 * IZR d)) by lra. replace (IZR r / IZR d * (2 * IZR d))%R with (IZR (2 * r)) by (rewrite mult_IZR; field; exact NZ). replace (/ 2 * (2 * IZR d))%R with (IZR d) by field. apply Rcompare_IZR. }
  rewrite CMP. destruct (2 * r ?= d) eqn:Q.
  - apply Z.compare_eq_iff in Q. replace (2 * r <? d) with false by lia. replace (d <? 2 * r) with false by lia. rewrite CE by lia. destruct (Z.even q); reflexivity.
  - apply (proj1 (Z.compare_lt_iff _ _)), (proj2 (Z.ltb_lt _ _)) in Q. rewrite Q. reflexivity.
  - apply (proj1 (Z.compare_gt_iff _ _)) in Q. rewrite (proj2 (Z.ltb_ge (2 * r) d)) by (apply Z.lt_le_incl; exact Q). rewrite (proj2 (Z.ltb_lt d (2 * r)) Q). rewrite CE; [reflexivity|]. intros ->. apply (Z.lt_irrefl 0). apply Z.lt_trans with d; assumption.
Qed.
Lemma pow_bpow k : 0 <= k -> IZR (2 ^ k) = bpow radix2 k.
Proof. intros H. rewrite <- (IZR_Zpower radix2) by exact H. reflexivity. Qed.
Lemma num_den n d k : 0 < d -> (IZR (num2 n k) / IZR (den2 d k) = IZR n / IZR d * bpow radix2 k)%R.
Proof.
  intros Hd. unfold num2, den2. rewrite !mult_IZR, !pow_bpow by lia. assert (IZR d <> 0)%R by (apply IZR_neq; lia). pose proof (bpow_gt_0 radix2 (Z.max 0 (- k))). 
  replace (bpow radix2 k) with (bpow radix2 (Z.max 0 k) / bpow radix2 (Z.max 0 (- k)))%R. { field. split; [lra|assumption]. }
  replace (bpow radix2 (Z.max 0 k)) with (bpow radix2 (k + Z.max 0 (- k))) by (f_equal; lia). rewrite bpow_plus. field. lra.
Qed.
Lemma mag_flocq n d : 0 < n -> 0 < d -> Core.Raux.mag radix2 (IZR n / IZR d) = mag n d + 1 :> Z.
Proof.
  intros Hn Hd. apply mag_unique_pos. replace (mag n d + 1 - 1) with (mag n d) by lia. destruct (mag_spec n d Hn Hd) as [A B]. remember (mag n d) as g. pose proof (den2_pos d (- g) Hd) as DP. assert (PD : (0 < IZR (den2 d (- g)))%R) by (apply IZR_lt; lia).
  assert (X : (IZR n / IZR d = IZR (num2 n (- g)) / IZR (den2 d (- g)) * bpow radix2 g)%R). { rewrite num_den by exact Hd. rewrite Rmult_assoc, <- bpow_plus. replace (- g + g) with 0 by lia. cbn [bpow]. ring. }
  rewrite X. pose proof (bpow_gt_0 radix2 g) as G. apply IZR_le in A. apply IZR_lt in B. rewrite mult_IZR in B. rewrite bpow_plus. change (bpow radix2 1) with 2%R. split.
  - rewrite <- (Rmult_1_l (bpow radix2 g)) at 1. apply Rmult_le_compat_r; [lra|]. apply (Rmult_le_reg_r (IZR (den2 d (- g)))); [exact PD|]. replace (IZR (num2 n (- g)) / IZR (den2 d (- g)) * IZR (den2 d (- g)))%R with (IZR (num2 n (- g))) by (field; lra). lra.
  - rewrite (Rmult_comm (bpow radix2 g)). apply Rmult_lt_compat_r; [lra|]. apply (Rmult_lt_reg_r (IZR (den2 d (- g)))); [exact PD|]. replace (IZR (num2 n (- g)) / IZR (den2 d (- g)) * IZR (den2 d (- g)))%R with (IZR (num2 n (- g))) by (field; lra). lra.
Qed.
(** F+1 significant bits, to nearest even: Flocq's FLX format. *)
Theorem round_pos_flocq F n d : 0 <= F -> 0 < n -> 0 < d -> let '(m, e) := round_pos F n d in
  (IZR m * bpow radix2 e)%R = round radix2 (FLX_exp (F + 1)) ZnearestE (IZR n / IZR d).
Proof.
  intros HF Hn Hd. unfold round, scaled_mantissa, cexp, F2R. cbn [Fnum Fexp]. rewrite mag_flocq by assumption. unfold FLX_exp. replace (mag n d + 1 - (F + 1)) with (mag n d - F) by lia.
  unfold round_pos. cbv zeta. remember (mag n d - F) as e. rewrite <- num_den by exact Hd. rewrite <- rne_flocq by (apply den2_pos; exact Hd).
  remember (rne_div (num2 n (- e)) (den2 d (- e))) as m. destruct (m =? 2 ^ (F + 1)) eqn:Q; [|reflexivity]. apply Z.eqb_eq in Q. rewrite Q. rewrite !pow_bpow by lia. rewrite <- !bpow_plus. f_equal. lia.
Qed.
(** Scaling by a power of two commutes with it. *)
Lemma flx_scale p x k : round radix2 (FLX_exp p) ZnearestE (x * bpow radix2 k) = (round radix2 (FLX_exp p) ZnearestE x * bpow radix2 k)%R.
Proof.
  destruct (Req_dec x 0) as [->|N]. { rewrite Rmult_0_l, round_0 by (apply valid_rnd_N). ring. }
  unfold round, scaled_mantissa, cexp, F2R. cbn [Fnum Fexp]. rewrite mag_mult_bpow by exact N. unfold FLX_exp. rewrite Rmult_assoc, <- bpow_plus. replace (k + - (Core.Raux.mag radix2 x + k - p)) with (- (Core.Raux.mag radix2 x - p)) by lia. rewrite Rmult_assoc, <- bpow_plus. do 2 f_equal. lia.
Qed.
Definition sgnR (s : bool) (x : R) : R := if s then (- x)%R else x.
Lemma flx_sgn p s x : round radix2 (FLX_exp p) ZnearestE (sgnR s x) = sgnR s (round radix2 (FLX_exp p) ZnearestE x).
Proof. destruct s; [apply round_NE_opp|reflexivity]. Qed.
(** The rounding of the formats: the rounded real decides; below 2^emin it is zero, from 2^(emax+1) on infinity. *)
Theorem round_range_flocq lo hi F s n d k : 0 <= F -> lo <= hi -> 0 < n -> 0 < d ->
  let r := round radix2 (FLX_exp (F + 1)) ZnearestE (sgnR s (IZR n / IZR d * bpow radix2 k)) in
  match round_range lo hi F s n d k with
  | Num t m e => t = s /\ 2 ^ F <= m < 2 ^ (F + 1) /\ lo <= e + F <= hi /\ rv (Num t m e) = r
  | Zero t => t = s /\ (0 < Rabs r < bpow radix2 lo)%R
  | Inf t => t = s /\ (bpow radix2 (hi + 1) <= Rabs r)%R
  | NaN => False
  end.
Proof.
  intros HF HL Hn Hd r. unfold round_range. pose proof (round_pos_flocq F n d HF Hn Hd) as RP. pose proof (round_pos_range F n d HF Hn Hd) as RR. destruct (round_pos F n d) as [m e]. cbn [fst] in RR.
  assert (X : r = sgnR s (IZR m * bpow radix2 (e + k))). { unfold r. rewrite flx_sgn, flx_scale. rewrite <- RP. rewrite bpow_plus. f_equal. ring. }
  assert (XA : Rabs r = (IZR m * bpow radix2 (e + k))%R). { rewrite X. pose proof (bpow_gt_0 radix2 (e + k)). assert (0 < IZR m)%R by (apply IZR_lt; pose proof (pow2_pos F HF); lia). assert (0 < IZR m * bpow radix2 (e + k))%R by (apply Rmult_lt_0_compat; assumption). destruct s; cbn [sgnR]; rewrite ?Rabs_Ropp; apply Rabs_pos_eq; lra. }
  destruct RR as [R1 R2]. assert (B1 : (bpow radix2 (e + k + F) <= Rabs r)%R). { rewrite XA. replace (e + k + F) with (F + (e + k)) by lia. rewrite (bpow_plus radix2 F (e + k)). apply Rmult_le_compat_r; [apply bpow_ge_0|]. rewrite <- pow_bpow by lia. apply IZR_le. exact R1. }
  assert (B2 : (Rabs r < bpow radix2 (e + k + F + 1))%R). { rewrite XA. replace (e + k + F + 1) with (F + 1 + (e + k)) by lia. rewrite (bpow_plus radix2 (F + 1) (e + k)). apply Rmult_lt_compat_r; [apply bpow_gt_0|]. rewrite <- pow_bpow by lia. apply IZR_lt. exact R2. }
  unfold finish. destruct (e + k + F <? lo) eqn:A.
  - split; [reflexivity|]. split; [pose proof (bpow_gt_0 radix2 (e + k + F)); lra|]. apply Rlt_le_trans with (1 := B2). apply bpow_le. lia.
  - destruct (hi <? e + k + F) eqn:B.
    + split; [reflexivity|]. apply Rle_trans with (2 := B1). apply bpow_le. lia.
    + split; [reflexivity|]. split; [lia|]. split; [lia|]. rewrite X. reflexivity.
Qed.
(** Doubles: Flocq's FLT format with 53 bits and smallest exponent -1074. *)
Lemma flt_sgn s x : round radix2 (FLT_exp (-1074) 53) ZnearestE (sgnR s x) = sgnR s (round radix2 (FLT_exp (-1074) 53) ZnearestE x).
Proof. destruct s; [apply round_NE_opp|reflexivity]. Qed.
Theorem dbl_round_flocq s m e : 0 < m ->
  let r := round radix2 (FLT_exp (-1074) 53) ZnearestE (sgnR s (IZR m * bpow radix2 e)) in
  match dbl_round s m e with
  | Num t n f => t = s /\ dbl (Num t n f) /\ rv (Num t n f) = r
  | Zero t => t = s /\ r = 0%R
  | Inf t => t = s /\ (bpow radix2 1024 <= Rabs r)%R
  | NaN => False
  end.
Proof.
  intros Hm r. pose proof (dbl_round_dbl s m e Hm) as D. pose proof (dbl_scaled m e Hm) as S. cbv zeta in S.
  assert (NZ : IZR m <> 0%R) by (apply IZR_neq; lia).
  assert (MG : Core.Raux.mag radix2 (IZR m * bpow radix2 e) = Z.log2 m + 1 + e :> Z). { rewrite mag_mult_bpow by exact NZ. replace (IZR m) with (IZR m / IZR 1)%R by field. rewrite mag_flocq by lia. rewrite mag_int' by exact Hm. reflexivity. }
  assert (X : r = sgnR s (IZR (rne_div (num2 m (e - Z.max (Z.log2 m + e - 52) (-1074))) (den2 1 (e - Z.max (Z.log2 m + e - 52) (-1074)))) * bpow radix2 (Z.max (Z.log2 m + e - 52) (-1074)))).
  { unfold r. rewrite flt_sgn. f_equal. unfold round, scaled_mantissa, cexp, F2R. cbn [Fnum Fexp]. rewrite MG. unfold FLT_exp. replace (Z.log2 m + 1 + e - 53) with (Z.log2 m + e - 52) by lia. remember (Z.max (Z.log2 m + e - 52) (-1074)) as q.
    rewrite rne_flocq by (apply den2_pos; lia). rewrite num_den by lia. do 3 f_equal. rewrite Rmult_assoc, <- bpow_plus. replace (IZR m / IZR 1)%R with (IZR m) by field. reflexivity. }
  unfold dbl_round in *. cbv zeta in *. remember (Z.max (Z.log2 m + e - 52) (-1074)) as q. remember (rne_div (num2 m (e - q)) (den2 1 (e - q))) as a.
  assert (A0 : 0 <= a) by (subst a; apply rne_div_lower; [apply den2_pos; lia|]; pose proof (num2_pos m (e - q) Hm); lia).
  assert (A1 : a <= 2 ^ 53) by (subst a; apply rne_div_upper; [apply den2_pos; lia|]; lia).
  assert (AQ : -1074 < q -> 2 ^ 52 <= a) by (intros Q; subst a; apply rne_div_lower; [apply den2_pos; lia|]; apply S; exact Q).
  assert (Y : forall a' q', (IZR a' * bpow radix2 q' = IZR a * bpow radix2 q)%R -> rv (Num s a' q') = r). { intros a' q' Q. rewrite X. cbn [rv]. rewrite Q. reflexivity. }
  assert (YA : Rabs r = (IZR a * bpow radix2 q)%R). { rewrite X. pose proof (bpow_ge_0 radix2 q). apply IZR_le in A0. assert (0 <= IZR a * bpow radix2 q)%R by (apply Rmult_le_pos; assumption). destruct s; cbn [sgnR]; rewrite ?Rabs_Ropp; apply Rabs_pos_eq; assumption. }
  destruct (a =? 0) eqn:Z0. { apply Z.eqb_eq in Z0. split; [reflexivity|]. rewrite X, Z0. destruct s; cbn [sgnR]; ring. }
  destruct (a =? 2 ^ 53) eqn:T; cbv beta iota in *.
  - apply Z.eqb_eq in T. destruct (971 <? q + 1) eqn:O.
    + split; [reflexivity|]. rewrite YA, T. rewrite pow_bpow by lia. rewrite <- bpow_plus. apply bpow_le. lia.
    + split; [reflexivity|]. split; [exact D|]. apply Y. rewrite T. rewrite !pow_bpow by lia. rewrite <- !bpow_plus. f_equal. lia.
  - destruct (971 <? q) eqn:O.
    + split; [reflexivity|]. rewrite YA. apply Rle_trans with (IZR (2 ^ 52) * bpow radix2 q)%R; [|apply Rmult_le_compat_r; [apply bpow_ge_0|apply IZR_le; lia]]. rewrite pow_bpow by lia. rewrite <- bpow_plus. apply bpow_le. lia.
    + split; [reflexivity|]. split; [exact D|]. apply Y. reflexivity.
Qed.
