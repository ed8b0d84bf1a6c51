(** The rounding of Spec754.v is Flocq's rounding to nearest even in the FLT format of the interchange format (precision
    F+1, smallest exponent 1-bias-F), and the operations of Spec754.v are the operations on real numbers so rounded. *)
From Coq Require Import ZArith Bool Lia Reals Lra.
From Flocq Require Import Core.
From Verif Require Import Fw FwLemmas Spec SpecLemmas Spec754 SpecFlocq SpecReal.
Open Scope Z_scope.

(** v is x rounded to nearest even, with subnormal numbers; infinity when the rounded number is 2^(bias+1) or more. *)
Definition rounded754 (E F : Z) (x : R) (v : fval) : Prop :=
  let r := round radix2 (FLT_exp (1 - bias E - F) (F + 1)) ZnearestE x in
  match v with
  | Num t m e => (t = true <-> (x < 0)%R) /\ rv v = r /\ (0 < Rabs r < bpow radix2 (bias E + 1))%R
  | Zero t => (x <> 0%R -> (t = true <-> (x < 0)%R)) /\ r = 0%R
  | Inf t => (t = true <-> (x < 0)%R) /\ (bpow radix2 (bias E + 1) <= Rabs r)%R
  | NaN => False
  end.

Section R754.
Context (E F : Z) (HE : 2 <= E) (HF : 1 <= F).

Lemma rounded754_round s n d k : 0 < n -> 0 < d -> rounded754 E F (sgnR s (IZR n / IZR d * bpow radix2 k)) (round754 E F s n d k).
Proof.
  intros Hn Hd. unfold rounded754, round754. cbv zeta.
  assert (PV : (0 < IZR n / IZR d)%R) by (apply Rdiv_lt_0_compat; apply IZR_lt; assumption).
  assert (P : (0 < IZR n / IZR d * bpow radix2 k)%R) by (apply Rmult_lt_0_compat; [exact PV|apply bpow_gt_0]).
  assert (B1 : 1 <= bias E). { unfold bias. assert (2 ^ 1 <= 2 ^ (E - 1)) by (apply pow2_le; lia). lia. }
  remember (Z.max (mag n d + k - F) (1 - bias E - F)) as q eqn:Eq.
  remember (rne_div (num2 n (k - q)) (den2 d (k - q))) as m eqn:Em.
  assert (X : round radix2 (FLT_exp (1 - bias E - F) (F + 1)) ZnearestE (sgnR s (IZR n / IZR d * bpow radix2 k)) = sgnR s (IZR m * bpow radix2 q)).
  { transitivity (sgnR s (round radix2 (FLT_exp (1 - bias E - F) (F + 1)) ZnearestE (IZR n / IZR d * bpow radix2 k))).
    { destruct s; [apply round_NE_opp|reflexivity]. }
    f_equal. unfold round, scaled_mantissa, cexp, F2R. cbn [Fnum Fexp]. rewrite mag_mult_bpow by lra. rewrite mag_flocq by assumption. unfold FLT_exp.
    replace (Z.max (mag n d + 1 + k - (F + 1)) (1 - bias E - F)) with q by (rewrite Eq; f_equal; lia).
    rewrite Em, rne_flocq by (apply den2_pos; lia). rewrite num_den by lia. do 3 f_equal. rewrite Rmult_assoc, <- bpow_plus. reflexivity. }
  rewrite X.
  destruct (mag_spec n d Hn Hd) as [M1 M2].
  assert (MM : 0 <= m <= 2 ^ (F + 1)).
  { subst m. split.
    - apply rne_div_lower; [apply den2_pos; lia|]. pose proof (num2_pos n (k - q) Hn). lia.
    - apply rne_div_upper; [apply den2_pos; lia|].
      pose proof (num_den n d (k - q) Hd) as N1. pose proof (den2_pos d (k - q) Hd) as D1.
      apply le_IZR. rewrite mult_IZR. apply (Rmult_le_reg_r (/ IZR (den2 d (k - q)))); [apply Rinv_0_lt_compat, IZR_lt, D1|].
      fold (IZR (num2 n (k - q)) / IZR (den2 d (k - q)))%R. rewrite N1.
      rewrite Rmult_assoc, Rinv_r, Rmult_1_r by (apply IZR_neq; lia). rewrite pow_bpow by lia.
      pose proof (bpow_mag_gt radix2 (IZR n / IZR d)) as G. rewrite Rabs_pos_eq in G by lra. rewrite mag_flocq in G by assumption.
      apply Rle_trans with (bpow radix2 (mag n d + 1) * bpow radix2 (k - q))%R.
      + apply Rmult_le_compat_r; [apply bpow_ge_0|lra].
      + rewrite <- bpow_plus. apply bpow_le. lia. }
  assert (ML : 1 - bias E - F < q -> 2 ^ F <= m).
  { intros Q. subst m. apply rne_div_lower; [apply den2_pos; lia|].
    pose proof (num_den n d (k - q) Hd) as N1. pose proof (den2_pos d (k - q) Hd) as D1.
    apply le_IZR. rewrite mult_IZR. apply (Rmult_le_reg_r (/ IZR (den2 d (k - q)))); [apply Rinv_0_lt_compat, IZR_lt, D1|].
    fold (IZR (num2 n (k - q)) / IZR (den2 d (k - q)))%R. rewrite N1.
    rewrite Rmult_assoc, Rinv_r, Rmult_1_r by (apply IZR_neq; lia). rewrite pow_bpow by lia.
    pose proof (bpow_mag_le radix2 (IZR n / IZR d) ltac:(lra)) as G. rewrite Rabs_pos_eq in G by lra. rewrite mag_flocq in G by assumption.
    apply Rle_trans with (bpow radix2 (mag n d + 1 - 1) * bpow radix2 (k - q))%R.
    + rewrite <- bpow_plus. apply bpow_le. lia.
    + apply Rmult_le_compat_r; [apply bpow_ge_0|lra]. }
  clear X M1 M2 Em Eq.
  assert (XA : Rabs (sgnR s (IZR m * bpow radix2 q)) = (IZR m * bpow radix2 q)%R).
  { assert (0 <= IZR m * bpow radix2 q)%R by (apply Rmult_le_pos; [apply IZR_le; lia|apply bpow_ge_0]).
    destruct s; cbn [sgnR]; rewrite ?Rabs_Ropp; apply Rabs_pos_eq; assumption. }
  destruct (Z.eqb_spec m 0) as [M0|M0].
  { split; [intros _; apply sgn_neg; exact P|]. rewrite M0. destruct s; cbn [sgnR]; ring. }
  assert (PM : (0 < IZR m * bpow radix2 q)%R) by (apply Rmult_lt_0_compat; [apply IZR_lt; lia|apply bpow_gt_0]).
  remember (if m =? 2 ^ (F + 1) then 2 ^ F else m) as m' eqn:Em'. remember (if m =? 2 ^ (F + 1) then q + 1 else q) as q' eqn:Eq'.
  assert (SAME : (IZR m' * bpow radix2 q' = IZR m * bpow radix2 q)%R).
  { subst m' q'. destruct (Z.eqb_spec m (2 ^ (F + 1))) as [->|]; [|reflexivity]. rewrite !pow_bpow by lia. rewrite <- !bpow_plus. f_equal. lia. }
  pose proof (pow2_pos F ltac:(lia)) as PF. rewrite pow2_S in MM by lia.
  assert (M' : 0 < m' < 2 ^ (F + 1) /\ (1 - bias E - F < q' -> 2 ^ F <= m')).
  { subst m' q'. rewrite pow2_S by lia. destruct (Z.eqb_spec m (2 * 2 ^ F)) as [->|]; [lia|]. split; [lia|exact ML]. }
  destruct M' as [[M'0 M'1] M'2].
  rewrite <- SAME in PM. assert (RV : rv (Num s m' q') = sgnR s (IZR m * bpow radix2 q)) by (rewrite rv_sgn, SAME; reflexivity).
  destruct (Z.ltb_spec (bias E) (q' + F)) as [O|O].
  - split; [apply sgn_neg; exact P|]. rewrite XA, <- SAME. apply Rle_trans with (bpow radix2 F * bpow radix2 q')%R.
    + rewrite <- bpow_plus. apply bpow_le. lia.
    + apply Rmult_le_compat_r; [apply bpow_ge_0|]. rewrite <- pow_bpow by lia. apply IZR_le. apply M'2. lia.
  - split; [apply sgn_neg; exact P|]. split; [exact RV|]. rewrite XA, <- SAME. split; [exact PM|].
    apply Rlt_le_trans with (bpow radix2 (F + 1) * bpow radix2 q')%R.
    + apply Rmult_lt_compat_r; [apply bpow_gt_0|]. rewrite <- pow_bpow by lia. apply IZR_lt. exact M'1.
    + rewrite <- bpow_plus. apply bpow_le. lia.
Qed.

Lemma rounded754_eq x y v : x = y -> rounded754 E F x v -> rounded754 E F y v.
Proof. intros ->. auto. Qed.
Lemma rounded754_zero t x : x = 0%R -> rounded754 E F x (Zero t).
Proof. intros ->. unfold rounded754. split; [intros H; exfalso; apply H; reflexivity|]. apply round_0, valid_rnd_N. Qed.

Lemma mul754_real x y : number x -> number y -> rounded754 E F (rv x * rv y) (mul754 E F x y).
Proof.
  intros Hx Hy. unfold mul754. destruct x as [| |s|s m e]; try contradiction; destruct y as [| |t|t n f]; try contradiction; try (apply rounded754_zero; cbn [rv]; ring).
  cbn [number] in *. cbn [mul_gen]. eapply rounded754_eq; [|apply rounded754_round; nia]. rewrite !rv_sgn. rewrite mult_IZR, bpow_plus. destruct s, t; cbn [xorb sgnR]; field.
Qed.
Lemma div754_real x y : number x -> number y -> rv y <> 0%R -> rounded754 E F (rv x / rv y) (div754 E F x y).
Proof.
  intros Hx Hy N. unfold div754. destruct y as [| |t|t n f]; try contradiction. destruct x as [| |s|s m e]; try contradiction. { apply rounded754_zero. cbn [rv]. unfold Rdiv. ring. }
  cbn [number] in *. cbn [div_gen]. eapply rounded754_eq; [|apply rounded754_round; lia]. rewrite !rv_sgn. unfold Z.sub. rewrite bpow_plus, bpow_opp. assert (IZR n <> 0)%R by (apply IZR_neq; lia). pose proof (bpow_gt_0 radix2 f). destruct s, t; cbn [xorb sgnR]; field; split; lra.
Qed.
Lemma one754_real s m e : 0 < m -> rounded754 E F (rv (Num s m e)) (round754 E F s m 1 e).
Proof. intros Hm. eapply rounded754_eq; [|apply rounded754_round; lia]. rewrite rv_sgn. destruct s; cbn [sgnR]; field. Qed.
Lemma add754_real x y : number x -> number y -> rounded754 E F (rv x + rv y) (add754 E F x y).
Proof.
  intros Hx Hy. unfold add754. destruct x as [| |s|s m e]; try contradiction; destruct y as [| |t|t n f]; try contradiction.
  - apply rounded754_zero; cbn [rv]; ring.
  - apply (rounded754_eq (rv (Num t n f))); [cbn [rv]; destruct t; ring|]. apply one754_real. exact Hy.
  - apply (rounded754_eq (rv (Num s m e))); [cbn [rv]; destruct s; ring|]. apply one754_real. exact Hx.
  - cbn [add_gen]. cbv zeta. remember (Z.min e f) as k. rewrite (sgn_real s m e k), (sgn_real t n f k) by lia. rewrite <- Rmult_plus_distr_r, <- plus_IZR. remember (sgn s (m * 2 ^ (e - k)) + sgn t (n * 2 ^ (f - k))) as v.
    destruct (v =? 0) eqn:Q. { apply Z.eqb_eq in Q. rewrite Q. apply rounded754_zero. ring. }
    apply Z.eqb_neq in Q. eapply rounded754_eq; [|apply rounded754_round; lia]. destruct (v <? 0) eqn:S; cbn [sgnR].
    + rewrite Z.abs_neq by lia. rewrite opp_IZR. field.
    + rewrite Z.abs_eq by lia. field.
Qed.

Lemma decode754_number x : 0 <= x -> finite_v (decode754 E F x) -> number (decode754 E F x).
Proof.
  intros Hx. unfold decode754. cbv zeta. pose proof (pow2_pos F ltac:(lia)) as PF. pose proof (Z.mod_pos_bound x (2 ^ F) PF).
  destruct (_ =? 2 ^ E - 1); [destruct (x mod 2 ^ F =? 0); exact (fun h => h)|].
  destruct (_ =? 0); [|intros _; cbn; lia]. destruct (Z.eqb_spec (x mod 2 ^ F) 0); intros _; cbn; [exact I|lia].
Qed.

(** Comparison of finite values is comparison of the real numbers. *)
Lemma cmp754_real x y : number x -> number y -> cmp754 x y = Some (Rcompare (rv x) (rv y)).
Proof.
  intros Hx Hy.
  assert (SG : forall s m e, 0 < m -> Rcompare (rv (Num s m e)) 0 = (if s then Lt else Gt)).
  { intros s m e Hm. rewrite rv_sgn. assert (0 < IZR m * bpow radix2 e)%R by (apply Rmult_lt_0_compat; [apply IZR_lt; lia|apply bpow_gt_0]).
    destruct s; cbn [sgnR]; [apply Rcompare_Lt|apply Rcompare_Gt]; lra. }
  destruct x as [| |s|s m e]; try contradiction; destruct y as [| |t|t n f]; try contradiction; cbn [number] in *.
  - cbn [cmp754 rv]. rewrite Rcompare_Eq by reflexivity. reflexivity.
  - cbn [cmp754]. rewrite Rcompare_sym. change (rv (Zero s)) with 0%R. rewrite SG by assumption. destruct t; reflexivity.
  - cbn [cmp754]. change (rv (Zero t)) with 0%R. rewrite SG by assumption. reflexivity.
  - cbn [cmp754]. cbv zeta. f_equal. rewrite (sgn_real s m e (Z.min e f)), (sgn_real t n f (Z.min e f)) by lia.
    rewrite Rcompare_mult_r by apply bpow_gt_0. symmetry. apply Rcompare_IZR.
Qed.
End R754.
