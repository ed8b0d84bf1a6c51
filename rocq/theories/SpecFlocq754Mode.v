(** The roundings of Spec754Mode.v are Flocq's roundings in the FLT format of the interchange format (precision F+1, smallest
    exponent 1-bias-F). Follows SpecFlocq754.v. *)
From Coq Require Import ZArith Bool Lia Reals Lra.
From Flocq Require Import Core Round_odd.
From Verif Require Import Fw FwLemmas Spec SpecLemmas Spec754 Spec754Mode SpecFlocq SpecReal SfmProofs1.
Open Scope Z_scope.

Definition rnd_of (md : rmode) : R -> Z :=
  match md with
  | NearEven => ZnearestE | MinMag => Ztrunc | Min => Zfloor | Max => Zceil | NearMaxMag => ZnearestA | Odd => Zrnd_odd
  end.
Definition is_value (v : fval) : Prop := match v with NaN | Inf _ => False | _ => True end.
Definition vsign (v : fval) : bool := match v with NaN => false | Inf s | Zero s | Num s _ _ => s end.

(** v is x rounded in mode md, with subnormal numbers and an unbounded exponent above; what is then 2^(bias+1) or more
    becomes overflow754. *)
Definition rounded754m (md : rmode) (E F : Z) (x : R) (v : fval) : Prop :=
  let r := round radix2 (FLT_exp (1 - bias E - F) (F + 1)) (rnd_of md) x in
  (x <> 0%R -> (vsign v = true <-> (x < 0)%R)) /\
  ((bpow radix2 (bias E + 1) <= Rabs r)%R -> v = overflow754 md E F (vsign v)) /\
  ((Rabs r < bpow radix2 (bias E + 1))%R -> is_value v /\ rv v = r).

Lemma rnd_of_valid md : Valid_rnd (rnd_of md).
Proof. destruct md; cbn [rnd_of]; typeclasses eauto. Qed.

Lemma rnd_of_div md s n d : 0 <= n -> 0 < d -> rnd_of md (sgnR s (IZR n / IZR d)) = sgn s (rnd_div md s n d).
Proof.
  intros Hn Hd.
  assert (PD : (0 < IZR d)%R) by (apply IZR_lt; lia). assert (NZ : IZR d <> 0%R) by lra.
  pose proof (Z.div_mod n d ltac:(lia)) as DM. pose proof (Z.mod_pos_bound n d Hd) as MB.
  assert (FL : Zfloor (IZR n / IZR d) = n / d) by (apply Zfloor_div; lia).
  assert (X : (IZR n / IZR d - IZR (n / d) = IZR (n mod d) / IZR d)%R). { rewrite DM at 1. rewrite plus_IZR, mult_IZR. field. exact NZ. }
  assert (EX : IZR (n / d) = (IZR n / IZR d)%R <-> n mod d = 0).
  { split; intros H.
    - assert (Q : (IZR (n mod d) / IZR d = 0)%R) by lra. assert (IZR (n mod d) = 0)%R by (apply (Rmult_eq_reg_r (/ IZR d)); [unfold Rdiv in Q; lra|apply Rinv_neq_0_compat; exact NZ]). now apply eq_IZR.
    - rewrite H in X. unfold Rdiv at 2 in X. lra. }
  assert (CE : Zceil (IZR n / IZR d) = if n mod d =? 0 then n / d else n / d + 1).
  { destruct (Z.eqb_spec (n mod d) 0) as [Z0|Z0].
    - apply EX in Z0. rewrite <- Z0. apply Zceil_IZR.
    - rewrite Zceil_floor_neq; [now rewrite FL|]. rewrite FL. intros H. apply Z0, EX, H. }
  assert (CMP : Rcompare (IZR n / IZR d - IZR (n / d)) (/ 2) = (2 * (n mod d) ?= d)).
  { rewrite X. rewrite <- (Rcompare_mult_r (2 * IZR d)) by lra. replace (IZR (n mod d) / IZR d * (2 * IZR d))%R with (IZR (2 * (n mod d))) by (rewrite mult_IZR; field; exact NZ). replace (/ 2 * (2 * IZR d))%R with (IZR d) by field. apply Rcompare_IZR. }
  assert (Q0 : 0 <= n / d) by (apply Z.div_pos; lia).
  assert (P0 : (0 <= IZR n / IZR d)%R) by (apply Rmult_le_pos; [apply IZR_le; lia|left; apply Rinv_0_lt_compat; exact PD]).
  assert (FN : Zfloor (- (IZR n / IZR d)) = - Zceil (IZR n / IZR d)) by (unfold Zceil; lia).
  assert (CN : Zceil (- (IZR n / IZR d)) = - Zfloor (IZR n / IZR d)) by (unfold Zceil; rewrite Ropp_involutive; reflexivity).
  destruct md; cbn [rnd_of].
  - assert (AN : ZnearestE (- (IZR n / IZR d)) = - ZnearestE (IZR n / IZR d)).
    { rewrite Znearest_opp. f_equal. unfold Znearest. clear CMP. destruct (Rcompare _ _); try reflexivity.
      replace (negb (negb (Z.even (- (Zfloor (IZR n / IZR d) + 1))))) with (negb (Z.even (Zfloor (IZR n / IZR d)))); [reflexivity|].
      rewrite Z.even_opp, Z.even_add. change (Z.even 1) with false.  destruct (Z.even (Zfloor (IZR n / IZR d))); reflexivity. }
    cbn [rnd_div]. destruct s; cbn [sgnR sgn]; rewrite ?AN, <- rne_flocq by assumption; reflexivity.
  - assert (T : Ztrunc (IZR n / IZR d) = n / d) by (rewrite Ztrunc_floor by assumption; exact FL).
    destruct s; cbn [sgnR sgn rnd_div]; [rewrite Ztrunc_opp|]; rewrite T; reflexivity.
  - destruct s; cbn [sgnR sgn rnd_div]; [rewrite FN, CE|rewrite FL]; reflexivity.
  - destruct s; cbn [sgnR sgn rnd_div]; [rewrite CN, FL|rewrite CE]; reflexivity.
  - assert (A : ZnearestA (IZR n / IZR d) = if 2 * (n mod d) <? d then n / d else n / d + 1).
    { unfold Znearest. rewrite FL, CMP. replace (0 <=? n / d) with true by (symmetry; apply Z.leb_le; exact Q0). rewrite CE.
      destruct (Z.compare_spec (2 * (n mod d)) d) as [H|H|H]; destruct (Z.ltb_spec (2 * (n mod d)) d); try lia; destruct (Z.eqb_spec (n mod d) 0); lia. }
    assert (AN : ZnearestA (- (IZR n / IZR d)) = - ZnearestA (IZR n / IZR d)).
    { rewrite Znearest_opp. f_equal. unfold Znearest. clear CMP. destruct (Rcompare _ _); try reflexivity.
      replace (negb (0 <=? - (Zfloor (IZR n / IZR d) + 1))) with (0 <=? Zfloor (IZR n / IZR d)); [reflexivity|].
      destruct (Z.leb_spec 0 (Zfloor (IZR n / IZR d))), (Z.leb_spec 0 (- (Zfloor (IZR n / IZR d) + 1))); cbn; reflexivity || lia. }
    destruct s; cbn [sgnR sgn rnd_div]; rewrite ?AN, A; reflexivity.
  - unfold Zrnd_odd. destruct s; cbn [sgnR sgn rnd_div]; rewrite ?FN, ?CN, ?CE, FL.
    + destruct (Req_EM_T (- (IZR n / IZR d)) (IZR (- (if n mod d =? 0 then n / d else n / d + 1)))) as [H|H].
      * destruct (Z.eqb_spec (n mod d) 0) as [Z0|Z0]; [destruct (Z.odd (n / d)); reflexivity|exfalso].
        rewrite opp_IZR, plus_IZR in H. assert ((IZR (n mod d) < IZR d)%R) by (apply IZR_lt; lia).
        assert (IZR (n mod d) / IZR d < 1)%R by (apply (Rmult_lt_reg_r (IZR d)); [exact PD|]; unfold Rdiv; rewrite Rmult_assoc, Rinv_l by exact NZ; lra). lra.
      * destruct (Z.eqb_spec (n mod d) 0) as [Z0|Z0]; [exfalso; apply H; rewrite opp_IZR; apply EX in Z0; lra|].
        rewrite Z.even_opp, <- Z.negb_odd, Z.odd_add. change (Z.odd 1) with true. destruct (Z.odd (n / d)); reflexivity.
    + destruct (Req_EM_T (IZR n / IZR d) (IZR (n / d))) as [H|H].
      * replace (n mod d =? 0) with true by (symmetry; apply Z.eqb_eq, EX; lra). destruct (Z.odd (n / d)); reflexivity.
      * replace (n mod d =? 0) with false by (symmetry; apply Z.eqb_neq; intros K; apply H; symmetry; now apply EX).
        rewrite <- Z.negb_odd. destruct (Z.odd (n / d)); reflexivity.
Qed.

Lemma overflow_shape md E F s : overflow754 md E F s = Inf s \/ overflow754 md E F s = Num s (2 ^ (F + 1) - 1) (bias E - F).
Proof. unfold overflow754. destruct md, s; auto. Qed.
Lemma rnd_div_lower md s n d m : 0 < d -> m * d <= n -> m <= rnd_div md s n d.
Proof. intros Hd H. apply (rnd_div_bounds md s n d m (n / d + 1) Hd). pose proof (Z.div_mod n d ltac:(lia)). pose proof (Z.mod_pos_bound n d Hd). lia. Qed.
Lemma rnd_div_upper md s n d m : 0 < d -> n <= m * d -> rnd_div md s n d <= m.
Proof. intros Hd H. apply (rnd_div_bounds md s n d (n / d) m Hd). pose proof (Z.div_mod n d ltac:(lia)). pose proof (Z.mod_pos_bound n d Hd). lia. Qed.

Section R754.
Context (md : rmode) (E F : Z) (HE : 2 <= E) (HF : 1 <= F).

Lemma rounded754m_round s n d k : 0 < n -> 0 < d -> rounded754m md E F (sgnR s (IZR n / IZR d * bpow radix2 k)) (round754m md E F s n d k).
Proof.
  intros Hn Hd. unfold rounded754m, round754m. cbv zeta.
  assert (PV : (0 < IZR n / IZR d)%R) by (apply Rdiv_lt_0_compat; apply IZR_lt; assumption).
  assert (P : (0 < IZR n / IZR d * bpow radix2 k)%R) by (apply Rmult_lt_0_compat; [exact PV|apply bpow_gt_0]).
  assert (B1 : 1 <= bias E). { unfold bias. assert (2 ^ 1 <= 2 ^ (E - 1)) by (apply pow2_le; lia). lia. }
  remember (Z.max (mag n d + k - F) (1 - bias E - F)) as q eqn:Eq.
  remember (rnd_div md s (num2 n (k - q)) (den2 d (k - q))) as m eqn:Em.
  assert (X : round radix2 (FLT_exp (1 - bias E - F) (F + 1)) (rnd_of md) (sgnR s (IZR n / IZR d * bpow radix2 k)) = sgnR s (IZR m * bpow radix2 q)).
  { unfold round, scaled_mantissa, F2R. cbn [Fnum Fexp].
    replace (cexp radix2 (FLT_exp (1 - bias E - F) (F + 1)) (sgnR s (IZR n / IZR d * bpow radix2 k))) with q.
    2: { transitivity (cexp radix2 (FLT_exp (1 - bias E - F) (F + 1)) (IZR n / IZR d * bpow radix2 k)); [|destruct s; cbn [sgnR]; [symmetry; apply cexp_opp|reflexivity]].
      unfold cexp. rewrite mag_mult_bpow by lra. rewrite mag_flocq by assumption. unfold FLT_exp. rewrite Eq. f_equal. lia. }
    replace (sgnR s (IZR n / IZR d * bpow radix2 k) * bpow radix2 (- q))%R with (sgnR s (IZR (num2 n (k - q)) / IZR (den2 d (k - q)))).
    2: { rewrite num_den by lia. unfold Z.sub. rewrite bpow_plus. destruct s; cbn [sgnR]; ring. }
    rewrite rnd_of_div; [|pose proof (num2_pos n (k - q) Hn); lia|apply den2_pos; lia]. rewrite <- Em.
    destruct s; cbn [sgnR sgn]; [rewrite opp_IZR; ring|reflexivity]. }
  rewrite X.
  destruct (mag_spec n d Hn Hd) as [M1 M2].
  assert (MM : 0 <= m <= 2 ^ (F + 1)).
  { subst m. split.
    - apply rnd_div_lower; [apply den2_pos; lia|]. pose proof (num2_pos n (k - q) Hn). lia.
    - apply rnd_div_upper; [apply den2_pos; lia|].
      pose proof (num_den n d (k - q) Hd) as N1. pose proof (den2_pos d (k - q) Hd) as D1.
      apply le_IZR. rewrite mult_IZR. apply (Rmult_le_reg_r (/ IZR (den2 d (k - q)))); [apply Rinv_0_lt_compat, IZR_lt, D1|].
      fold (IZR (num2 n (k - q)) / IZR (den2 d (k - q)))%R. rewrite N1.
      rewrite Rmult_assoc, Rinv_r, Rmult_1_r by (apply IZR_neq; lia). rewrite pow_bpow by lia.
      pose proof (bpow_mag_gt radix2 (IZR n / IZR d)) as G. rewrite Rabs_pos_eq in G by lra. rewrite mag_flocq in G by assumption.
      apply Rle_trans with (bpow radix2 (mag n d + 1) * bpow radix2 (k - q))%R.
      + apply Rmult_le_compat_r; [apply bpow_ge_0|lra].
      + rewrite <- bpow_plus. apply bpow_le. lia. }
  assert (ML : 1 - bias E - F < q -> 2 ^ F <= m).
  { intros Q. subst m. apply rnd_div_lower; [apply den2_pos; lia|].
    pose proof (num_den n d (k - q) Hd) as N1. pose proof (den2_pos d (k - q) Hd) as D1.
    apply le_IZR. rewrite mult_IZR. apply (Rmult_le_reg_r (/ IZR (den2 d (k - q)))); [apply Rinv_0_lt_compat, IZR_lt, D1|].
    fold (IZR (num2 n (k - q)) / IZR (den2 d (k - q)))%R. rewrite N1.
    rewrite Rmult_assoc, Rinv_r, Rmult_1_r by (apply IZR_neq; lia). rewrite pow_bpow by lia.
    pose proof (bpow_mag_le radix2 (IZR n / IZR d) ltac:(lra)) as G. rewrite Rabs_pos_eq in G by lra. rewrite mag_flocq in G by assumption.
    apply Rle_trans with (bpow radix2 (mag n d + 1 - 1) * bpow radix2 (k - q))%R.
    + rewrite <- bpow_plus. apply bpow_le. lia.
    + apply Rmult_le_compat_r; [apply bpow_ge_0|lra]. }
  clear X M1 M2 Em Eq.
  assert (XA : Rabs (sgnR s (IZR m * bpow radix2 q)) = (IZR m * bpow radix2 q)%R).
  { assert (0 <= IZR m * bpow radix2 q)%R by (apply Rmult_le_pos; [apply IZR_le; lia|apply bpow_ge_0]).
    destruct s; cbn [sgnR]; rewrite ?Rabs_Ropp; apply Rabs_pos_eq; assumption. }
  destruct (Z.eqb_spec m 0) as [M0|M0].
  { split; [intros _; apply sgn_neg; exact P|]. rewrite M0 in *. rewrite Rmult_0_l in *. split; [intros H; rewrite XA in H; exfalso; pose proof (bpow_gt_0 radix2 (bias E + 1)); lra|].
    intros _. split; [exact I|]. cbn [rv]. destruct s; cbn [sgnR]; ring. }
  assert (PM : (0 < IZR m * bpow radix2 q)%R) by (apply Rmult_lt_0_compat; [apply IZR_lt; lia|apply bpow_gt_0]).
  remember (if m =? 2 ^ (F + 1) then 2 ^ F else m) as m' eqn:Em'. remember (if m =? 2 ^ (F + 1) then q + 1 else q) as q' eqn:Eq'.
  assert (SAME : (IZR m' * bpow radix2 q' = IZR m * bpow radix2 q)%R).
  { subst m' q'. destruct (Z.eqb_spec m (2 ^ (F + 1))) as [->|]; [|reflexivity]. rewrite !pow_bpow by lia. rewrite <- !bpow_plus. f_equal. lia. }
  pose proof (pow2_pos F ltac:(lia)) as PF. rewrite pow2_S in MM by lia.
  assert (M' : 0 < m' < 2 ^ (F + 1) /\ (1 - bias E - F < q' -> 2 ^ F <= m')).
  { subst m' q'. rewrite pow2_S by lia. destruct (Z.eqb_spec m (2 * 2 ^ F)) as [->|]; [lia|]. split; [lia|exact ML]. }
  destruct M' as [[M'0 M'1] M'2].
  rewrite <- SAME in PM. assert (RV : rv (Num s m' q') = sgnR s (IZR m * bpow radix2 q)) by (rewrite rv_sgn, SAME; reflexivity).
  destruct (Z.ltb_spec (bias E) (q' + F)) as [O|O].
  - assert (TOP : (bpow radix2 (bias E + 1) <= IZR m' * bpow radix2 q')%R).
    { apply Rle_trans with (bpow radix2 F * bpow radix2 q')%R.
      + rewrite <- bpow_plus. apply bpow_le. lia.
      + apply Rmult_le_compat_r; [apply bpow_ge_0|]. rewrite <- pow_bpow by lia. apply IZR_le. apply M'2. lia. }
    rewrite XA, <- SAME. destruct (overflow_shape md E F s) as [V|V]; rewrite V; cbn [is_value vsign].
    + split; [intros _; apply sgn_neg; exact P|]. split; [intros _; symmetry; exact V|intros; lra].
    + split; [intros _; apply sgn_neg; exact P|]. split; [intros _; symmetry; exact V|intros; lra].
  - assert (LOW : (IZR m' * bpow radix2 q' < bpow radix2 (bias E + 1))%R).
    { apply Rlt_le_trans with (bpow radix2 (F + 1) * bpow radix2 q')%R.
      + apply Rmult_lt_compat_r; [apply bpow_gt_0|]. rewrite <- pow_bpow by lia. apply IZR_lt. exact M'1.
      + rewrite <- bpow_plus. apply bpow_le. lia. }
    split; [intros _; apply sgn_neg; exact P|]. rewrite XA, <- SAME. split; [intros; lra|]. intros _. split; [exact I|]. rewrite RV, SAME. reflexivity.
Qed.

Lemma rounded754m_eq x y v : x = y -> rounded754m md E F x v -> rounded754m md E F y v.
Proof. intros ->. auto. Qed.
Lemma rounded754m_zero t x : x = 0%R -> rounded754m md E F x (Zero t).
Proof.
  intros ->. unfold rounded754m. cbv zeta. rewrite round_0 by apply rnd_of_valid. cbn [is_value vsign rv].
  split; [intros H; exfalso; apply H; reflexivity|]. rewrite Rabs_R0. pose proof (bpow_gt_0 radix2 (bias E + 1)). split; [intros; exfalso; lra|].
  intros _. split; [exact I|reflexivity].
Qed.

Lemma mul754m_real x y : number x -> number y -> rounded754m md E F (rv x * rv y) (mul754m md E F x y).
Proof.
  intros Hx Hy. unfold mul754m. destruct x as [| |s|s m e]; try contradiction; destruct y as [| |t|t n f]; try contradiction; try (apply rounded754m_zero; cbn [rv]; ring).
  cbn [number] in *. cbn [mul_gen]. eapply rounded754m_eq; [|apply rounded754m_round; nia]. rewrite !rv_sgn. rewrite mult_IZR, bpow_plus. destruct s, t; cbn [xorb sgnR]; field.
Qed.
Lemma div754m_real x y : number x -> number y -> rv y <> 0%R -> rounded754m md E F (rv x / rv y) (div754m md E F x y).
Proof.
  intros Hx Hy N. unfold div754m. destruct y as [| |t|t n f]; try contradiction. destruct x as [| |s|s m e]; try contradiction. { apply rounded754m_zero. cbn [rv]. unfold Rdiv. ring. }
  cbn [number] in *. cbn [div_gen]. eapply rounded754m_eq; [|apply rounded754m_round; lia]. rewrite !rv_sgn. unfold Z.sub. rewrite bpow_plus, bpow_opp. assert (IZR n <> 0)%R by (apply IZR_neq; lia). pose proof (bpow_gt_0 radix2 f). destruct s, t; cbn [xorb sgnR]; field; split; lra.
Qed.
Lemma one754m_real s m e : 0 < m -> rounded754m md E F (rv (Num s m e)) (round754m md E F s m 1 e).
Proof. intros Hm. eapply rounded754m_eq; [|apply rounded754m_round; lia]. rewrite rv_sgn. destruct s; cbn [sgnR]; field. Qed.
Lemma add754m_real x y : number x -> number y -> rounded754m md E F (rv x + rv y) (add754m md E F x y).
Proof.
  intros Hx Hy. unfold add754m. destruct x as [| |s|s m e]; try contradiction; destruct y as [| |t|t n f]; try contradiction.
  - unfold zero_sum. destruct (Bool.eqb s t); apply rounded754m_zero; cbn [rv]; ring.
  - apply (rounded754m_eq (rv (Num t n f))); [cbn [rv]; destruct t; ring|]. apply one754m_real. exact Hy.
  - apply (rounded754m_eq (rv (Num s m e))); [cbn [rv]; destruct s; ring|]. apply one754m_real. exact Hx.
  - cbn [add_gen]. cbv zeta. remember (Z.min e f) as k. rewrite (sgn_real s m e k), (sgn_real t n f k) by lia. rewrite <- Rmult_plus_distr_r, <- plus_IZR. remember (sgn s (m * 2 ^ (e - k)) + sgn t (n * 2 ^ (f - k))) as v.
    destruct (v =? 0) eqn:Q. { apply Z.eqb_eq in Q. rewrite Q. apply rounded754m_zero. ring. }
    apply Z.eqb_neq in Q. eapply rounded754m_eq; [|apply rounded754m_round; lia]. destruct (v <? 0) eqn:S; cbn [sgnR].
    + rewrite Z.abs_neq by lia. rewrite opp_IZR. field.
    + rewrite Z.abs_eq by lia. field.
Qed.

End R754.
