From Coq Require Import ZArith List Bool Lia Reals Lra.
From Flocq Require Import Core Relative.
From Verif Require Import Fw FwLemmas Spec SpecLemmas ValueLemmas Flopoco FlopocoLemmas AddSingle AddSingleProofs3 AddSingleProofs4 CompareProofs AddDual AddDualProofs Mul MulProofs SpecFlocq SpecReal RealProofs SpecApp App AppProofs AppProofs2 AppProofs3.
Import ListNotations.
Open Scope Z_scope.

(** ** Values up to scaling have the same real value *)
Lemma veq_rv x y : veq x y -> rv x = rv y.
Proof.
  destruct x as [|s|s|s m e], y as [|t|t|t n f]; cbn [veq rv]; try contradiction; try reflexivity. intros [<- H].
  unfold cmp_num in H. apply Z.compare_eq in H. remember (Z.min e f) as k.
  assert (B : forall z, k <= z -> bpow radix2 z = (IZR (2 ^ (z - k)) * bpow radix2 k)%R).
  { intros z Hz. change 2 with (radix_val radix2). rewrite IZR_Zpower by lia. rewrite <- bpow_plus. f_equal. lia. }
  assert (E : (IZR m * bpow radix2 e = IZR n * bpow radix2 f)%R).
  { rewrite (B e) by lia. rewrite (B f) by lia. rewrite <- !Rmult_assoc, <- !mult_IZR. rewrite H. reflexivity. }
  rewrite E. reflexivity.
Qed.
Lemma veq_fin x y : veq x y -> (finite_v x <-> finite_v y).
Proof. destruct x, y; cbn; tauto. Qed.

(** ** The error of the single-path adder *)
Lemma cmp_num_R m e n f : cmp_num m e n f = Rcompare (IZR m * bpow radix2 e) (IZR n * bpow radix2 f).
Proof.
  unfold cmp_num. remember (Z.min e f) as k.
  assert (B : forall z, k <= z -> bpow radix2 z = (IZR (2 ^ (z - k)) * bpow radix2 k)%R).
  { intros z Hz. change 2 with (radix_val radix2). rewrite IZR_Zpower by lia. rewrite <- bpow_plus. f_equal. lia. }
  rewrite (B e) by lia. rewrite (B f) by lia. rewrite <- !Rmult_assoc, <- !mult_IZR. rewrite Rcompare_mult_r by apply bpow_gt_0. symmetry. apply Rcompare_IZR.
Qed.

Lemma absorbed_rv F x y : 0 <= F -> absorbed F x y -> (Rabs (rv y) <= bpow radix2 (- (F + 1)) * Rabs (rv x))%R /\ finite_v x /\ finite_v y.
Proof.
  intros HF (s & m & e & n & f & p & -> & -> & H1 & H3 & H2). split; [|split; exact I].
  assert (A : forall t a b, (0 <= IZR a * bpow radix2 b)%R -> Rabs (rv (Num t a b)) = (IZR a * bpow radix2 b)%R).
  { intros t a b Ha. cbn [rv]. destruct t; [rewrite Rabs_Ropp|]; apply Rabs_pos_eq; assumption. }
  rewrite cmp_num_R, Rmult_1_l in H1, H2, H3. apply Rcompare_Eq_inv in H1. apply Rcompare_Lt_inv in H2. apply Rcompare_Gt_inv in H3.
  pose proof (bpow_gt_0 radix2 p) as P1. pose proof (bpow_gt_0 radix2 (p - F - 2)) as P2. rewrite !A by lra. rewrite H1. rewrite <- bpow_plus. replace (- (F + 1) + p) with (p - F - 1) by lia. lra.
Qed.

Lemma rounded_fin lo hi F x v : 0 <= F -> rounded lo hi F x v -> ((1 + bpow radix2 (- (F + 1))) * Rabs x < bpow radix2 (hi + 1))%R -> finite_v v.
Proof.
  intros HF R H. destruct v as [|t|t|t m e]; cbn; try exact I; cbn in R; [contradiction|]. destruct R as [_ R].
  pose proof (relative_error_N_FLX radix2 (F + 1) ltac:(unfold Prec_gt_0; lia) (fun z => negb (Z.even z)) x) as Q.
  replace (/ 2 * bpow radix2 (- (F + 1) + 1))%R with (bpow radix2 (- (F + 1))) in Q by (replace (- (F + 1) + 1) with (1 + - (F + 1)) by lia; rewrite (bpow_plus radix2 1); change (bpow radix2 1) with 2%R; field).
  pose proof (Rabs_triang_inv (round radix2 (FLX_exp (F + 1)) ZnearestE x) x) as Q2. lra.
Qed.

Lemma swallowed_err F x y : 0 <= F -> absorbed F x y -> (Rabs (rv x - (rv x + rv y)) <= bpow radix2 (- F) * Rabs (rv x + rv y))%R.
Proof.
  intros HF H. destruct (absorbed_rv F x y HF H) as [A _]. replace (rv x - (rv x + rv y))%R with (- rv y)%R by ring. rewrite Rabs_Ropp.
  replace (- F) with (1 + - (F + 1)) by lia. rewrite (bpow_plus radix2 1). change (bpow radix2 1) with 2%R.
  assert (U : (0 <= bpow radix2 (- (F + 1)) <= / 2)%R). { split; [apply bpow_ge_0|]. change (/ 2)%R with (bpow radix2 (-1)). apply bpow_le. lia. }
  remember (bpow radix2 (- (F + 1))) as u. pose proof (Rabs_triang_inv (rv x) (- rv y)) as T. rewrite Rabs_Ropp in T. replace (rv x - - rv y)%R with (rv x + rv y)%R in T by ring.
  remember (Rabs (rv x)) as X. remember (Rabs (rv y)) as Y. assert (0 <= X)%R by (subst; apply Rabs_pos). assert (0 <= Y)%R by (subst; apply Rabs_pos).
  assert (B1 : (2 * u * (X - Y) <= 2 * u * Rabs (rv x + rv y))%R) by (apply Rmult_le_compat_l; lra).
  assert (B2 : (2 * u * Y <= 1 * Y)%R) by (apply Rmult_le_compat_r; lra). lra.
Qed.

Theorem single_err E F x y : add_ok_width E F -> wf (E + F + 3) x -> wf (E + F + 3) y ->
  exists r, add_single E F E F E F x y = Some r /\ wf (E + F + 3) r /\
  let s := (rv (decode E F x) + rv (decode E F y))%R in
  (finite_v (decode E F r) -> finite_v (decode E F x) /\ finite_v (decode E F y) /\
     (Rabs (rv (decode E F r) - s) <= bpow radix2 (- F) * Rabs s + bpow radix2 (emin E))%R) /\
  (finite_v (decode E F x) -> finite_v (decode E F y) -> ((1 + bpow radix2 (- F)) * Rabs s < bpow radix2 (emax E + 1))%R -> finite_v (decode E F r)).
Proof.
  intros W Hx Hy. pose proof W as (HE & HF & _). destruct (add_single_cases E F x y W Hx Hy) as (r & R1 & R2 & R3). exists r. split; [exact R1|]. split; [exact R2|]. cbv zeta in *.
  pose proof (bpow_ge_0 radix2 (emin E)) as Pe.
  assert (Pu : (bpow radix2 (- (F + 1)) <= bpow radix2 (- F))%R) by (apply bpow_le; lia).
  destruct R3 as [[_ R3]|[(_ & Ab & R3)|(_ & Ab & R3)]]; rewrite R3.
  - assert (Rd : finite_v (decode E F x) -> finite_v (decode E F y) -> rounded (emin E) (emax E) F (rv (decode E F x) + rv (decode E F y)) (add_spec E F (decode E F x) (decode E F y))).
    { intros F1 F2. apply add_real; [lia|apply em; lia|apply decode_number; assumption|apply decode_number; assumption]. }
    pose proof (Rabs_pos (rv (decode E F x) + rv (decode E F y))) as PS. split.
    + intros Fr. destruct (add_finite _ _ _ _ Fr) as [F1 F2]. split; [exact F1|]. split; [exact F2|]. pose proof (rounded_err _ _ F _ _ ltac:(lia) (Rd F1 F2) Fr) as Q.
      eapply Rle_trans; [exact Q|]. apply Rplus_le_compat_r. apply Rmult_le_compat_r; assumption.
    + intros F1 F2 H. apply (rounded_fin _ _ F _ _ ltac:(lia) (Rd F1 F2)). eapply Rle_lt_trans; [|exact H]. apply Rmult_le_compat_r; [exact PS|lra].
  - destruct (absorbed_rv F _ _ ltac:(lia) Ab) as (_ & F1 & F2). split; [|intros; exact F1]. intros _. split; [exact F1|]. split; [exact F2|].
    pose proof (swallowed_err F _ _ ltac:(lia) Ab). lra.
  - destruct (absorbed_rv F _ _ ltac:(lia) Ab) as (_ & F1 & F2). split; [|intros; exact F1]. intros _. split; [exact F2|]. split; [exact F1|].
    rewrite (Rplus_comm (rv (decode E F x))). pose proof (swallowed_err F _ _ ltac:(lia) Ab). lra.
Qed.

Lemma promote_same E F x : 1 <= E -> 1 <= F -> wf (E + F + 3) x -> promote E F E F x = Some x.
Proof.
  intros HE HF Hx. destruct (pack_view E F x HE HF Hx) as (a & s & e & f & Ha & ->). destruct (promote_pack E F E F a s e f ltac:(lia) ltac:(lia) Ha) as [P _]. cbv zeta in P.
  replace (e + (bias E - bias E)) with e in P by lia. replace (f * 2 ^ (F - F)) with f in P by (rewrite Z.sub_diag; cbn; lia). exact P.
Qed.

Lemma single_narrow E F TF x y : 1 <= E -> 1 <= TF <= F -> wf (E + F + 3) x -> wf (E + TF + 3) y ->
  exists y', wf (E + F + 3) y' /\ veq (decode E F y') (decode E TF y) /\ add_single E F E F E TF x y = add_single E F E F E F x y'.
Proof.
  intros HE HF Hx Hy. destruct (promote_correct E F E TF y ltac:(lia) HF Hy) as (y' & P1 & P2 & P3). exists y'. split; [exact P2|]. split; [exact P3|].
  assert (EC : forall p q, ctMax p q = Z.max p q) by (intros; unfold ctMax; destruct (Z.ltb_spec q p); lia).
  unfold add_single. rewrite !EC, !Z.max_id. rewrite (Z.max_l F TF) by lia. rewrite P1, (promote_same E F x), (promote_same E F y') by (assumption || lia). reflexivity.
Qed.

(** ** Accumulation with a relative and an absolute error at each step *)
Section Loop.
Context {A : Type} (step : Z -> A -> option Z) (ok : Z -> Prop) (okA : A -> Prop) (fin : Z -> Prop) (val : Z -> R) (term : A -> R).
Context (d d' c : R).
Lemma gen_loop : (0 <= d)%R -> (0 <= d')%R -> (0 <= c)%R ->
  (forall acc x, ok acc -> okA x -> exists r, step acc x = Some r /\ ok r /\
     (fin r -> fin acc /\ (Rabs (val r - (val acc + term x)) <= d * Rabs (val acc) + ((1 + d) * (1 + d') - 1) * Rabs (term x) + c)%R)) ->
  forall l, Forall okA l -> forall acc, ok acc -> val acc = 0%R ->
  exists r, loop step acc l = Some r /\ ok r /\ (fin r -> fin acc /\
    (Rabs (val r - Rsum (map term l)) <= ((1 + d) ^ length l * (1 + d') - 1) * Rabssum (map term l) + INR (length l) * (1 + d) ^ length l * c)%R).
Proof.
  intros Hd Hd' Hc Hs l Hl acc Ha Hv.
  enough (G : forall l, Forall okA l -> forall acc S E, ok acc -> 
    exists r, loop step acc l = Some r /\ ok r /\ (fin r -> fin acc /\ ((Rabs (val acc - S) <= E)%R ->
      (Rabs (val r - (S + Rsum (map term l))) <= (1 + d) ^ length l * E + ((1 + d) ^ length l - 1) * Rabs S + ((1 + d) ^ length l * (1 + d') - 1) * Rabssum (map term l) + INR (length l) * (1 + d) ^ length l * c)%R))).
  { destruct (G l Hl acc 0%R 0%R Ha) as (r & R1 & R2 & R3). exists r. split; [exact R1|]. split; [exact R2|]. intros Fr. destruct (R3 Fr) as [R4 R5]. split; [exact R4|].
    rewrite Hv, Rminus_0_r, Rabs_R0 in R5. specialize (R5 (Rle_refl 0)). rewrite Rplus_0_l in R5. lra. }
  clear l Hl acc Ha Hv. induction 1 as [|x l Hx _ IH]; intros acc S E Ha.
  - exists acc. split; [reflexivity|]. split; [exact Ha|]. intros Fa. split; [exact Fa|]. intros HE. cbn. rewrite Rplus_0_r. pose proof (Rabs_pos S). unfold Rabssum; cbn. lra.
  - destruct (Hs acc x Ha Hx) as (a1 & S1 & S2 & S3). cbn [loop]. rewrite S1. cbn [bind].
    destruct (IH a1 (S + term x)%R ((1 + d) * E + d * Rabs S + ((1 + d) * (1 + d') - 1) * Rabs (term x) + c)%R S2) as (r & R1 & R2 & R3).
    exists r. split; [exact R1|]. split; [exact R2|]. intros Fr. destruct (R3 Fr) as [F1 R4]. destruct (S3 F1) as [F0 S4]. split; [exact F0|]. intros HE.
    assert (EA : (Rabs (val acc) <= Rabs S + E)%R) by (replace (val acc) with (S + (val acc - S))%R by ring; eapply Rle_trans; [apply Rabs_triang|lra]).
    assert (B : (Rabs (val a1 - (S + term x)) <= (1 + d) * E + d * Rabs S + ((1 + d) * (1 + d') - 1) * Rabs (term x) + c)%R).
    { replace (val a1 - (S + term x))%R with ((val a1 - (val acc + term x)) + (val acc - S))%R by ring. eapply Rle_trans; [apply Rabs_triang|].
      assert (d * Rabs (val acc) <= d * (Rabs S + E))%R by (apply Rmult_le_compat_l; lra). lra. }
    specialize (R4 B). cbn [map]. unfold Rabssum, Rsum in *. cbn [map fold_right length] in *. rewrite S_INR. cbn [pow].
    replace (S + (term x + fold_right Rplus 0 (map term l)))%R with (S + term x + fold_right Rplus 0 (map term l))%R by ring.
    eapply Rle_trans; [exact R4|]. clear - Hd Hd' Hc HE. remember ((1 + d) ^ length l)%R as w. assert (1 <= w)%R by (subst w; apply pow_R1_Rle; lra).
    pose proof (Rabs_triang S (term x)) as TT. pose proof (Rabs_pos (term x)) as PX. pose proof (Rabs_pos S) as PS. pose proof (pos_INR (length l)) as PN.
    assert (E0 : (0 <= E)%R) by (eapply Rle_trans; [apply Rabs_pos|exact HE]).
    pose proof (Rabssum_pos (map term l)) as PA. unfold Rabssum, Rsum in PA. remember (fold_right Rplus 0%R (map Rabs (map term l))) as Am. remember (Rabs (term x)) as t. remember (Rabs S) as s. remember (INR (length l)) as k. remember (Rabs (S + term x)) as st.
    assert (B1 : ((w - 1) * st <= (w - 1) * (s + t))%R) by (apply Rmult_le_compat_l; lra).
    assert (B2 : (0 <= w * d * (1 + d') * Am)%R) by (repeat apply Rmult_le_pos; lra).
    assert (B3 : (0 <= k * w * c * d)%R) by (repeat apply Rmult_le_pos; lra).
    assert (B4 : (0 <= w * d * c)%R) by (repeat apply Rmult_le_pos; lra).
    replace (w * ((1 + d) * E + d * s + ((1 + d) * (1 + d') - 1) * t + c))%R with ((1 + d) * w * E + w * d * s + ((1 + d) * w * (1 + d') - w) * t + w * c)%R by ring.
    replace ((k + 1) * ((1 + d) * w) * c)%R with (k * w * c + k * w * c * d + w * c + w * d * c)%R by ring.
    replace (((1 + d) * w * (1 + d') - 1) * (t + Am))%R with (((1 + d) * w * (1 + d') - 1) * t + (w * (1 + d') - 1) * Am + w * d * (1 + d') * Am)%R by ring.
    lra.
Qed.
End Loop.
