From Coq Require Import ZArith List Bool Lia Reals Lra.
From Flocq Require Import Core Relative.
From Verif Require Import Fw FwLemmas Spec SpecLemmas ValueLemmas Flopoco AddDual AddDualProofs AddDualProofs5 AddDualProofs6 Mul MulProofs Ieee IeeeProofs IeeeProofs2 SpecFlocq SpecReal RealProofs SpecApp App.
Import ListNotations.
Open Scope Z_scope.

Lemma dual_pos E F : dual_ok_width E F -> 3 < E /\ 1 <= F.
Proof. unfold dual_ok_width. intuition. Qed.

Lemma fl_add_ok E F a b : dual_ok_width E F -> wf (E + F + 3) a -> wf (E + F + 3) b ->
  exists r, fl_add E F a b = Some r /\ wf (E + F + 3) r /\ decode E F r = add_spec E F (decode E F a) (decode E F b).
Proof.
  intros W Ha Hb. destruct (dual_pos E F W) as [HE HF]. pose proof (add_dual_ok E F E F a b) as H. cbv zeta in H. rewrite !Z.max_id in H.
  unfold dual_ok_width in W. apply H; try lia; assumption.
Qed.

(** ** The loop of additions *)
Lemma loop_add E F ps : dual_ok_width E F -> Forall (wf (E + F + 3)) ps -> forall acc, wf (E + F + 3) acc ->
  exists r, loop (fl_add E F) acc ps = Some r /\ wf (E + F + 3) r /\
    decode E F r = fold_left (add_spec E F) (map (decode E F) ps) (decode E F acc).
Proof.
  intros W Hps. induction Hps as [|p ps Hp _ IH]; intros acc Ha.
  - exists acc. split; [reflexivity|]. split; [exact Ha|]. reflexivity.
  - destruct (fl_add_ok E F acc p W Ha Hp) as (a & A1 & A2 & A3). destruct (IH a A2) as (r & R1 & R2 & R3).
    exists r. cbn [loop]. rewrite A1. split; [exact R1|]. split; [exact R2|]. cbn [map fold_left]. rewrite <- A3. exact R3.
Qed.

Lemma add_finite E F x y : finite_v (add_spec E F x y) -> finite_v x /\ finite_v y.
Proof. unfold add_spec, add_gen. destruct x as [|s|s|s m e], y as [|t|t|t n f]; cbn; try tauto. destruct (Bool.eqb s t); cbn; tauto. Qed.

Lemma fold_finite E F l : forall a, finite_v (fold_left (add_spec E F) l a) -> finite_v a /\ Forall finite_v l.
Proof.
  induction l as [|x l IH]; intros a H; [split; [exact H|constructor]|]. cbn [fold_left] in H. destruct (IH _ H) as [H1 H2].
  destruct (add_finite E F a x H1) as [H3 H4]. split; [exact H3|]. constructor; assumption.
Qed.

(** One rounding, with flush to zero. *)
Lemma rounded_err lo hi F x v : 0 <= F -> rounded lo hi F x v -> finite_v v ->
  (Rabs (rv v - x) <= bpow radix2 (- (F + 1)) * Rabs x + bpow radix2 lo)%R.
Proof.
  intros HF H Hv. pose proof (bpow_ge_0 radix2 lo) as P. destruct v as [|t|t|t m e]; try contradiction.
  - cbn in H. destruct H as [_ H]. cbn [rv]. rewrite Rminus_0_l, Rabs_Ropp.
    assert (R : (Rabs (round radix2 (FLX_exp (F + 1)) ZnearestE x - x) <= bpow radix2 (- (F + 1)) * Rabs x)%R).
    { pose proof (relative_error_N_FLX radix2 (F + 1) ltac:(unfold Prec_gt_0; lia) (fun z => negb (Z.even z)) x) as Q. eapply Rle_trans; [exact Q|].
      apply Rmult_le_compat_r; [apply Rabs_pos|]. replace (- (F + 1) + 1) with (1 + - (F + 1)) by lia. rewrite (bpow_plus radix2 1). change (bpow radix2 1) with 2%R. apply Req_le. field. }
    pose proof (Rabs_triang_inv x (round radix2 (FLX_exp (F + 1)) ZnearestE x)) as T. rewrite Rabs_minus_sym in T. lra.
  - pose proof (rounded_error lo hi F x t m e HF H). lra.
Qed.

Lemma Rabssum_pos l : (0 <= Rabssum l)%R.
Proof. unfold Rabssum. induction l as [|x l IH]; cbn; [lra|]. pose proof (Rabs_pos x). unfold Rsum in *. lra. Qed.

(** The error of a loop of additions that starts within e of S. *)
Lemma fold_err E F ps : dual_ok_width E F -> Forall (wf (E + F + 3)) ps -> forall acc S e, wf (E + F + 3) acc ->
  finite_v (fold_left (add_spec E F) (map (decode E F) ps) (decode E F acc)) ->
  let u := bpow radix2 (- (F + 1)) in let n := length ps in let xs := map (fun p => rv (decode E F p)) ps in
  (Rabs (rv (decode E F acc) - S) <= e)%R ->
  (Rabs (rv (fold_left (add_spec E F) (map (decode E F) ps) (decode E F acc)) - (S + Rsum xs)) <=
    (1 + u) ^ n * e + ((1 + u) ^ n - 1) * (Rabs S + Rabssum xs) + INR n * (1 + u) ^ n * bpow radix2 (emin E))%R.
Proof.
  intros W Hps. destruct (dual_pos E F W) as [HE HF]. induction Hps as [|p ps Hp Hps IH]; intros acc S e Ha Hf u n xs He.
  - cbn in *. unfold Rabssum. cbn. rewrite Rplus_0_r. lra.
  - cbn [map fold_left length] in *. destruct (fl_add_ok E F acc p W Ha Hp) as (a & A1 & A2 & A3). rewrite <- A3 in Hf |- *.
    pose proof (fold_finite E F _ _ Hf) as [Fa _]. pose proof Fa as Fa'. rewrite A3 in Fa'. destruct (add_finite E F _ _ Fa') as [F1 F2].
    assert (R : rounded (emin E) (emax E) F (rv (decode E F acc) + rv (decode E F p)) (decode E F a)).
    { rewrite A3. apply add_real; [lia| |apply decode_number; try lia; assumption|apply decode_number; try lia; assumption]. apply (em E). lia. }
    pose proof (rounded_err (emin E) (emax E) F _ _ ltac:(lia) R Fa) as D.
    specialize (IH a (S + rv (decode E F p))%R ((1 + u) * e + u * (Rabs S + Rabs (rv (decode E F p))) + bpow radix2 (emin E))%R A2 Hf). cbv zeta in IH.
    remember (rv (decode E F p)) as x eqn:Ex. remember (rv (decode E F acc)) as c eqn:Ec. remember (rv (decode E F a)) as c' eqn:Ec'.
    remember (bpow radix2 (emin E)) as eta eqn:Ee. assert (Pe : (0 <= eta)%R) by (subst eta; apply bpow_ge_0).
    assert (Pu : (0 <= u)%R) by (unfold u; apply bpow_ge_0). fold u in D, IH.
    assert (T1 : (Rabs (c + x) <= Rabs S + Rabs x + e)%R).
    { replace (c + x)%R with ((c - S) + (S + x))%R by ring. eapply Rle_trans; [apply Rabs_triang|]. pose proof (Rabs_triang S x). lra. }
    assert (T2 : (Rabs (c' - (S + x)) <= (1 + u) * e + u * (Rabs S + Rabs x) + eta)%R).
    { replace (c' - (S + x))%R with ((c' - (c + x)) + (c - S))%R by ring. eapply Rle_trans; [apply Rabs_triang|].
      pose proof (Rmult_le_compat_l u _ _ Pu T1). lra. }
    specialize (IH T2). unfold xs. cbn [Rsum fold_right map]. fold (Rsum (map (fun p => rv (decode E F p)) ps)).
    try rewrite <- Ex. replace (S + (x + Rsum (map (fun p => rv (decode E F p)) ps)))%R with (S + x + Rsum (map (fun p => rv (decode E F p)) ps))%R by ring.
    eapply Rle_trans; [exact IH|]. unfold n. unfold Rabssum in *. cbn [map Rsum fold_right]. fold (Rsum (map Rabs (map (fun p => rv (decode E F p)) ps))).
    try rewrite <- Ex. rewrite S_INR. cbn [pow]. remember (length ps) as k. remember (Rsum (map Rabs (map (fun p => rv (decode E F p)) ps))) as A eqn:EA.
    assert (PA : (0 <= A)%R) by (subst A; apply Rabssum_pos). assert (PW : (1 <= (1 + u) ^ k)%R) by (apply pow_R1_Rle; lra).
    remember ((1 + u) ^ k)%R as w. pose proof (Rabs_triang S x) as T3. pose proof (Rabs_pos S). pose proof (Rabs_pos x). pose proof (pos_INR k) as PK.
    assert (Q1 : ((w - 1) * (Rabs (S + x) + A) <= (w - 1) * (Rabs S + Rabs x + A))%R) by (apply Rmult_le_compat_l; lra).
    assert (Q2 : (0 <= u * w * A)%R) by (apply Rmult_le_pos; [apply Rmult_le_pos; lra|lra]).
    assert (Q3 : (0 <= (INR k + 1) * (u * w * eta))%R) by (apply Rmult_le_pos; [lra|]; apply Rmult_le_pos; [apply Rmult_le_pos; lra|lra]).
    nra.
Qed.
