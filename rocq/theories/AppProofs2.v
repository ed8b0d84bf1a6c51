From Coq Require Import ZArith List Bool Lia Reals Lra.
From Flocq Require Import Core Relative.
From Verif Require Import Fw FwLemmas Spec SpecLemmas ValueLemmas Flopoco FlopocoLemmas AddDual AddDualProofs Mul MulProofs Ieee IeeeProofs IeeeProofs2 SpecFlocq SpecReal RealProofs SpecApp App AppProofs.
Import ListNotations.
Open Scope Z_scope.

Lemma decode_zero E F : 1 <= E -> 1 <= F -> decode E F 0 = Zero false.
Proof. intros HE HF. unfold decode. rewrite !Z.div_0_l by (apply Z.pow_nonzero; lia). reflexivity. Qed.

Lemma zero_add E F p : 1 <= E -> 1 <= F -> wf (E + F + 3) p -> rv (add_spec E F (Zero false) (decode E F p)) = rv (decode E F p).
Proof.
  intros HE HF Hp. pose proof (decode_convert E F p HE HF Hp) as C. destruct (decode E F p) as [|t|t|t n f]; try reflexivity.
  cbn [add_spec add_gen] in *. cbn [convert_gen] in C. unfold add_spec, add_gen. rewrite C. reflexivity.
Qed.

(** Sums from zero: the first addition is exact. *)
Lemma sum_err E F ps : dual_ok_width E F -> Forall (wf (E + F + 3)) ps -> finite_v (sum_spec E F (map (decode E F) ps)) ->
  let u := bpow radix2 (- (F + 1)) in let n := Nat.pred (length ps) in let xs := map (fun p => rv (decode E F p)) ps in
  (Rabs (rv (sum_spec E F (map (decode E F) ps)) - Rsum xs) <= ((1 + u) ^ n - 1) * Rabssum xs + INR n * (1 + u) ^ n * bpow radix2 (emin E))%R.
Proof.
  intros W Hps Hf u n xs. destruct (dual_pos E F W) as [HE HF]. destruct Hps as [|p ps Hp Hps].
  - unfold xs, n, Rabssum. cbn. rewrite Rminus_0_r, Rabs_R0. lra.
  - unfold sum_spec in *. cbn [map fold_left] in *. assert (W0 : wf (E + F + 3) 0) by (unfold wf; split; [lia|apply Z.pow_pos_nonneg; lia]).
    destruct (fl_add_ok E F 0 p W W0 Hp) as (a & _ & A2 & A3). rewrite decode_zero in A3 by lia. rewrite <- A3 in Hf |- *.
    pose proof (zero_add E F p ltac:(lia) ltac:(lia) Hp) as Z0. rewrite <- A3 in Z0.
    pose proof (fold_err E F ps W Hps a (rv (decode E F p)) 0%R A2 Hf) as H. cbv zeta in H. fold u in H.
    rewrite Z0 in H. replace (rv (decode E F p) - rv (decode E F p))%R with 0%R in H by ring. specialize (H ltac:(rewrite Rabs_R0; lra)).
    unfold xs, n. cbn [length Nat.pred map]. unfold Rabssum in *. cbn [map Rsum fold_right] in *. rewrite Rmult_0_r, Rplus_0_l in H. exact H.
Qed.

(** No overflow when the sum of magnitudes stays clear of the largest number. *)
Lemma fold_fin E F ps : dual_ok_width E F -> Forall (wf (E + F + 3)) ps -> Forall finite_v (map (decode E F) ps) -> forall acc B, wf (E + F + 3) acc ->
  finite_v (decode E F acc) ->
  let u := bpow radix2 (- (F + 1)) in let n := length ps in let xs := map (fun p => rv (decode E F p)) ps in
  let T := ((1 + u) ^ n * (B + Rabssum xs + INR n * bpow radix2 (emin E)))%R in
  (Rabs (rv (decode E F acc)) <= B)%R -> (T < bpow radix2 (emax E + 1))%R ->
  finite_v (fold_left (add_spec E F) (map (decode E F) ps) (decode E F acc)) /\
  (Rabs (rv (fold_left (add_spec E F) (map (decode E F) ps) (decode E F acc))) <= T)%R.
Proof.
  intros W Hps. destruct (dual_pos E F W) as [HE HF]. induction Hps as [|p ps Hp Hps IH]; intros Hfin acc B Ha Fa u n xs T HB HT.
  - cbn. split; [exact Fa|]. unfold T, xs, n, Rabssum. cbn. lra.
  - cbn [map fold_left length] in *. inversion Hfin as [|? ? F2 Hfin']; subst. specialize (IH Hfin').
    destruct (fl_add_ok E F acc p W Ha Hp) as (a & A1 & A2 & A3). rewrite <- A3.
    assert (R : rounded (emin E) (emax E) F (rv (decode E F acc) + rv (decode E F p)) (decode E F a)).
    { rewrite A3. apply add_real; [lia| |apply decode_number; try lia; assumption|apply decode_number; try lia; assumption]. apply (em E). lia. }
    remember (rv (decode E F p)) as x eqn:Ex. remember (rv (decode E F acc)) as c eqn:Ec.
    remember (bpow radix2 (emin E)) as eta eqn:Ee. assert (Pe : (0 <= eta)%R) by (subst eta; apply bpow_ge_0).
    assert (Pu : (0 <= u)%R) by (unfold u; apply bpow_ge_0).
    assert (T1 : (Rabs (c + x) <= B + Rabs x)%R) by (pose proof (Rabs_triang c x); lra).
    remember (Rsum (map Rabs (map (fun p => rv (decode E F p)) ps))) as A eqn:EA. assert (PA : (0 <= A)%R) by (subst A; apply Rabssum_pos).
    pose proof (Rabs_pos x) as Px. pose proof (Rabs_pos c) as Pc. pose proof (pos_INR (length ps)) as PK.
    assert (PW : (1 <= (1 + u) ^ length ps)%R) by (apply pow_R1_Rle; lra).
    assert (ET : T = ((1 + u) * (1 + u) ^ length ps * (B + (Rabs x + A) + (INR (length ps) + 1) * eta))%R).
    { unfold T, n, xs. rewrite S_INR. unfold Rabssum. cbn [map Rsum fold_right pow]. rewrite EA. unfold Rsum. reflexivity. }
    remember ((1 + u) ^ length ps)%R as w eqn:Ew. remember (INR (length ps)) as k eqn:Ek.
    assert (T0 : ((1 + u) * (B + Rabs x) <= T)%R).
    { rewrite ET. rewrite Rmult_assoc. apply Rmult_le_compat_l; [lra|]. assert (0 <= (k + 1) * eta)%R by (apply Rmult_le_pos; lra). nra. }
    assert (RE : (Rabs (round radix2 (FLX_exp (F + 1)) ZnearestE (c + x)) <= (1 + u) * (B + Rabs x))%R).
    { pose proof (relative_error_N_FLX radix2 (F + 1) ltac:(unfold Prec_gt_0; lia) (fun z => negb (Z.even z)) (c + x)) as Q.
      replace (/ 2 * bpow radix2 (- (F + 1) + 1))%R with u in Q by (unfold u; replace (- (F + 1) + 1) with (1 + - (F + 1)) by lia; rewrite (bpow_plus radix2 1); change (bpow radix2 1) with 2%R; field).
      pose proof (Rabs_triang_inv (round radix2 (FLX_exp (F + 1)) ZnearestE (c + x)) (c + x)) as Q2.
      pose proof (Rmult_le_compat_l u _ _ Pu T1). lra. }
    assert (Fa' : finite_v (decode E F a)).
    { destruct (decode E F a) as [|t|t|t m e]; cbn; try exact I; cbn in R; [contradiction|]. destruct R as [_ R]. lra. }
    pose proof (rounded_err (emin E) (emax E) F _ _ ltac:(lia) R Fa') as D. rewrite <- Ee in D. fold u in D.
    assert (T2 : (Rabs (rv (decode E F a)) <= (1 + u) * (B + Rabs x) + eta)%R).
    { pose proof (Rabs_triang_inv (rv (decode E F a)) (c + x)) as Q2. pose proof (Rmult_le_compat_l u _ _ Pu T1). lra. }
    specialize (IH a ((1 + u) * (B + Rabs x) + eta)%R A2 Fa'). cbv zeta in IH. fold u in IH. unfold Rabssum in IH. try rewrite <- EA in IH. try rewrite <- Ek in IH. try rewrite <- Ew in IH.
    assert (T3 : (w * ((1 + u) * (B + Rabs x) + eta + A + k * eta) <= T)%R).
    { rewrite ET. replace ((1 + u) * w)%R with (w * (1 + u))%R by ring. rewrite Rmult_assoc. apply Rmult_le_compat_l; [lra|]. assert (0 <= k * eta)%R by (apply Rmult_le_pos; lra). assert (0 <= u * A)%R by (apply Rmult_le_pos; lra). nra. }
    destruct (IH T2 ltac:(lra)) as [I1 I2]. split; [exact I1|]. lra.
Qed.
