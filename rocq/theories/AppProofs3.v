From Coq Require Import ZArith List Bool Lia Reals Lra.
From Flocq Require Import Core Relative.
From Verif Require Import Fw FwLemmas Spec SpecLemmas ValueLemmas Flopoco FlopocoLemmas AddDual AddDualProofs Mul MulProofs Ieee IeeeProofs IeeeProofs2 SpecFlocq SpecReal RealProofs SpecApp App AppProofs AppProofs2.
Import ListNotations.
Open Scope Z_scope.

(** ** Loops of multiplications and additions *)
Definition wf2 (E LF RF : Z) (ab : Z * Z) : Prop := wf (E + LF + 3) (fst ab) /\ wf (E + RF + 3) (snd ab).
Definition dec2 (E LF RF : Z) (ab : Z * Z) : fval * fval := (decode E LF (fst ab), decode E RF (snd ab)).
Definition mac (E F LF RF acc : Z) (ab : Z * Z) : option Z := do p <- mul E F E LF RF (fst ab) (snd ab); fl_add E F acc p.

Lemma loop_mac E F LF RF abs : dual_ok_width E F -> 1 <= LF -> 1 <= RF -> F < LF + RF + 1 -> Forall (wf2 E LF RF) abs ->
  exists ps, Forall (wf (E + F + 3)) ps /\ (forall acc, loop (mac E F LF RF) acc abs = loop (fl_add E F) acc ps) /\
    map (decode E F) ps = map (fun xy => mul_spec E F (fst xy) (snd xy)) (map (dec2 E LF RF) abs).
Proof.
  intros W HL HR HF H. destruct (dual_pos E F W) as [HE HF1]. induction H as [|[a b] abs [Ha Hb] _ IH].
  - exists []. split; [constructor|]. split; reflexivity.
  - destruct IH as (ps & P1 & P2 & P3). destruct (mul_round_correct E F LF RF a b ltac:(lia) HL HR ltac:(lia) Ha Hb) as (p & Q1 & Q2 & Q3).
    exists (p :: ps). split; [constructor; assumption|]. split.
    + intros acc. cbn [loop]. unfold mac at 1. cbn [fst snd]. unfold mul. rewrite Q1. cbn [bind]. destruct (fl_add E F acc p) as [acc'|]; [|reflexivity]. cbn [bind]. apply P2.
    + cbn [map]. rewrite P3. f_equal. exact Q3.
Qed.

Lemma mul_finite E F x y : finite_v (mul_spec E F x y) -> finite_v x /\ finite_v y.
Proof. unfold mul_spec, mul_gen. destruct x as [|s|s|s m e], y as [|t|t|t n f]; cbn; tauto. Qed.

Lemma prods_err E F LF RF abs : dual_ok_width E F -> 1 <= LF -> 1 <= RF -> Forall (wf2 E LF RF) abs ->
  Forall finite_v (map (fun xy => mul_spec E F (fst xy) (snd xy)) (map (dec2 E LF RF) abs)) ->
  let u := bpow radix2 (- (F + 1)) in let n := INR (length abs) in let eta := bpow radix2 (emin E) in
  let ps := map rv (map (fun xy => mul_spec E F (fst xy) (snd xy)) (map (dec2 E LF RF) abs)) in
  let ms := map (fun xy => rv (fst xy) * rv (snd xy))%R (map (dec2 E LF RF) abs) in
  (Rabs (Rsum ps - Rsum ms) <= u * Rabssum ms + n * eta)%R /\ (Rabssum ps <= (1 + u) * Rabssum ms + n * eta)%R.
Proof.
  intros W HL HR H. destruct (dual_pos E F W) as [HE HF]. induction H as [|[a b] abs [Ha Hb] _ IH]; intros Hf u n eta ps ms.
  - unfold ps, ms, n, Rabssum. cbn. rewrite Rminus_0_r, Rabs_R0. split; lra.
  - cbn [map] in *. inversion Hf as [|? ? F1 F2]; subst. specialize (IH F2). cbv zeta in IH. destruct IH as [I1 I2]. fold u in I1, I2. fold eta in I1, I2.
    unfold ps, ms, n. cbn [map length dec2 fst snd] in *. rewrite S_INR. unfold Rabssum in *. cbn [map Rsum fold_right].
    destruct (mul_finite E F _ _ F1) as [N1 N2]. cbn [fst snd] in *.
    assert (R : rounded (emin E) (emax E) F (rv (decode E LF a) * rv (decode E RF b)) (mul_spec E F (decode E LF a) (decode E RF b))).
    { apply mul_real; [lia| |apply decode_number; try lia; assumption|apply decode_number; try lia; assumption]. apply (em E). lia. }
    pose proof (rounded_err (emin E) (emax E) F _ _ ltac:(lia) R F1) as D. fold u in D. fold eta in D.
    remember (rv (decode E LF a) * rv (decode E RF b))%R as m. remember (rv (mul_spec E F (decode E LF a) (decode E RF b))) as p.
    unfold Rsum in *.
    split.
    + match goal with |- (Rabs (p + ?X - (m + ?Y)) <= _)%R => replace (p + X - (m + Y))%R with ((p - m) + (X - Y))%R by ring; pose proof (Rabs_triang (p - m) (X - Y)) end. lra.
    + pose proof (Rabs_triang_inv p m). lra.
Qed.

Lemma loop_mac_ok E F LF RF abs : dual_ok_width E F -> 1 <= LF -> 1 <= RF -> F < LF + RF + 1 -> Forall (wf2 E LF RF) abs ->
  exists r, loop (mac E F LF RF) 0 abs = Some r /\ wf (E + F + 3) r /\ decode E F r = dot_spec E F (map (dec2 E LF RF) abs) /\
  let u := bpow radix2 (- (F + 1)) in let n := length abs in let eta := bpow radix2 (emin E) in
  let ms := map (fun xy => rv (fst xy) * rv (snd xy))%R (map (dec2 E LF RF) abs) in
  (finite_v (decode E F r) ->
    (Rabs (rv (decode E F r) - Rsum ms) <= ((1 + u) ^ n - 1) * Rabssum ms + 2 * INR n * (1 + u) ^ n * eta)%R).
Proof.
  intros W HL HR HF H. destruct (dual_pos E F W) as [HE HF1]. destruct (loop_mac E F LF RF abs W HL HR HF H) as (ps & P1 & P2 & P3).
  assert (W0 : wf (E + F + 3) 0) by (unfold wf; split; [lia|apply Z.pow_pos_nonneg; lia]).
  destruct (loop_add E F ps W P1 0 W0) as (r & R1 & R2 & R3). rewrite decode_zero in R3 by lia. exists r.
  split; [rewrite P2; exact R1|]. split; [exact R2|]. assert (R4 : decode E F r = dot_spec E F (map (dec2 E LF RF) abs)) by (unfold dot_spec, sum_spec; rewrite <- P3; exact R3).
  split; [exact R4|]. intros u n eta ms Fr. rewrite R3 in Fr |- *. fold (sum_spec E F (map (decode E F) ps)) in Fr |- *.
  pose proof (sum_err E F ps W P1 Fr) as S1. cbv zeta in S1. fold u in S1. fold eta in S1.
  pose proof (fold_finite E F _ _ Fr) as [_ Fp]. rewrite P3 in Fp. destruct (prods_err E F LF RF abs W HL HR H Fp) as [S2 S3]. cbv zeta in S2, S3. fold u in S2, S3. fold eta in S2, S3. fold ms in S2, S3.
  assert (EL : length ps = n). { unfold n. rewrite <- (map_length (decode E F)), P3, !map_length. reflexivity. }
  rewrite <- P3 in S2, S3. rewrite map_map in S2, S3. rewrite EL in S1. fold n in S2, S3.
  remember (map (fun p => rv (decode E F p)) ps) as qs. remember (rv (sum_spec E F (map (decode E F) ps))) as v.
  assert (Pu : (0 <= u)%R) by (unfold u; apply bpow_ge_0). assert (Pe : (0 <= eta)%R) by (unfold eta; apply bpow_ge_0). pose proof (Rabssum_pos ms) as PM.
  destruct n as [|n].
  - cbn in *. replace (v - Rsum ms)%R with ((v - Rsum qs) + (Rsum qs - Rsum ms))%R by ring. pose proof (Rabs_triang (v - Rsum qs) (Rsum qs - Rsum ms)).
    assert (E0 : length ms = 0%nat). { unfold ms. rewrite !map_length. rewrite <- (map_length (dec2 E LF RF)), <- (map_length (fun xy => mul_spec E F (fst xy) (snd xy))), <- P3, map_length. exact EL. }
    destruct ms; [|discriminate]. unfold Rabssum in *. cbn in *. lra.
  - cbn [Nat.pred] in S1. rewrite S_INR in *. cbn [pow]. assert (PW : (1 <= (1 + u) ^ n)%R) by (apply pow_R1_Rle; lra). remember ((1 + u) ^ n)%R as w. pose proof (pos_INR n) as PN.
    replace (v - Rsum ms)%R with ((v - Rsum qs) + (Rsum qs - Rsum ms))%R by ring. eapply Rle_trans; [apply Rabs_triang|].
    assert (Q1 : ((w - 1) * Rabssum qs <= (w - 1) * ((1 + u) * Rabssum ms + (INR n + 1) * eta))%R) by (apply Rmult_le_compat_l; lra).
    assert (Q2 : (0 <= (INR n + 1) * (u * w * eta))%R) by (apply Rmult_le_pos; [lra|]; apply Rmult_le_pos; [apply Rmult_le_pos; lra|lra]).
    assert (Q3 : (0 <= w * eta)%R) by (apply Rmult_le_pos; lra).
    nra.
Qed.
