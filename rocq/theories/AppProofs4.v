From Coq Require Import ZArith List Bool Lia Reals Lra.
From Flocq Require Import Core Relative.
From Verif Require Import Fw FwLemmas Spec Spec754 SpecLemmas ValueLemmas Flopoco FlopocoLemmas AddDual AddDualProofs Mul MulProofs Ieee IeeeProofs IeeeProofs2 SpecFlocq SpecReal RealProofs SpecApp App AppProofs AppProofs2 AppProofs3.
Import ListNotations.
Open Scope Z_scope.

(** ** No overflow in a dot product *)
Lemma prods_fin E F LF RF abs : dual_ok_width E F -> 1 <= LF -> 1 <= RF -> Forall (wf2 E LF RF) abs ->
  Forall (fun xy => finite_v (fst xy) /\ finite_v (snd xy)) (map (dec2 E LF RF) abs) ->
  let u := bpow radix2 (- (F + 1)) in
  let ms := map (fun xy => rv (fst xy) * rv (snd xy))%R (map (dec2 E LF RF) abs) in
  ((1 + u) * Rabssum ms < bpow radix2 (emax E + 1))%R ->
  Forall finite_v (map (fun xy => mul_spec E F (fst xy) (snd xy)) (map (dec2 E LF RF) abs)).
Proof.
  intros W HL HR H. destruct (dual_pos E F W) as [HE HF]. induction H as [|[a b] abs [Ha Hb] _ IH]; intros Hf u ms HT; [constructor|].
  cbn [map dec2 fst snd] in *. inversion Hf as [|? ? [F1 F2] F3]; subst. cbn [fst snd] in *.
  unfold ms, Rabssum in HT. cbn [map Rsum fold_right] in HT.
  match type of HT with context[(Rabs _ + fold_right Rplus 0 ?l)%R] => pose proof (Rabssum_pos (map (fun xy => rv (fst xy) * rv (snd xy))%R (map (dec2 E LF RF) abs))) as PA; unfold Rabssum, Rsum in PA; remember (fold_right Rplus 0%R l) as A end.
  assert (Pu : (0 <= u)%R) by (unfold u; apply bpow_ge_0). pose proof (Rabs_pos (rv (decode E LF a) * rv (decode E RF b))) as Pm.
  constructor.
  - assert (R : rounded (emin E) (emax E) F (rv (decode E LF a) * rv (decode E RF b)) (mul_spec E F (decode E LF a) (decode E RF b))).
    { apply mul_real; [lia| |apply decode_number; try lia; assumption|apply decode_number; try lia; assumption]. apply (em E). lia. }
    cbn [fst snd]. remember (rv (decode E LF a) * rv (decode E RF b))%R as m.
    destruct (mul_spec E F (decode E LF a) (decode E RF b)) as [|t|t|t n f]; cbn; try exact I; cbn in R; [contradiction|]. destruct R as [_ R].
    pose proof (relative_error_N_FLX radix2 (F + 1) ltac:(unfold Prec_gt_0; lia) (fun z => negb (Z.even z)) m) as Q.
    replace (/ 2 * bpow radix2 (- (F + 1) + 1))%R with u in Q by (unfold u; replace (- (F + 1) + 1) with (1 + - (F + 1)) by lia; rewrite (bpow_plus radix2 1); change (bpow radix2 1) with 2%R; field).
    pose proof (Rabs_triang_inv (round radix2 (FLX_exp (F + 1)) ZnearestE m) m) as Q2.
    assert (0 <= (1 + u) * A)%R by (apply Rmult_le_pos; lra). lra.
  - apply IH; [exact F3|]. unfold Rabssum, Rsum. subst A. eapply Rle_lt_trans; [|exact HT]. apply Rmult_le_compat_l; lra.
Qed.

Lemma loop_mac_fin E F LF RF abs : dual_ok_width E F -> 1 <= LF -> 1 <= RF -> F < LF + RF + 1 -> Forall (wf2 E LF RF) abs ->
  Forall (fun xy => finite_v (fst xy) /\ finite_v (snd xy)) (map (dec2 E LF RF) abs) ->
  let u := bpow radix2 (- (F + 1)) in let n := length abs in let eta := bpow radix2 (emin E) in
  let ms := map (fun xy => rv (fst xy) * rv (snd xy))%R (map (dec2 E LF RF) abs) in
  let T := ((1 + u) ^ S n * (Rabssum ms + 2 * INR n * eta))%R in
  (T < bpow radix2 (emax E + 1))%R -> finite_v (dot_spec E F (map (dec2 E LF RF) abs)) /\ (Rabs (rv (dot_spec E F (map (dec2 E LF RF) abs))) <= T)%R.
Proof.
  intros W HL HR HF H Hf u n eta ms T HT. destruct (dual_pos E F W) as [HE HF1]. destruct (loop_mac E F LF RF abs W HL HR HF H) as (ps & P1 & P2 & P3).
  assert (Pu : (0 <= u)%R) by (unfold u; apply bpow_ge_0). assert (Pe : (0 <= eta)%R) by (unfold eta; apply bpow_ge_0). pose proof (Rabssum_pos ms) as PM.
  assert (PW : (1 <= (1 + u) ^ n)%R) by (apply pow_R1_Rle; lra). pose proof (pos_INR n) as PN. assert (P0 : (0 <= 2 * INR n * eta)%R) by nra.
  assert (HT' : ((1 + u) * Rabssum ms < bpow radix2 (emax E + 1))%R).
  { eapply Rle_lt_trans; [|exact HT]. unfold T. cbn [pow]. rewrite Rmult_assoc. apply Rmult_le_compat_l; [lra|]. nra. }
  pose proof (prods_fin E F LF RF abs W HL HR H Hf HT') as Fp. destruct (prods_err E F LF RF abs W HL HR H Fp) as [_ S3]. cbv zeta in S3. fold u in S3. fold eta in S3. fold ms in S3. fold n in S3.
  rewrite <- P3 in S3. rewrite <- P3 in Fp. assert (W0 : wf (E + F + 3) 0) by (unfold wf; split; [lia|apply Z.pow_pos_nonneg; lia]).
  pose proof (fold_fin E F ps W P1 Fp 0 0%R W0) as Q. cbv zeta in Q. fold u in Q. fold eta in Q. rewrite decode_zero in Q by lia. specialize (Q I).
  assert (EL : length ps = n). { unfold n. rewrite <- (map_length (decode E F)), P3, !map_length. reflexivity. }
  rewrite EL in Q. rewrite map_map in S3. remember (Rabssum (map (fun p => rv (decode E F p)) ps)) as A eqn:EA.
  assert (B : ((1 + u) ^ n * (0 + A + INR n * eta) <= T)%R).
  { unfold T. cbn [pow]. replace ((1 + u) * (1 + u) ^ n)%R with ((1 + u) ^ n * (1 + u))%R by ring. rewrite Rmult_assoc. apply Rmult_le_compat_l; [lra|].
    assert (0 <= u * (2 * INR n * eta))%R by (apply Rmult_le_pos; lra). lra. }
  destruct (Q ltac:(cbn [rv]; rewrite Rabs_R0; lra) ltac:(lra)) as [Q1 Q2].
  unfold dot_spec, sum_spec. rewrite <- P3. split; [exact Q1|]. lra.
Qed.

(** ** To the IEEE format *)
Lemma decode_flx E F p : 1 <= E -> 1 <= F -> generic_format radix2 (FLX_exp (F + 1)) (rv (decode E F p)).
Proof.
  intros HE HF. pose proof (decode_number E F p HE HF) as N. unfold decode in *.
  destruct (p / 2 ^ (E + F + 1) =? 0); [apply generic_format_0|]. destruct (p / 2 ^ (E + F + 1) =? 1); [|destruct (p / 2 ^ (E + F + 1) =? 2); apply generic_format_0].
  cbn [rv]. set (m := 2 ^ F + p mod 2 ^ F). set (e := (p / 2 ^ F) mod 2 ^ E - bias E - F).
  assert (M : Z.abs m < 2 ^ (F + 1)). { unfold m. pose proof (Z.mod_pos_bound p (2 ^ F) ltac:(apply Z.pow_pos_nonneg; lia)). rewrite Z.pow_add_r by lia. lia. }
  assert (G : generic_format radix2 (FLX_exp (F + 1)) (IZR m * bpow radix2 e)).
  { apply (generic_format_FLX radix2 (F + 1)). exists (Float radix2 m e); [reflexivity|]. exact M. }
  destruct (Z.odd _); [apply generic_format_opp; exact G|exact G].
Qed.

Lemma to_ieee_err E F acc : 2 <= E -> 1 <= F -> wf (E + F + 3) acc ->
  let v := convert_gen (round_ieee E F) (decode E F acc) in
  (finite_v v -> finite_v (decode E F acc) /\ (Rabs (rv v - rv (decode E F acc)) <= bpow radix2 (emin E + 1))%R) /\
  (finite_v (decode E F acc) -> (Rabs (rv (decode E F acc)) < bpow radix2 (emax E))%R -> finite_v v).
Proof.
  intros HE HF Ha v. pose proof (decode_flx E F acc ltac:(lia) HF) as G. pose proof (bpow_ge_0 radix2 (emin E + 1)) as P.
  assert (Rd : finite_v (decode E F acc) -> rounded (emin E + 1) (emax E - 1) F (rv (decode E F acc)) v).
  { intros Fa. apply convert_real; [lia| |apply decode_number; try lia; exact Fa]. apply em; lia. }
  assert (Ro : round radix2 (FLX_exp (F + 1)) ZnearestE (rv (decode E F acc)) = rv (decode E F acc)).
  { apply round_generic; [apply valid_rnd_N|exact G]. }
  split.
  - intros Fv. assert (Fa : finite_v (decode E F acc)). { unfold v in Fv. destruct (decode E F acc); cbn in *; try contradiction; exact I. }
    split; [exact Fa|]. specialize (Rd Fa). unfold rounded in Rd. rewrite Ro in Rd. destruct v as [|t|t|t m e]; try contradiction.
    + destruct Rd as [_ Rd]. cbn [rv]. rewrite Rminus_0_l, Rabs_Ropp. lra.
    + destruct Rd as (_ & Rd & _). rewrite Rd. rewrite Rminus_diag_eq by reflexivity. rewrite Rabs_R0. exact P.
  - intros Fa L. specialize (Rd Fa). unfold rounded in Rd. rewrite Ro in Rd. destruct v as [|t|t|t m e]; cbn; try exact I; [contradiction|].
    destruct Rd as [_ Rd]. replace (emax E - 1 + 1) with (emax E) in Rd by lia. lra.
Qed.

(** Denormal words, which the library reads as zeros. *)
Lemma decode754_ieee x : wf 32 x ->
  (finite_v (decode754 8 23 x) -> finite_v (decode_ieee 8 23 x)) /\
  (Rabs (rv (decode_ieee 8 23 x) - rv (decode754 8 23 x)) <= bpow radix2 (-126))%R /\ (Rabs (rv (decode_ieee 8 23 x)) <= Rabs (rv (decode754 8 23 x)))%R.
Proof.
  intros _. pose proof (bpow_ge_0 radix2 (-126)) as P. unfold decode754, decode_ieee. change (2 ^ 8 - 1) with 255. change (bias 8) with 127.
  remember ((x / 2 ^ 23) mod 2 ^ 8) as ex. remember (x mod 2 ^ 23) as f eqn:Ef. remember (Z.odd (x / 2 ^ (8 + 23))) as s.
  destruct (Z.eqb_spec ex 0) as [E0|E0]; [subst ex; rewrite E0; cbn [Z.eqb]|].
  - destruct (Z.eqb_spec f 0) as [F0|F0].
    + cbn [rv finite_v]. rewrite Rminus_diag_eq by reflexivity. rewrite Rabs_R0. split; [tauto|]. lra.
    + split; [cbn; tauto|]. pose proof (Z.mod_pos_bound x (2 ^ 23) ltac:(reflexivity)) as B. rewrite <- Ef in B. change (1 - 127 - 23) with (-149).
      assert (L : (0 <= IZR f * bpow radix2 (-149) <= bpow radix2 (-126))%R).
      { pose proof (bpow_ge_0 radix2 (-149)) as P1. split; [apply Rmult_le_pos; [apply IZR_le; lia|exact P1]|].
        replace (bpow radix2 (-126)) with (bpow radix2 23 * bpow radix2 (-149))%R by (rewrite <- bpow_plus; reflexivity).
        apply Rmult_le_compat_r; [exact P1|]. change (bpow radix2 23) with (IZR (2 ^ 23)). apply IZR_le. lia. }
      cbn [rv]. rewrite Rminus_0_l, Rabs_Ropp, Rabs_R0. assert (A : Rabs (if s then - (IZR f * bpow radix2 (-149)) else IZR f * bpow radix2 (-149)) = (IZR f * bpow radix2 (-149))%R).
      { destruct s; [rewrite Rabs_Ropp|]; apply Rabs_pos_eq; apply L. }
      rewrite A. lra.
  - destruct (Z.eqb_spec ex 255) as [E1|E1]; [destruct (f =? 0)|]; cbn [finite_v]; (split; [tauto|]); rewrite Rminus_diag_eq by reflexivity; rewrite Rabs_R0; split; try exact P; apply Rle_refl.
Qed.

Lemma to_ieee_754 acc : wf 34 acc -> decode754 8 23 (to_ieee 8 23 acc) = decode_ieee 8 23 (to_ieee 8 23 acc).
Proof.
  intros Ha. destruct (to_ieee_canonical 8 23 acc ltac:(lia) ltac:(lia) Ha) as [C _]. pose proof (to_ieee_rounds 8 23 acc ltac:(lia) ltac:(lia) Ha) as [Wr _].
  remember (to_ieee 8 23 acc) as r. unfold decode754, decode_ieee in *. change (2 ^ 8 - 1) with 255 in *.
  destruct (Z.eqb_spec ((r / 2 ^ 23) mod 2 ^ 8) 0) as [E0|E0]; [|reflexivity]. rewrite E0. cbn [Z.eqb]. specialize (C _ eq_refl).
  clear - C. destruct (Z.odd (r / 2 ^ (8 + 23))); rewrite C; reflexivity.
Qed.
