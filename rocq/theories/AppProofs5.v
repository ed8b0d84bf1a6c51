From Coq Require Import ZArith List Bool Lia Reals Lra.
From Flocq Require Import Core Relative.
From Verif Require Import Fw FwLemmas Spec Spec754 SpecLemmas ValueLemmas Flopoco FlopocoLemmas AddDual AddDualProofs Mul MulProofs Ieee IeeeProofs IeeeProofs2 SpecFlocq SpecReal RealProofs SpecApp App AppProofs AppProofs2 AppProofs3 AppProofs4.
Import ListNotations.
Open Scope Z_scope.

Lemma w823 : dual_ok_width 8 23. Proof. unfold dual_ok_width. repeat split; try reflexivity; try discriminate. right; right; right; right. discriminate. Qed.

(** ** The sum example *)
Lemma sum_loop data acc : loop sum_body acc data = loop (fl_add 8 23) acc (map (to_flopoco 8 23) data).
Proof. revert acc. induction data as [|x l IH]; intros acc; [reflexivity|]. cbn [loop map]. change (sum_body acc x) with (fl_add 8 23 acc (to_flopoco 8 23 x)). destruct (fl_add 8 23 acc (to_flopoco 8 23 x)); cbn [bind]; [apply IH|reflexivity]. Qed.

Lemma flopocos data : Forall (wf 32) data -> Forall (wf 34) (map (to_flopoco 8 23) data) /\ map (decode 8 23) (map (to_flopoco 8 23) data) = map (decode_ieee 8 23) data.
Proof.
  induction 1 as [|x l Hx _ [I1 I2]]; [split; [constructor|reflexivity]|]. destruct (to_flopoco_ok 8 23 x ltac:(lia) ltac:(lia) Hx) as [W D].
  cbn [map]. split; [constructor; [exact W|exact I1]|]. rewrite D, I2. reflexivity.
Qed.

Lemma sum_example_acc data : Forall (wf 32) data -> exists acc, sum_example data = Some (to_ieee 8 23 acc) /\ wf 34 acc /\
  decode 8 23 acc = sum_spec 8 23 (map (decode_ieee 8 23) data).
Proof.
  intros H. destruct (flopocos data H) as [F1 F2]. destruct (loop_add 8 23 (map (to_flopoco 8 23) data) w823 F1 0 ltac:(unfold wf; lia)) as (acc & L1 & L2 & L3).
  exists acc. unfold sum_example. rewrite sum_loop. unfold fl_default. rewrite L1. cbn [bind]. split; [reflexivity|]. split; [exact L2|].
  rewrite L3, F2, decode_zero by lia. reflexivity.
Qed.

Theorem sum_example_ok data : Forall (wf 32) data -> exists r, sum_example data = Some r /\ wf 32 r /\
  decode754 8 23 r = convert_gen (round_ieee 8 23) (sum_spec 8 23 (map (decode_ieee 8 23) data)).
Proof.
  intros H. destruct (sum_example_acc data H) as (acc & A1 & A2 & A3). exists (to_ieee 8 23 acc). split; [exact A1|].
  destruct (to_ieee_rounds 8 23 acc ltac:(lia) ltac:(lia) A2) as [T1 T2]. split; [exact T1|]. rewrite to_ieee_754 by exact A2. rewrite T2, A3. reflexivity.
Qed.

Lemma flushed data : Forall (wf 32) data ->
  let ys := map (fun x => rv (decode_ieee 8 23 x)) data in let xs := map (fun x => rv (decode754 8 23 x)) data in
  (Rabs (Rsum ys - Rsum xs) <= INR (length data) * bpow radix2 (-126))%R /\ (Rabssum ys <= Rabssum xs)%R.
Proof.
  induction 1 as [|x l Hx _ [I1 I2]]; [cbn; rewrite Rminus_0_r, Rabs_R0; lra|]. cbn [map]. destruct (decode754_ieee x Hx) as (_ & D1 & D2).
  cbv zeta in I1, I2. unfold Rabssum, Rsum in *. cbn [map fold_right length]. rewrite S_INR.
  remember (fold_right Rplus 0%R (map (fun x => rv (decode_ieee 8 23 x)) l)) as A. remember (fold_right Rplus 0%R (map (fun x => rv (decode754 8 23 x)) l)) as B. split; [|lra].
  replace (rv (decode_ieee 8 23 x) + A - (rv (decode754 8 23 x) + B))%R with ((rv (decode_ieee 8 23 x) - rv (decode754 8 23 x)) + (A - B))%R by ring.
  eapply Rle_trans; [apply Rabs_triang|]. lra.
Qed.

Theorem sum_example_err data r : Forall (wf 32) data -> sum_example data = Some r ->
  let u := bpow radix2 (-24) in let n := length data in let xs := map (fun x => rv (decode754 8 23 x)) data in
  (finite_v (decode754 8 23 r) ->
   (Rabs (rv (decode754 8 23 r) - Rsum xs) <= ((1 + u) ^ Nat.pred n - 1) * Rabssum xs + (2 * INR n + 1) * (1 + u) ^ n * bpow radix2 (-126))%R) /\
  (Forall finite_v (map (decode754 8 23) data) ->
   ((1 + u) ^ n * (Rabssum xs + INR n * bpow radix2 (-127)) < bpow radix2 128)%R -> finite_v (decode754 8 23 r)).
Proof.
  intros H Hr u n xs. destruct (sum_example_acc data H) as (acc & A1 & A2 & A3). rewrite A1 in Hr. injection Hr as <-.
  destruct (flopocos data H) as [F1 F2]. destruct (flushed data H) as [L1 L2]. cbv zeta in L1, L2. fold n in L1. fold xs in L1, L2.
  rewrite to_ieee_754 by exact A2. destruct (to_ieee_rounds 8 23 acc ltac:(lia) ltac:(lia) A2) as [_ T2]. rewrite T2.
  destruct (to_ieee_err 8 23 acc ltac:(lia) ltac:(lia) A2) as [E1 E2]. change (emin 8 + 1) with (-126) in E1. change (emax 8) with 128 in E2.
  remember (convert_gen (round_ieee 8 23) (decode 8 23 acc)) as v.
  assert (EL : length (map (to_flopoco 8 23) data) = n) by apply map_length.
  assert (EX : map (fun p => rv (decode 8 23 p)) (map (to_flopoco 8 23) data) = map (fun x => rv (decode_ieee 8 23 x)) data).
  { rewrite <- (map_map (decode 8 23) rv), F2, map_map. reflexivity. }
  assert (Pu : (0 <= u)%R) by apply bpow_ge_0. assert (P1 : (1 <= (1 + u) ^ n)%R) by (apply pow_R1_Rle; lra).
  assert (P2 : (1 <= (1 + u) ^ Nat.pred n)%R) by (apply pow_R1_Rle; lra).
  assert (P3 : ((1 + u) ^ Nat.pred n <= (1 + u) ^ n)%R) by (apply Rle_pow; [lra|lia]).
  assert (PI : (INR (Nat.pred n) <= INR n)%R) by (apply le_INR; lia). pose proof (pos_INR n) as PN. pose proof (pos_INR (Nat.pred n)) as PN'.
  assert (H126 : (bpow radix2 (-126) = 2 * bpow radix2 (-127))%R) by (change (-126) with (1 + -127); rewrite bpow_plus; reflexivity).
  pose proof (bpow_gt_0 radix2 (-127)) as PB.
  split.
  - intros Fv. destruct (E1 Fv) as [Fa E3]. rewrite A3, <- F2 in Fa. pose proof (sum_err 8 23 _ w823 F1 Fa) as Q. cbv zeta in Q. rewrite EL, EX in Q. rewrite F2, <- A3 in Q.
    change (- (23 + 1)) with (-24) in Q. change (emin 8) with (-127) in Q. fold u in Q. rewrite H126 in *.
    remember (bpow radix2 (-127)) as d. remember (rv (decode 8 23 acc)) as a. remember (Rsum (map (fun x => rv (decode_ieee 8 23 x)) data)) as Sy. remember (Rabssum (map (fun x => rv (decode_ieee 8 23 x)) data)) as Ay.
    remember ((1 + u) ^ Nat.pred n)%R as w'. remember ((1 + u) ^ n)%R as w.
    replace (rv v - Rsum xs)%R with ((rv v - a) + (a - Sy) + (Sy - Rsum xs))%R by ring.
    eapply Rle_trans; [apply Rabs_triang|]. eapply Rle_trans; [apply Rplus_le_compat_r, Rabs_triang|].
    assert (B1 : ((w' - 1) * Ay <= (w' - 1) * Rabssum xs)%R) by (apply Rmult_le_compat_l; lra).
    assert (B2 : (INR (Nat.pred n) * w' <= INR n * w)%R) by (apply Rmult_le_compat; lra).
    assert (B3 : (INR (Nat.pred n) * w' * d <= INR n * w * d)%R) by (apply Rmult_le_compat_r; lra).
    assert (B4 : (INR n * (2 * d) <= INR n * w * (2 * d))%R). { rewrite Rmult_assoc. apply Rmult_le_compat_l; [lra|]. rewrite <- (Rmult_1_l (2 * d)) at 1. apply Rmult_le_compat_r; lra. }
    assert (B5 : (2 * d <= w * (2 * d))%R) by (rewrite <- (Rmult_1_l (2 * d)) at 1; apply Rmult_le_compat_r; lra).
    assert (B6 : (0 <= INR n * w * d)%R) by (repeat apply Rmult_le_pos; lra).
    replace ((2 * INR n + 1) * w * (2 * d))%R with (4 * (INR n * w * d) + w * (2 * d))%R by ring. 
    assert (B7 : (INR n * w * (2 * d) = 2 * (INR n * w * d))%R) by ring. lra.
  - intros Fx HT. assert (Fy : Forall finite_v (map (decode 8 23) (map (to_flopoco 8 23) data))).
    { rewrite F2. clear - H Fx. induction H as [|x l Hx _ IH]; [constructor|]. cbn [map] in *. inversion Fx; subst. constructor; [|apply IH; assumption]. apply (decode754_ieee x Hx). assumption. }
    pose proof (fold_fin 8 23 _ w823 F1 Fy 0 0%R ltac:(unfold wf; lia)) as Q. cbv zeta in Q. rewrite decode_zero in Q by lia. specialize (Q I ltac:(cbn [rv]; rewrite Rabs_R0; lra)).
    rewrite EL, EX in Q. change (- (23 + 1)) with (-24) in Q. change (emin 8) with (-127) in Q. change (emax 8 + 1) with 129 in Q. fold u in Q.
    assert (B : ((1 + u) ^ n * (0 + Rabssum (map (fun x => rv (decode_ieee 8 23 x)) data) + INR n * bpow radix2 (-127)) < bpow radix2 128)%R).
    { eapply Rle_lt_trans; [|exact HT]. apply Rmult_le_compat_l; lra. }
    assert (B' : (bpow radix2 128 < bpow radix2 129)%R) by (apply bpow_lt; lia).
    destruct (Q ltac:(lra)) as [Q1 Q2]. fold (sum_spec 8 23 (map (decode 8 23) (map (to_flopoco 8 23) data))) in Q1, Q2. rewrite F2, <- A3 in Q1, Q2. apply E2; [exact Q1|lra].
Qed.

(** ** The dot product example *)
Definition to_fl2 (ab : Z * Z) : Z * Z := (to_flopoco 8 23 (fst ab), to_flopoco 8 23 (snd ab)).

Lemma to_fl_823 x : to_fl 8 23 x = Some (to_flopoco 8 23 x). Proof. reflexivity. Qed.
Lemma dot_body_mac acc x : dot_body acc x = mac 8 23 23 23 acc (to_fl2 x).
Proof. unfold dot_body, mac, fl_mul. rewrite !to_fl_823. cbn [bind]. unfold to_fl2. cbn [fst snd]. reflexivity. Qed.

Lemma dot_loop abs acc : loop dot_body acc abs = loop (mac 8 23 23 23) acc (map to_fl2 abs).
Proof. revert acc. induction abs as [|x l IH]; intros acc; [reflexivity|]. cbn [loop map]. rewrite dot_body_mac. destruct (mac 8 23 23 23 acc (to_fl2 x)); cbn [bind]; [apply IH|reflexivity]. Qed.

Definition ieee2 (ab : Z * Z) : fval * fval := (decode_ieee 8 23 (fst ab), decode_ieee 8 23 (snd ab)).

Lemma flopocos2 abs : Forall (fun ab => wf 32 (fst ab) /\ wf 32 (snd ab)) abs ->
  Forall (wf2 8 23 23) (map to_fl2 abs) /\ map (dec2 8 23 23) (map to_fl2 abs) = map ieee2 abs.
Proof.
  induction 1 as [|[x y] l [Hx Hy] _ [I1 I2]]; [split; [constructor|reflexivity]|]. cbn [fst snd] in *.
  destruct (to_flopoco_ok 8 23 x ltac:(lia) ltac:(lia) Hx) as [W D]. destruct (to_flopoco_ok 8 23 y ltac:(lia) ltac:(lia) Hy) as [W' D'].
  cbn [map]. split; [constructor; [split; [exact W|exact W']|exact I1]|]. rewrite I2. unfold dec2, to_fl2, ieee2. cbn [fst snd]. rewrite D, D'. reflexivity.
Qed.

Theorem dot_example_ok abs : Forall (fun ab => wf 32 (fst ab) /\ wf 32 (snd ab)) abs -> exists r, dot_example abs = Some r /\ wf 32 r /\
  decode754 8 23 r = convert_gen (round_ieee 8 23) (dot_spec 8 23 (map ieee2 abs)) /\
  let u := bpow radix2 (-24) in let n := length abs in
  let ms := map (fun ab => rv (decode_ieee 8 23 (fst ab)) * rv (decode_ieee 8 23 (snd ab)))%R abs in
  (finite_v (decode754 8 23 r) ->
   (Rabs (rv (decode754 8 23 r) - Rsum ms) <= ((1 + u) ^ n - 1) * Rabssum ms + (INR n + 1) * (1 + u) ^ n * bpow radix2 (-126))%R) /\
  (Forall (fun ab => finite_v (decode_ieee 8 23 (fst ab)) /\ finite_v (decode_ieee 8 23 (snd ab))) abs ->
   ((1 + u) ^ S n * (Rabssum ms + INR n * bpow radix2 (-126)) < bpow radix2 128)%R -> finite_v (decode754 8 23 r)).
Proof.
  intros H. destruct (flopocos2 abs H) as [F1 F2]. destruct (loop_mac_ok 8 23 23 23 _ w823 ltac:(lia) ltac:(lia) ltac:(lia) F1) as (acc & L1 & L2 & L3 & L4).
  exists (to_ieee 8 23 acc). unfold dot_example. rewrite dot_loop. unfold fl_default. rewrite L1. cbn [bind]. split; [reflexivity|].
  change (8 + 23 + 3) with 34 in L2. destruct (to_ieee_rounds 8 23 acc ltac:(lia) ltac:(lia) L2) as [T1 T2]. split; [exact T1|]. rewrite to_ieee_754 by exact L2. rewrite T2, L3, F2. split; [reflexivity|].
  cbv zeta. set (u := bpow radix2 (-24)). set (n := length abs). set (ms := map (fun ab => rv (decode_ieee 8 23 (fst ab)) * rv (decode_ieee 8 23 (snd ab)))%R abs). destruct (to_ieee_err 8 23 acc ltac:(lia) ltac:(lia) L2) as [E1 E2]. change (emin 8 + 1) with (-126) in E1. change (emax 8) with 128 in E2. rewrite L3, F2 in E1, E2.
  assert (EL : length (map to_fl2 abs) = n) by apply map_length.
  assert (EM : map (fun xy => rv (fst xy) * rv (snd xy))%R (map (dec2 8 23 23) (map to_fl2 abs)) = ms) by (rewrite F2, map_map; reflexivity).
  cbv zeta in L4. rewrite EL, EM, L3, F2 in L4. change (- (23 + 1)) with (-24) in L4. change (emin 8) with (-127) in L4. fold u in L4.
  assert (H126 : (bpow radix2 (-126) = 2 * bpow radix2 (-127))%R) by (change (-126) with (1 + -127); rewrite bpow_plus; reflexivity).
  assert (Pu : (0 <= u)%R) by apply bpow_ge_0. assert (P1 : (1 <= (1 + u) ^ n)%R) by (apply pow_R1_Rle; lra). pose proof (pos_INR n) as PN. pose proof (bpow_gt_0 radix2 (-127)) as PB.
  remember (convert_gen (round_ieee 8 23) (dot_spec 8 23 (map ieee2 abs))) as v. split.
  - intros Fv. destruct (E1 Fv) as [Fa E3]. specialize (L4 Fa). rewrite H126 in *. remember (bpow radix2 (-127)) as d. remember (rv (dot_spec 8 23 (map ieee2 abs))) as a. remember ((1 + u) ^ n)%R as w.
    replace (rv v - Rsum ms)%R with ((rv v - a) + (a - Rsum ms))%R by ring. eapply Rle_trans; [apply Rabs_triang|].
    assert (B5 : (2 * d <= w * (2 * d))%R) by (rewrite <- (Rmult_1_l (2 * d)) at 1; apply Rmult_le_compat_r; lra).
    replace ((INR n + 1) * w * (2 * d))%R with (2 * INR n * w * d + w * (2 * d))%R by ring. lra.
  - intros Fx HT. assert (Fy : Forall (fun xy => finite_v (fst xy) /\ finite_v (snd xy)) (map (dec2 8 23 23) (map to_fl2 abs))) by (rewrite F2; apply Forall_map; exact Fx).
    pose proof (loop_mac_fin 8 23 23 23 _ w823 ltac:(lia) ltac:(lia) ltac:(lia) F1 Fy) as Q. cbv zeta in Q. rewrite EL, EM, F2 in Q.
    change (- (23 + 1)) with (-24) in Q. change (emin 8) with (-127) in Q. change (emax 8 + 1) with 129 in Q. fold u in Q.
    replace (2 * INR n * bpow radix2 (-127))%R with (INR n * bpow radix2 (-126))%R in Q by (rewrite H126; ring).
    assert (B' : (bpow radix2 128 < bpow radix2 129)%R) by (apply bpow_lt; lia).
    destruct (Q ltac:(lra)) as [Q1 Q2]. apply E2; [exact Q1|lra].
Qed.
