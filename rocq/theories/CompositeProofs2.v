(** The kernels over float, over exact integers, and the sum of four. *)
From Coq Require Import ZArith List Bool Lia Reals Lra.
From Flocq Require Import Core.
From Verif Require Import Fw Spec Spec754 SpecFlocq SpecApp SpecComposite Flopoco AddDualProofs SoftFloat App AppProofs AppProofs6 AppProofs7 AppProofs8 AppProofs9 Composite CompositeProofs.
Import ListNotations.
Open Scope Z_scope.

(** ** Two terms a turn *)
Lemma seq_two s n : seq (2 * s) (2 * S n) = (2 * s)%nat :: (2 * s + 1)%nat :: seq (2 * S s) (2 * n).
Proof. replace (2 * S n)%nat with (S (S (2 * n))) by lia. cbn [seq]. f_equal. f_equal; [lia|]. f_equal. lia. Qed.
Lemma even_half n : (n mod 2 =? 0)%nat = true -> n = (2 * (n / 2))%nat.
Proof. intros H. apply Nat.eqb_eq in H. pose proof (Nat.div_mod n 2 ltac:(lia)). lia. Qed.
Lemma u2_fold E F (x y : list fval) d m : length x = length y -> forall s, (2 * (s + m) <= length x)%nat -> forall acc,
  loop (fun acc k => let i := (2 * k)%nat in do p <- prod_at (native E F) x y i i; do acc <- plus (native E F) acc p; do q <- prod_at (native E F) x y (i + 1) (i + 1); plus (native E F) acc q) acc (seq s m)
  = Some (fold_left (add754 E F) (map (fun i => mul754 E F (nth i x d) (nth i y d)) (seq (2 * s) (2 * m))) acc).
Proof.
  intros L. induction m as [|m IH]; intros s H acc; [reflexivity|]. rewrite seq_two. cbn [seq loop map fold_left]. cbv zeta.
  rewrite (prod_at_ok _ d) by lia. cbn [native times plus bind]. change (prod_at _ x y) with (prod_at (native E F) x y). rewrite (prod_at_ok _ d) by lia. cbn [native times bind].
  change (prod_at _ x y) with (prod_at (native E F) x y). apply (IH (S s)). lia.
Qed.
Theorem dot_u2_ok E F x y : length x = length y -> Nat.even (length x) = true -> fp_dot_product_u2 (native E F) (length x) x y = Some (dot754 E F (combine x y)).
Proof.
  intros L HE. assert (HM : (length x mod 2 =? 0)%nat = true). { apply Nat.eqb_eq. apply Nat.even_spec in HE. destruct HE as [k ->]. rewrite Nat.mul_comm. apply Nat.mod_mul. lia. }
  unfold fp_dot_product_u2. rewrite HM. cbn [assert_ bind]. change (of_zero (native E F)) with (Some (Zero false)). cbn [bind].
  rewrite (u2_fold E F x y NaN) by (try exact L; pose proof (even_half _ HM); lia). f_equal. unfold dot754. rewrite Nat.mul_0_r. rewrite <- (even_half _ HM).
  rewrite <- (combine_seq NaN NaN x y L), map_map. reflexivity.
Qed.
Theorem dot_u2_odd {T} (S : scalar T) n a b : Nat.even n = false -> fp_dot_product_u2 S n a b = None /\ mmm_u2 S n a b = None.
Proof.
  intros H. assert (M : (n mod 2 =? 0)%nat = false). { apply Nat.eqb_neq. intros Q. pose proof (Nat.div_mod n 2 ltac:(lia)). assert (X : n = (2 * (n / 2))%nat) by lia. rewrite X in H. rewrite Nat.even_mul in H. discriminate. }
  unfold fp_dot_product_u2, mmm_u2. rewrite M. split; reflexivity.
Qed.
(** In single precision, with the error bound. *)
Theorem dot_u2_float a b : length a = length b -> Nat.even (length a) = true -> Forall w32 a -> Forall w32 b -> let D := decode754 8 23 in
  exists v, fp_dot_product_u2 (native 8 23) (length a) (map D a) (map D b) = Some v /\ let xys := combine (map D a) (map D b) in v = dot754 8 23 xys /\
  (finite_v v -> let u := bpow radix2 (-24) in let n := length a in
    (Rabs (rv v - Rdot xys) <= ((1 + u) ^ S n - 1) * Rabsdot xys + INR n * (1 + u) ^ S n * bpow radix2 (-149))%R).
Proof.
  intros L HE Ha Hb D. exists (dot754 8 23 (combine (map D a) (map D b))). split; [rewrite <- (map_length D a) in HE |- *; apply dot_u2_ok; [rewrite !map_length; exact L|exact HE]|]. cbv zeta. split; [reflexivity|].
  set (l := combine a b). assert (M : combine (map D a) (map D b) = map (fun xy => (D (fst xy), D (snd xy))) l).
  { unfold l. clear. revert b. induction a as [|x a IH]; intros [|y b]; cbn; try reflexivity. f_equal. apply IH. }
  assert (HW : Forall (fun xy => w32 (fst xy) /\ w32 (snd xy)) l).
  { apply Forall_forall. rewrite Forall_forall in Ha, Hb. intros [x y] Hp. split; [apply Ha; apply (in_combine_l _ _ _ _ Hp)|apply Hb; apply (in_combine_r _ _ _ _ Hp)]. }
  assert (N : length l = length a) by (unfold l; rewrite combine_length; lia). clearbody l.
  assert (W0 : w32 0) by (unfold w32; lia).
  pose proof (bpow_ge_0 radix2 (-24)) as P1. pose proof (bpow_ge_0 radix2 (-150)) as P3. assert (P4 : (0 <= bpow radix2 (-24) * bpow radix2 (-150))%R) by (apply Rmult_le_pos; assumption).
  destruct (gen_loop (fun a xy => soft_add_mul 32 a (fst xy) (snd xy)) w32 (fun xy => w32 (fst xy) /\ w32 (snd xy)) (fun z => finite_v (decode754 8 23 z)) (fun z => rv (decode754 8 23 z))
    (fun xy => rv (decode754 8 23 (fst xy)) * rv (decode754 8 23 (snd xy)))%R (bpow radix2 (-24)) (bpow radix2 (-24)) ((1 + bpow radix2 (-24)) * bpow radix2 (-150) + bpow radix2 (-150)) P1 P1 ltac:(lra)) with (l := l) (acc := 0) as (z & Z1 & Z2 & Z3).
  { intros acc [x y] Hx0 [Hx Hy]. cbn [fst snd] in *. destruct (soft_mac 32 acc x y ltac:(lia) Hx0 Hx Hy) as (q & Q1 & Q2 & _ & Q3). exists q. split; [exact Q1|]. split; [exact Q2|exact Q3]. }
  { exact HW. } { exact W0. } { reflexivity. }
  destruct (soft_loop 32 l ltac:(lia) HW 0 W0) as (z' & Z1' & Z4). rewrite Z1 in Z1'. injection Z1' as <-.
  intros Fv. assert (EQ : dot754 8 23 (combine (map D a) (map D b)) = D z) by (rewrite M; unfold dot754; symmetry; exact Z4). rewrite EQ in Fv |- *.
  destruct (Z3 Fv) as [_ Z5]. unfold Rdot, Rabsdot. rewrite M, !map_map. cbn [fst snd pow]. rewrite N in Z5.
  replace (bpow radix2 (-149)) with (2 * bpow radix2 (-150))%R by (change (-149) with (1 + -150); rewrite (bpow_plus radix2 1 (-150)); cbn; ring).
  rewrite (Rmult_comm (1 + bpow radix2 (-24)) (_ ^ length a)). eapply Rle_trans; [exact Z5|]. apply Rplus_le_compat_l.
  assert (PW : (0 <= (1 + bpow radix2 (-24)) ^ length a)%R) by (apply pow_le; lra).
  rewrite !Rmult_assoc. apply Rmult_le_compat_l; [apply pos_INR|]. apply Rmult_le_compat_l; [exact PW|]. lra.
Qed.

(** ** Sum of four *)
Lemma vec4_err d e a b c f s t r : (0 <= d)%R -> (0 <= e)%R -> (Rabs (s - (a + b)) <= d * Rabs (a + b) + e)%R -> (Rabs (t - (c + f)) <= d * Rabs (c + f) + e)%R -> (Rabs (r - (s + t)) <= d * Rabs (s + t) + e)%R ->
  (Rabs (r - (a + b + c + f)) <= ((1 + d) ^ 2 - 1) * (Rabs a + Rabs b + Rabs c + Rabs f) + (3 + 2 * d) * e)%R.
Proof.
  intros Hd He H1 H2 H3. pose proof (Rabs_triang a b) as T1. pose proof (Rabs_triang c f) as T2.
  assert (S1 : (Rabs s <= Rabs (a + b) + (d * Rabs (a + b) + e))%R) by (replace s with ((a + b) + (s - (a + b)))%R by ring; eapply Rle_trans; [apply Rabs_triang|lra]).
  assert (S2 : (Rabs t <= Rabs (c + f) + (d * Rabs (c + f) + e))%R) by (replace t with ((c + f) + (t - (c + f)))%R by ring; eapply Rle_trans; [apply Rabs_triang|lra]).
  pose proof (Rabs_triang s t) as T3.
  assert (R : (Rabs (r - (a + b + c + f)) <= Rabs (r - (s + t)) + Rabs (s - (a + b)) + Rabs (t - (c + f)))%R).
  { replace (r - (a + b + c + f))%R with ((r - (s + t)) + (s - (a + b)) + (t - (c + f)))%R by ring. eapply Rle_trans; [apply Rabs_triang|]. apply Rplus_le_compat_r. apply Rabs_triang. }
  set (A := (Rabs a + Rabs b)%R) in *. set (B := (Rabs c + Rabs f)%R) in *.
  assert (D1 : (d * Rabs (a + b) <= d * A)%R) by (apply Rmult_le_compat_l; lra). assert (D2 : (d * Rabs (c + f) <= d * B)%R) by (apply Rmult_le_compat_l; lra).
  assert (D3 : (d * Rabs (s + t) <= d * (A + (d * A + e) + (B + (d * B + e))))%R) by (apply Rmult_le_compat_l; lra).
  replace (((1 + d) ^ 2 - 1) * (A + Rabs c + Rabs f) + (3 + 2 * d) * e)%R with (d * (A + (d * A + e) + (B + (d * B + e))) + e + (d * A + e) + (d * B + e))%R by (unfold B; ring). lra.
Qed.
Theorem vec4_wrapper E F a b c d : dual_ok_width E F -> wf (E + F + 3) a -> wf (E + F + 3) b -> wf (E + F + 3) c -> wf (E + F + 3) d ->
  exists r, fp_sum_vec4_balanced (wrapper E F) a b c d = Some r /\ wf (E + F + 3) r /\ let D := decode E F in
  D r = add_spec E F (add_spec E F (D a) (D b)) (add_spec E F (D c) (D d)) /\
  (finite_v (D r) -> let u := bpow radix2 (- (F + 1)) in
    (Rabs (rv (D r) - (rv (D a) + rv (D b) + rv (D c) + rv (D d))) <= ((1 + u) ^ 2 - 1) * (Rabs (rv (D a)) + Rabs (rv (D b)) + Rabs (rv (D c)) + Rabs (rv (D d))) + (3 + 2 * u) * bpow radix2 (emin E))%R).
Proof.
  intros W Wa Wb Wc Wd. destruct (dual_err E F a b W Wa Wb) as (s & S1 & S2 & S3 & S4). destruct (dual_err E F c d W Wc Wd) as (t & T1 & T2 & T3 & T4). destruct (dual_err E F s t W S2 T2) as (r & R1 & R2 & R3 & R4).
  exists r. unfold fp_sum_vec4_balanced. change (plus (wrapper E F)) with (full_add E F). rewrite S1. cbn [bind]. rewrite T1. cbn [bind]. split; [exact R1|]. split; [exact R2|]. cbv zeta.
  split; [rewrite R3, S3, T3; reflexivity|]. intros Fr. destruct (R4 Fr) as (F1 & F2 & R5). destruct (S4 F1) as (_ & _ & S5). destruct (T4 F2) as (_ & _ & T5).
  exact (vec4_err _ _ _ _ _ _ _ _ _ (bpow_ge_0 _ _) (bpow_ge_0 _ _) S5 T5 R5).
Qed.
Theorem vec4_float a b c d : w32 a -> w32 b -> w32 c -> w32 d -> let D := decode754 8 23 in
  exists v, fp_sum_vec4_balanced (native 8 23) (D a) (D b) (D c) (D d) = Some v /\ v = add754 8 23 (add754 8 23 (D a) (D b)) (add754 8 23 (D c) (D d)) /\
  (finite_v v -> let u := bpow radix2 (-24) in
    (Rabs (rv v - (rv (D a) + rv (D b) + rv (D c) + rv (D d))) <= ((1 + u) ^ 2 - 1) * (Rabs (rv (D a)) + Rabs (rv (D b)) + Rabs (rv (D c)) + Rabs (rv (D d))) + (3 + 2 * u) * bpow radix2 (-150))%R).
Proof.
  intros Wa Wb Wc Wd D. eexists. split; [reflexivity|]. split; [reflexivity|].
  destruct (f32_add_err 32 a b ltac:(lia) Wa Wb) as (s & S1 & S2 & S3 & S4). destruct (f32_add_err 32 c d ltac:(lia) Wc Wd) as (t & T1 & T2 & T3 & T4). destruct (f32_add_err 32 s t ltac:(lia) S2 T2) as (r & R1 & R2 & R3 & R4).
  unfold D. rewrite <- S3, <- T3, <- R3. intros Fr. destruct (R4 Fr) as (F1 & F2 & R5). destruct (S4 F1) as (_ & _ & S5). destruct (T4 F2) as (_ & _ & T5).
  exact (vec4_err _ _ _ _ _ _ _ _ _ (bpow_ge_0 _ _) (bpow_ge_0 _ _) S5 T5 R5).
Qed.
