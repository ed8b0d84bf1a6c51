(** Proofs about the composite kernels. *)
From Coq Require Import ZArith List Bool Lia Reals Lra.
From Flocq Require Import Core.
From Verif Require Import Fw Spec Spec754 SpecFlocq SpecApp SpecComposite Flopoco Mul AddDual AddDualProofs SoftFloat App AppProofs AppProofs2 AppProofs3 AppProofs6 AppProofs7 AppProofs8 AppProofs9 Composite.
Import ListNotations.
Open Scope Z_scope.

Lemma loop_map {A B S} (g : A -> B) (body : S -> A -> option S) (step : S -> B -> option S) l : (forall s a, In a l -> body s a = step s (g a)) -> forall s, loop body s l = loop step s (map g l).
Proof.
  induction l as [|a l IH]; intros H s; [reflexivity|]. cbn [loop map]. rewrite H by (left; reflexivity). destruct (step s (g a)) as [s'|]; [|reflexivity]. cbn [bind]. apply IH. intros s1 a1 H1. apply H. right. exact H1.
Qed.
Lemma map_nth_seq {A} (d : A) l : map (fun i => nth i l d) (seq 0 (length l)) = l.
Proof.
  induction l as [|x l IH]; [reflexivity|]. cbn [length seq map nth]. f_equal. rewrite <- seq_shift, map_map. exact IH.
Qed.
Lemma combine_seq {A B} (d : A) (e : B) a b : length a = length b -> map (fun i => (nth i a d, nth i b e)) (seq 0 (length a)) = combine a b.
Proof.
  revert b. induction a as [|x a IH]; intros [|y b] H; try discriminate; [reflexivity|]. cbn [length seq map nth combine]. f_equal. rewrite <- seq_shift, map_map. apply IH. cbn in H. lia.
Qed.
Lemma nth_error_nth' {A} (d : A) l i : (i < length l)%nat -> nth_error l i = Some (nth i l d). Proof. intros H. apply nth_error_nth'. exact H. Qed.
Lemma prod_at_ok {T} (S : scalar T) d a b i j : (i < length a)%nat -> (j < length b)%nat -> prod_at S a b i j = times S (nth i a d) (nth j b d).
Proof. intros Hi Hj. unfold prod_at. rewrite (nth_error_nth' d) by exact Hi. cbn [bind]. rewrite (nth_error_nth' d) by exact Hj. reflexivity. Qed.

(** ** The wrapper *)
Theorem sum_array_ok E F x : dual_ok_width E F -> Forall (wf (E + F + 3)) x ->
  exists r, fp_sum_array (wrapper E F) (length x) x = Some r /\ wf (E + F + 3) r /\ decode E F r = sum_spec E F (map (decode E F) x) /\
  (finite_v (decode E F r) -> let u := bpow radix2 (- (F + 1)) in let n := Nat.pred (length x) in let xs := map (fun p => rv (decode E F p)) x in
    (Rabs (rv (decode E F r) - Rsum xs) <= ((1 + u) ^ n - 1) * Rabssum xs + INR n * (1 + u) ^ n * bpow radix2 (emin E))%R).
Proof.
  intros W H. destruct (dual_pos E F W) as [HE HF]. assert (W0 : wf (E + F + 3) 0) by (unfold wf; split; [lia|apply Z.pow_pos_nonneg; lia]).
  destruct (loop_add E F x W H 0 W0) as (r & R1 & R2 & R3). exists r. unfold fp_sum_array. cbn [wrapper dflt plus bind].
  rewrite (loop_map (fun i => nth i x 0) _ (fl_add E F)), map_nth_seq. 2: { intros s i Hi. apply in_seq in Hi. rewrite (nth_error_nth' 0) by lia. reflexivity. }
  split; [exact R1|]. split; [exact R2|]. rewrite decode_zero in R3 by lia. split; [exact R3|]. intros Fr. rewrite R3 in Fr |- *. exact (sum_err E F x W H Fr).
Qed.
Definition pairs_ok (E F : Z) (ab : list (Z * Z)) : Prop := Forall (fun p => wf (E + F + 3) (fst p) /\ wf (E + F + 3) (snd p)) ab.
Lemma loop_dots E F ab : dual_ok_width E F -> pairs_ok E F ab -> dots E F ab (loop (mac E F F F) 0 ab).
Proof.
  intros W H. destruct (dual_pos E F W) as [HE HF]. destruct (loop_mac_ok E F F F ab W ltac:(lia) ltac:(lia) ltac:(lia) H) as (r & R1 & R2 & R3 & R4).
  exists r. split; [exact R1|]. split; [exact R2|]. cbv zeta. split; [exact R3|]. intros Fr. exact (R4 Fr).
Qed.
Lemma dot_step E F (a b : list Z) (f g : nat -> nat) l : (forall i, In i l -> (f i < length a /\ g i < length b)%nat) -> forall acc,
  loop (fun acc i => do p <- prod_at (wrapper E F) a b (f i) (g i); fl_add E F acc p) acc l = loop (mac E F F F) acc (map (fun i => (nth (f i) a 0, nth (g i) b 0)) l).
Proof. intros H acc. apply loop_map. intros s i Hi. destruct (H i Hi). rewrite (prod_at_ok _ 0) by lia. reflexivity. Qed.
Theorem dot_product_ok E F a b : dual_ok_width E F -> length a = length b -> Forall (wf (E + F + 3)) a -> Forall (wf (E + F + 3)) b ->
  dots E F (combine a b) (fp_dot_product (wrapper E F) (length a) a b).
Proof.
  intros W L Ha Hb. unfold fp_dot_product. cbn [wrapper dflt bind]. change (plus (wrapper E F)) with (fl_add E F).
  change (plus {| dflt := Some fl_default; of_zero := None; plus := fl_add E F; times := fl_mul E F |}) with (fl_add E F).
  rewrite (dot_step E F a b (fun i => i) (fun i => i)) by (intros i Hi; apply in_seq in Hi; lia). rewrite combine_seq by exact L. apply loop_dots; [exact W|].
  unfold pairs_ok. rewrite Forall_forall in *. intros [x y] Hp. split; [apply Ha; apply (in_combine_l _ _ _ _ Hp)|apply Hb; apply (in_combine_r _ _ _ _ Hp)].
Qed.

Lemma idx_lt n r i : (r < n -> i < n -> r * n + i < n * n)%nat. Proof. nia. Qed.
Lemma idx_lt2 n r i c : (r < n -> i < n -> c < n -> r * i + c < n * n)%nat. Proof. nia. Qed.
Theorem mmm_ok E F n a b : dual_ok_width E F -> length a = (n * n)%nat -> length b = (n * n)%nat -> Forall (wf (E + F + 3)) a -> Forall (wf (E + F + 3)) b ->
  exists m, mmm (wrapper E F) n a b = Some m /\ entries n m (fun r c z => dots E F (mmm_pairs n a b r c) (Some z)).
Proof.
  intros W La Lb Ha Hb. rewrite Forall_forall in Ha, Hb. 
  assert (C : forall r c, (r < n)%nat -> (c < n)%nat -> exists z, mmm_cell (wrapper E F) n a b r c = Some z /\ dots E F (mmm_pairs n a b r c) (Some z)).
  { intros r c Hr Hc. assert (D : dots E F (mmm_pairs n a b r c) (mmm_cell (wrapper E F) n a b r c)).
    { unfold mmm_cell. cbn [wrapper dflt bind]. change (plus {| dflt := Some fl_default; of_zero := None; plus := fl_add E F; times := fl_mul E F |}) with (fl_add E F).
      rewrite (dot_step E F a b (fun i => r * n + i)%nat (fun i => r * i + c)%nat). 2: { intros i Hi. apply in_seq in Hi. rewrite La, Lb. split; [apply idx_lt; lia|apply idx_lt2; lia]. }
      apply loop_dots; [exact W|]. apply Forall_forall. intros p Hp. apply in_map_iff in Hp. destruct Hp as (i & <- & Hi). apply in_seq in Hi. cbn [fst snd].
      split; [apply Ha|apply Hb]; apply nth_In; rewrite ?La, ?Lb; [apply idx_lt; lia|apply idx_lt2; lia]. }
    destruct D as (z & Z1 & Z2). exists z. split; [exact Z1|]. exists z. auto. }
  unfold mmm. destruct (each_ok (fun r => each (mmm_cell (wrapper E F) n a b r) (seq 0 n)) (fun r row => length row = n /\ forall c, (c < n)%nat -> exists z, nth_error row c = Some z /\ dots E F (mmm_pairs n a b r c) (Some z)) (seq 0 n)) as (m & M1 & M2).
  { intros r Hr. apply in_seq in Hr. destruct (each_ok (mmm_cell (wrapper E F) n a b r) (fun c z => dots E F (mmm_pairs n a b r c) (Some z)) (seq 0 n)) as (row & Q1 & Q2).
    { intros c Hc. apply in_seq in Hc. apply C; lia. }
    exists row. split; [exact Q1|]. apply forall2_seq in Q2. exact Q2. }
  exists m. split; [exact M1|]. apply forall2_seq in M2. exact M2.
Qed.
