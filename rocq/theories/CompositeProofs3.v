(** The matrix products. *)
From Coq Require Import ZArith List Bool Lia.
From Verif Require Import Fw Spec Spec754 SpecApp SpecComposite App AppProofs7 Composite CompositeProofs CompositeProofs2.
Import ListNotations.
Open Scope Z_scope.

Lemma Zsum_app l m : Zsum (l ++ m) = Zsum l + Zsum m.
Proof. unfold Zsum. induction l as [|x l IH]; cbn; [reflexivity|]. rewrite IH. lia. Qed.
Lemma loop_sum (f : nat -> Z) l : forall acc, loop (fun acc i => Some (acc + f i)) acc l = Some (acc + Zsum (map f l)).
Proof. induction l as [|i l IH]; intros acc; cbn [loop map]; [unfold Zsum; cbn; f_equal; lia|]. cbn [bind]. rewrite IH. unfold Zsum. cbn. f_equal. lia. Qed.
Lemma loop_ext_in {A S} (f g : S -> A -> option S) l : (forall s a, In a l -> f s a = g s a) -> forall s, loop f s l = loop g s l.
Proof. intros H s. rewrite <- (map_id l) at 2. apply loop_map. exact H. Qed.
Definition mmm_at (n : nat) (a b : list Z) (r c : nat) : Z := Zsum (map (fun i => nth (r * n + i) a 0 * nth (r * i + c) b 0) (seq 0 n)).
Lemma exact_cell n a b r c : (r < n)%nat -> (c < n)%nat -> length a = (n * n)%nat -> length b = (n * n)%nat -> mmm_cell exact n a b r c = Some (mmm_at n a b r c).
Proof.
  intros Hr Hc La Lb. unfold mmm_cell. cbn [exact dflt bind].
  rewrite (loop_ext_in _ (fun acc i => Some (acc + nth (r * n + i) a 0 * nth (r * i + c) b 0))). { rewrite loop_sum. reflexivity. }
  intros s i Hi. apply in_seq in Hi. change (prod_at _ a b) with (prod_at exact a b). rewrite (prod_at_ok _ 0); [reflexivity| |]; rewrite ?La, ?Lb; [apply idx_lt; lia|apply idx_lt2; lia].
Qed.
Lemma pair_sum (f : nat -> Z) m : forall s, Zsum (map f (seq (2 * s) (2 * m))) = Zsum (map (fun k => f (2 * k)%nat + f (2 * k + 1)%nat) (seq s m)).
Proof. induction m as [|m IH]; intros s; [reflexivity|]. rewrite seq_two. cbn [seq map]. unfold Zsum in *. cbn [fold_right]. rewrite (IH (S s)). lia. Qed.
Lemma exact_u2_cell n a b r c : (n mod 2 =? 0)%nat = true -> (r < n)%nat -> (c < n)%nat -> length a = (n * n)%nat -> length b = (n * n)%nat -> mmm_u2_cell exact n a b r c = Some (mmm_at n a b r c).
Proof.
  intros HM Hr Hc La Lb. pose proof (even_half n HM) as HN. unfold mmm_u2_cell. cbn [exact of_zero bind].
  pose (g := fun i => nth (r * n + i) a 0 * nth (r * i + c) b 0).
  rewrite (loop_ext_in _ (fun acc k => Some (acc + (g (2 * k)%nat + g (2 * k + 1)%nat)))).
  { rewrite loop_sum. f_equal. unfold mmm_at. fold g. rewrite <- (pair_sum g (n / 2) 0). rewrite Nat.mul_0_r, <- HN. lia. }
  intros s k Hk. apply in_seq in Hk. cbv zeta. change (prod_at _ a b) with (prod_at exact a b).
  rewrite (prod_at_ok exact 0 a b (r * n + 2 * k)) by (rewrite ?La, ?Lb; first [apply idx_lt; lia|apply idx_lt2; lia]). cbn [exact times bind].
  change (prod_at _ a b) with (prod_at exact a b). rewrite (prod_at_ok exact 0 a b (r * n + 2 * k + 1)) by (rewrite ?La, ?Lb; first [rewrite <- Nat.add_assoc; apply idx_lt; lia|apply idx_lt2; lia]).
  cbn [exact times plus bind]. unfold g. rewrite (Nat.add_assoc (r * n)). reflexivity.
Qed.
Lemma each_value {A B} (f : A -> option B) (g : A -> B) l : (forall x, In x l -> f x = Some (g x)) -> App.each f l = Some (map g l).
Proof. induction l as [|x l IH]; intros H; [reflexivity|]. cbn [App.each map]. rewrite H by (left; reflexivity). cbn [bind]. rewrite IH by (intros; apply H; right; assumption). reflexivity. Qed.
Definition mmm_all (n : nat) (a b : list Z) : list (list Z) := map (fun r => map (mmm_at n a b r) (seq 0 n)) (seq 0 n).
Theorem exact_mmm n a b : length a = (n * n)%nat -> length b = (n * n)%nat -> mmm exact n a b = Some (mmm_all n a b) /\ (Nat.even n = true -> mmm_u2 exact n a b = Some (mmm_all n a b)).
Proof.
  intros La Lb. split.
  - unfold mmm. apply each_value. intros r Hr. apply in_seq in Hr. apply each_value. intros c Hc. apply in_seq in Hc. apply exact_cell; (lia || assumption).
  - intros HE. assert (HM : (n mod 2 =? 0)%nat = true). { apply Nat.eqb_eq. apply Nat.even_spec in HE. destruct HE as [k ->]. rewrite Nat.mul_comm. apply Nat.mod_mul. lia. }
    unfold mmm_u2. rewrite HM. cbn [assert_ bind]. apply each_value. intros r Hr. apply in_seq in Hr. apply each_value. intros c Hc. apply in_seq in Hc. apply exact_u2_cell; (lia || assumption).
Qed.

(** A single one at place k. *)
Definition unit_at (N k : nat) : list Z := map (fun i => if (i =? k)%nat then 1 else 0) (seq 0 N).
Lemma unit_len N k : length (unit_at N k) = N. Proof. unfold unit_at. rewrite map_length, seq_length. reflexivity. Qed.
Lemma unit_nth N k i : (i < N)%nat -> nth i (unit_at N k) 0 = if (i =? k)%nat then 1 else 0.
Proof. intros H. unfold unit_at. rewrite (nth_indep _ 0 (if (0 =? k)%nat then 1 else 0)) by (rewrite map_length, seq_length; exact H). rewrite (map_nth (fun i => if (i =? k)%nat then 1 else 0)). rewrite seq_nth by exact H. reflexivity. Qed.
Lemma Zsum_single (f : nat -> Z) n j : (j < n)%nat -> (forall i, (i < n)%nat -> i <> j -> f i = 0) -> Zsum (map f (seq 0 n)) = f j.
Proof.
  intros Hj H. replace n with (j + (1 + (n - j - 1)))%nat by lia. rewrite seq_app, map_app, Zsum_app. rewrite seq_app, map_app, Zsum_app.
  assert (Z0 : forall s m, (s + m <= n)%nat -> (forall i, (s <= i < s + m)%nat -> i <> j) -> Zsum (map f (seq s m)) = 0).
  { intros s m. revert s. induction m as [|m IH]; intros s B N; [reflexivity|]. cbn [seq map]. unfold Zsum in *. cbn [fold_right]. rewrite H by (try apply N; lia). rewrite IH; [reflexivity|lia|intros i Hi; apply N; lia]. }
  rewrite Z0 by lia. rewrite (Z0 (0 + j + 1)%nat) by lia. cbn. lia.
Qed.
Theorem mmm_wrong n : (2 <= n)%nat -> exists a b m, length a = (n * n)%nat /\ length b = (n * n)%nat /\ mmm exact n a b = Some m /\ (Nat.even n = true -> mmm_u2 exact n a b = Some m) /\
  ~ is_product n a b m /\ product_at n a b 1 0 = 1 /\ exists row, nth_error m 1 = Some row /\ nth_error row 0 = Some 0.
Proof.
  intros H. exists (unit_at (n * n) (n + 1)), (unit_at (n * n) n). destruct (exact_mmm n (unit_at (n * n) (n + 1)) (unit_at (n * n) n)) as [M1 M2]; [apply unit_len..|].
  exists (mmm_all n (unit_at (n * n) (n + 1)) (unit_at (n * n) n)). split; [apply unit_len|]. split; [apply unit_len|]. split; [exact M1|]. split; [exact M2|].
  assert (P : product_at n (unit_at (n * n) (n + 1)) (unit_at (n * n) n) 1 0 = 1).
  { unfold product_at. rewrite (Zsum_single _ n 1); [|lia|].
    - unfold at_rc. rewrite !unit_nth by nia. replace (1 * n + 1 =? n + 1)%nat with true by (symmetry; apply Nat.eqb_eq; lia). replace (1 * n + 0 =? n)%nat with true by (symmetry; apply Nat.eqb_eq; lia). reflexivity.
    - intros i Hi Hn. unfold at_rc. rewrite unit_nth by nia. replace (1 * n + i =? n + 1)%nat with false by (symmetry; apply Nat.eqb_neq; lia). lia. }
  assert (Q : mmm_at n (unit_at (n * n) (n + 1)) (unit_at (n * n) n) 1 0 = 0).
  { unfold mmm_at. rewrite (Zsum_single _ n 1); [|lia|].
    - rewrite (unit_nth _ n) by nia. replace (1 * 1 + 0 =? n)%nat with false by (symmetry; apply Nat.eqb_neq; lia). lia.
    - intros i Hi Hn. rewrite unit_nth by nia. replace (1 * n + i =? n + 1)%nat with false by (symmetry; apply Nat.eqb_neq; lia). lia. }
  assert (R : exists row, nth_error (mmm_all n (unit_at (n * n) (n + 1)) (unit_at (n * n) n)) 1 = Some row /\ nth_error row 0 = Some 0).
  { unfold mmm_all. destruct n as [|[|n]]; [lia|lia|]. eexists. split; [reflexivity|]. rewrite <- Q. reflexivity. }
  split; [|split; [exact P|exact R]]. intros [_ X]. destruct (X 1%nat 0%nat ltac:(lia) ltac:(lia)) as (row & X1 & X2). destruct R as (row' & R1 & R2). rewrite X1 in R1. injection R1 as <-. rewrite X2 in R2. rewrite P in R2. discriminate.
Qed.
(** A row of the first matrix meets the second matrix's first row only, in row 0. *)
Theorem mmm_small n a b : (n <= 1)%nat -> length a = (n * n)%nat -> length b = (n * n)%nat -> exists m, mmm exact n a b = Some m /\ is_product n a b m.
Proof.
  intros H La Lb. destruct (exact_mmm n a b La Lb) as [M _]. eexists. split; [exact M|]. destruct n as [|[|n]]; [|  |lia].
  - split; [reflexivity|]. intros r c Hr. lia.
  - split; [reflexivity|]. intros r c Hr Hc. assert (r = 0%nat) as -> by lia. assert (c = 0%nat) as -> by lia. eexists. split; reflexivity.
Qed.

(** ** Indeterminate accumulators and missing constructors *)
Theorem uninitialised E F n x a b : fp_sum_array (native E F) n x = None /\ fp_dot_product (native E F) n a b = None /\ mmm (native E F) (S n) a b = None.
Proof. split; [reflexivity|]. split; [reflexivity|]. reflexivity. Qed.
Theorem no_zero E F n a b : fp_dot_product_u2 (wrapper E F) n a b = None /\ mmm_u2 (wrapper E F) (S n) a b = None.
Proof. split; [unfold fp_dot_product_u2|unfold mmm_u2]; destruct (_ mod 2 =? 0)%nat; reflexivity. Qed.
(** Over IEEE arithmetic: the two products of a turn are added first. *)
Lemma loop_fold {A S} (f : S -> A -> S) l : forall s, loop (fun s a => Some (f s a)) s l = Some (fold_left f l s).
Proof. induction l as [|a l IH]; intros s; [reflexivity|]. cbn [loop fold_left bind]. apply IH. Qed.
Theorem mmm_u2_native E F n a b : Nat.even n = true -> length a = (n * n)%nat -> length b = (n * n)%nat -> mmm_u2 (native E F) n a b = Some (map (fun r => map (u2_754 E F n a b r) (seq 0 n)) (seq 0 n)).
Proof.
  intros HE La Lb. assert (HM : (n mod 2 =? 0)%nat = true). { apply Nat.eqb_eq. apply Nat.even_spec in HE. destruct HE as [k ->]. rewrite Nat.mul_comm. apply Nat.mod_mul. lia. }
  pose proof (even_half n HM) as HN. unfold mmm_u2. rewrite HM. cbn [assert_ bind]. apply each_value. intros r Hr. apply in_seq in Hr. apply each_value. intros c Hc. apply in_seq in Hc.
  unfold mmm_u2_cell. cbn [native of_zero bind]. unfold u2_754. rewrite <- loop_fold. apply loop_ext_in. intros s k Hk. apply in_seq in Hk. cbv zeta. change (prod_at _ a b) with (prod_at (native E F) a b).
  rewrite (prod_at_ok (native E F) NaN a b (r * n + 2 * k)) by (rewrite ?La, ?Lb; first [apply idx_lt; lia|apply idx_lt2; lia]). cbn [native times bind].
  change (prod_at _ a b) with (prod_at (native E F) a b). rewrite (prod_at_ok (native E F) NaN a b (r * n + 2 * k + 1)) by (rewrite ?La, ?Lb; first [rewrite <- Nat.add_assoc; apply idx_lt; lia|apply idx_lt2; lia]).
  reflexivity.
Qed.
