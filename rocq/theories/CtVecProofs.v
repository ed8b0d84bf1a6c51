(** Compile-time vectors behave as arrays. *)
From Coq Require Import ZArith Bool List Lia Permutation Sorting.Sorted.
From Verif Require Import Fw FwLemmas SpecCt Lcg LcgProofs CtVec.
Import ListNotations.
Open Scope Z_scope.

Section Laws.
Context {T : Type}.
Implicit Types (t : vec T) (l : list T).

Lemma vN_len t : vN t = Z.of_nat (length (velems t)).
Proof. induction t as [| |a IHa b IHb]; cbn [vN velems]; [reflexivity|reflexivity|]. rewrite app_length, IHa, IHb. lia. Qed.
Lemma vfull_pos t : vfull t = true -> 0 < vN t.
Proof.
  induction t as [| |a IHa b IHb]; cbn [vN vfull]; intros H; [discriminate|lia|].
  apply andb_true_iff in H. destruct H as [Ha Hb]. specialize (IHa Ha). specialize (IHb Hb). lia.
Qed.
Lemma vshape_vN t : vN (vshape t) = vN t.
Proof. induction t; cbn; congruence. Qed.
Lemma vshape_vfull t : vfull (vshape t) = vfull t.
Proof. induction t; cbn; congruence. Qed.
Lemma shape_vN t t' : vshape t = vshape t' -> vN t = vN t'.
Proof. intros H. rewrite <- (vshape_vN t), H. apply vshape_vN. Qed.
Lemma shape_vfull t t' : vshape t = vshape t' -> vfull t = vfull t'.
Proof. intros H. rewrite <- (vshape_vfull t), H. apply vshape_vfull. Qed.

(** The element an index reaches: those outside the vector reach its ends. *)
Definition clamp (n i : Z) : nat := Z.to_nat (Z.max 0 (Z.min i (n - 1))).
Lemma clamp_in n i : 0 <= i < n -> clamp n i = Z.to_nat i.
Proof. intros. unfold clamp. f_equal. lia. Qed.

Lemma vread_clamp t : vfull t = true -> forall i, vread i t = nth_error (velems t) (clamp (vN t) i) /\ vread i t <> None.
Proof.
  induction t as [|v|a IHa b IHb]; cbn [vN vfull]; intros H i; [discriminate| |].
  - cbn [vread velems]. replace (clamp 1 i) with O by (unfold clamp; lia). split; [reflexivity|discriminate].
  - apply andb_true_iff in H. destruct H as [Ha Hb]. destruct (IHa Ha i) as [Ea Na]. destruct (IHb Hb (i - vN a)) as [Eb Nb].
    pose proof (vfull_pos a Ha) as Pa. pose proof (vfull_pos b Hb) as Pb. cbn [vread velems].
    destruct (vread i a) as [x|] eqn:E1; [|congruence]. destruct (vread (i - vN a) b) as [y|] eqn:E2; [|congruence]. cbn [bind].
    split; [|discriminate]. pose proof (vN_len a) as La. pose proof (vN_len b) as Lb. destruct (Z.ltb_spec i (vN a)).
    + replace (clamp (vN a + vN b) i) with (clamp (vN a) i) by (unfold clamp; lia). rewrite nth_error_app1 by (unfold clamp; lia). exact Ea.
    + rewrite nth_error_app2 by (unfold clamp; lia).
      replace (clamp (vN a + vN b) i - length (velems a))%nat with (clamp (vN b) (i - vN a)) by (unfold clamp; lia). exact Eb.
Qed.
Lemma vread_in t i : vfull t = true -> 0 <= i < vN t -> vread i t = nth_error (velems t) (Z.to_nat i).
Proof. intros H Hi. rewrite (proj1 (vread_clamp t H i)), clamp_in by exact Hi. reflexivity. Qed.

Lemma put_length l : forall i w, length (put i w l) = length l.
Proof. induction l as [|a l IH]; intros [|i] w; cbn; congruence. Qed.
Lemma put_app1 l : forall l' i w, (i < length l)%nat -> put i w (l ++ l') = put i w l ++ l'.
Proof. induction l as [|a l IH]; intros l' [|i] w H; cbn in *; try lia; [reflexivity|]. rewrite IH by lia. reflexivity. Qed.
Lemma put_app2 l : forall l' i w, (length l <= i)%nat -> put i w (l ++ l') = l ++ put (i - length l) w l'.
Proof. induction l as [|a l IH]; intros l' i w H; cbn [app length] in *; [rewrite Nat.sub_0_r; reflexivity|]. destruct i as [|i]; [lia|]. cbn [put]. rewrite IH by lia. reflexivity. Qed.
Lemma put_same l : forall i w, (i < length l)%nat -> nth_error (put i w l) i = Some w.
Proof. induction l as [|a l IH]; intros [|i] w H; cbn in *; try lia; [reflexivity|]. apply IH. lia. Qed.
Lemma put_other l : forall i j w, i <> j -> nth_error (put i w l) j = nth_error l j.
Proof. induction l as [|a l IH]; intros [|i] [|j] w H; cbn; try reflexivity; try lia. apply IH. lia. Qed.

Lemma vwrite_clamp w t : vfull t = true -> forall i, exists t', vwrite i w t = Some t' /\
  velems t' = put (clamp (vN t) i) w (velems t) /\ vshape t' = vshape t.
Proof.
  induction t as [|v|a IHa b IHb]; cbn [vN vfull]; intros H i; [discriminate| |].
  - cbn [vwrite velems]. replace (clamp 1 i) with O by (unfold clamp; lia). exists (Leaf w). split; [reflexivity|]. split; reflexivity.
  - apply andb_true_iff in H. destruct H as [Ha Hb]. destruct (IHa Ha i) as (a' & Ea & Va & Sa). destruct (IHb Hb (i - vN a)) as (b' & Eb & Vb & Sb).
    pose proof (vfull_pos a Ha) as Pa. pose proof (vfull_pos b Hb) as Pb. cbn [vwrite]. rewrite Ea, Eb. cbn [bind].
    pose proof (vN_len a) as La. pose proof (vN_len b) as Lb.
    eexists. split; [reflexivity|]. destruct (Z.ltb_spec i (vN a)); cbn [velems vshape].
    + rewrite put_app1 by (unfold clamp; lia). rewrite Va, Sa. split; [|reflexivity]. f_equal. f_equal. unfold clamp. lia.
    + rewrite put_app2 by (unfold clamp; lia). rewrite Vb, Sb. split; [|reflexivity]. f_equal. f_equal. unfold clamp. lia.
Qed.
Lemma vwrite_in w t i : vfull t = true -> 0 <= i < vN t -> exists t', vwrite i w t = Some t' /\
  velems t' = put (Z.to_nat i) w (velems t) /\ vshape t' = vshape t.
Proof. intros H Hi. destruct (vwrite_clamp w t H i) as (t' & E & V & Sh). rewrite clamp_in in V by exact Hi. exists t'. auto. Qed.

Lemma vread_empty t : vfull t = false -> forall i, vread i t = None.
Proof.
  induction t as [|v|a IHa b IHb]; cbn [vfull]; intros H i; [reflexivity|discriminate|]. cbn [vread].
  apply andb_false_iff in H. destruct H as [H|H]; [rewrite IHa by exact H; reflexivity|]. rewrite IHb by exact H. destruct (vread i a); reflexivity.
Qed.
Lemma vwrite_empty w t : vfull t = false -> forall i, vwrite i w t = None.
Proof.
  induction t as [|v|a IHa b IHb]; cbn [vfull]; intros H i; [reflexivity|discriminate|]. cbn [vwrite].
  apply andb_false_iff in H. destruct H as [H|H]; [rewrite IHa by exact H; reflexivity|]. rewrite IHb by exact H. destruct (vwrite i w a); reflexivity.
Qed.

Lemma exchange_nth i j l k : (i < length l)%nat -> (j < length l)%nat ->
  nth_error (exchange i j l) k = nth_error l (if (k =? i)%nat then j else if (k =? j)%nat then i else k).
Proof.
  intros Hi Hj. unfold exchange. destruct (nth_error l i) as [a|] eqn:Ea; [|apply nth_error_None in Ea; lia].
  destruct (nth_error l j) as [b|] eqn:Eb; [|apply nth_error_None in Eb; lia].
  destruct (Nat.eqb_spec k i) as [->|N1]; [rewrite put_same by (rewrite put_length; lia); congruence|].
  rewrite put_other by lia. destruct (Nat.eqb_spec k j) as [->|N2]; [rewrite put_same by lia; congruence|]. apply put_other. lia.
Qed.
Lemma exchange_length i j l : length (exchange i j l) = length l.
Proof. unfold exchange. destruct (nth_error l i); [|reflexivity]. destruct (nth_error l j); [|reflexivity]. rewrite !put_length. reflexivity. Qed.
Lemma exchange_perm i j l : (i < length l)%nat -> (j < length l)%nat -> Permutation l (exchange i j l).
Proof.
  intros Hi Hj. apply Permutation_nth_error. split; [symmetry; apply exchange_length|].
  exists (fun k => if (k =? i)%nat then j else if (k =? j)%nat then i else k). split.
  - intros x y. cbv beta. destruct (Nat.eqb_spec x i), (Nat.eqb_spec y i), (Nat.eqb_spec x j), (Nat.eqb_spec y j); lia.
  - intros k. apply exchange_nth; assumption.
Qed.

Lemma vswap_ok i j t : vfull t = true -> 0 <= i < vN t -> 0 <= j < vN t -> exists t', vswap i j t = Some t' /\
  velems t' = exchange (Z.to_nat i) (Z.to_nat j) (velems t) /\ vshape t' = vshape t.
Proof.
  intros H Hi Hj. unfold vswap, exchange. pose proof (vN_len t) as L.
  rewrite (vread_in t i), (vread_in t j) by assumption.
  destruct (nth_error (velems t) (Z.to_nat i)) as [a|] eqn:Ea; [|apply nth_error_None in Ea; lia].
  destruct (nth_error (velems t) (Z.to_nat j)) as [b|] eqn:Eb; [|apply nth_error_None in Eb; lia]. cbn [bind].
  destruct (vwrite_in a t j H Hj) as (t1 & E1 & V1 & S1). rewrite E1. cbn [bind].
  destruct (vwrite_in b t1 i) as (t2 & E2 & V2 & S2); [rewrite (shape_vfull _ _ S1); exact H|rewrite (shape_vN _ _ S1); exact Hi|].
  exists t2. split; [exact E2|]. split; [rewrite V2, V1; reflexivity|]. rewrite S2. exact S1.
Qed.

(** ** Permuting *)
Lemma vpermute_generic {G} (value : G -> Z) (next : G -> option G) (P : G -> Prop) :
  (forall g, P g -> 0 <= value g /\ exists g', next g = Some g' /\ P g') ->
  forall n g t, vfull t = true -> (1 <= n)%nat -> Z.of_nat n <= vN t -> P g ->
  exists t' g', vpermute_impl value next n g t = Some (t', g') /\ Permutation (velems t) (velems t') /\ vshape t' = vshape t /\ P g'.
Proof.
  intros HP. induction n as [|n IH]; intros g t H Hn HN Hg; [lia|]. destruct n as [|n].
  - exists t, g. split; [reflexivity|]. split; [apply Permutation_refl|]. split; [reflexivity|exact Hg].
  - remember (S n) as m eqn:Em. cbn [vpermute_impl]. rewrite Em. rewrite <- Em. destruct (HP g Hg) as (Hv & g1 & Eg & Hg1).
    assert (Hs : 0 <= Z.shiftr (value g) 16) by (apply Z.shiftr_nonneg; exact Hv).
    rewrite Z.rem_mod_nonneg by lia. pose proof (Z.mod_pos_bound (Z.shiftr (value g) 16) (Z.of_nat (S m)) ltac:(lia)) as Hr.
    remember (Z.shiftr (value g) 16 mod Z.of_nat (S m)) as r eqn:Er. clear Er.
    unfold assert_. destruct (Z.ltb_spec (Z.of_nat (S m) - 1) (vN t)); [|lia]. destruct (Z.ltb_spec r (vN t)); [|lia]. cbn [andb bind].
    destruct (vswap_ok (Z.of_nat (S m) - 1) r t H) as (t1 & E1 & V1 & S1); [lia|lia|]. rewrite E1, Eg. cbn [bind].
    destruct (IH g1 t1) as (t' & g' & E & Pm & Sh & Hg'); [rewrite (shape_vfull _ _ S1); exact H|lia|rewrite (shape_vN _ _ S1); lia|exact Hg1|].
    exists t', g'. split; [exact E|]. split; [|split; [congruence|exact Hg']].
    eapply Permutation_trans; [|exact Pm]. rewrite V1. pose proof (vN_len t). apply exchange_perm; lia.
Qed.
Lemma vpermute_shuffle (next : Z -> Z) (nexto : Z -> option Z) (B : Z) :
  (forall x, 0 <= x < B -> nexto x = Some (next x) /\ 0 <= next x < B) ->
  forall n x t, vfull t = true -> (1 <= n)%nat -> Z.of_nat n <= vN t -> 0 <= x < B ->
  exists t', vpermute_impl (fun y => y) nexto n x t = Some (t', snd (shuffle next n x (velems t))) /\
    velems t' = fst (shuffle next n x (velems t)) /\ vshape t' = vshape t.
Proof.
  intros HP. induction n as [|n IH]; intros x t H Hn HN Hx; [lia|]. destruct n as [|n].
  - exists t. split; [reflexivity|]. split; reflexivity.
  - remember (S n) as m eqn:Em. cbn [vpermute_impl shuffle]. rewrite Em. rewrite <- Em. destruct (HP x Hx) as (Eg & Hg1).
    rewrite Z.shiftr_div_pow2 by lia. assert (Hs : 0 <= x / 2 ^ 16) by (apply Z.div_pos; lia).
    rewrite Z.rem_mod_nonneg by lia. pose proof (Z.mod_pos_bound (x / 2 ^ 16) (Z.of_nat (S m)) ltac:(lia)) as Hr.
    remember ((x / 2 ^ 16) mod Z.of_nat (S m)) as r eqn:Er. clear Er.
    unfold assert_. destruct (Z.ltb_spec (Z.of_nat (S m) - 1) (vN t)); [|lia]. destruct (Z.ltb_spec r (vN t)); [|lia]. cbn [andb bind].
    destruct (vswap_ok (Z.of_nat (S m) - 1) r t H) as (t1 & E1 & V1 & S1); [lia|lia|]. rewrite E1, Eg. cbn [bind].
    destruct (IH (next x) t1) as (t' & E & V & Sh); [rewrite (shape_vfull _ _ S1); exact H|lia|rewrite (shape_vN _ _ S1); lia|exact Hg1|].
    exists t'. replace (Z.to_nat (Z.of_nat (S m) - 1)) with m in V1 by lia. rewrite <- V1. split; [exact E|]. split; [exact V|congruence].
Qed.
Lemma shuffle_SS (next : Z -> Z) n x l : shuffle next (S (S n)) x l =
  shuffle next (S n) (next x) (exchange (S n) (Z.to_nat ((x / 2 ^ 16) mod Z.of_nat (S (S n)))) l).
Proof. reflexivity. Qed.
Lemma shuffle_state (next : Z -> Z) n : forall x l, snd (shuffle next n x l) = Nat.iter (n - 1) next x.
Proof.
  induction n as [|n IH]; intros x l; [reflexivity|]. destruct n as [|n]; [reflexivity|].
  rewrite shuffle_SS, IH.
  replace (S (S n) - 1)%nat with ((S n - 1) + 1)%nat by lia. rewrite iter_add. reflexivity.
Qed.
Lemma shuffle_perm (next : Z -> Z) n : forall x l, (n <= length l)%nat -> Permutation l (fst (shuffle next n x l)).
Proof.
  induction n as [|n IH]; intros x l H; [apply Permutation_refl|]. destruct n as [|n]; [apply Permutation_refl|].
  rewrite shuffle_SS.
  pose proof (Z.mod_pos_bound (x / 2 ^ 16) (Z.of_nat (S (S n))) ltac:(lia)) as Hr.
  eapply Permutation_trans; [|apply IH; rewrite exchange_length; lia]. apply exchange_perm; lia.
Qed.

(** ** Creating *)
Lemma half n : 2 <= n -> 1 <= Z.quot n 2 < n /\ 1 <= n - Z.quot n 2 < n /\ 2 * Z.quot n 2 <= n <= 2 * Z.quot n 2 + 1.
Proof. intros. rewrite Z.quot_div_nonneg by lia. pose proof (Z.div_mod n 2 ltac:(lia)). pose proof (Z.mod_pos_bound n 2 ltac:(lia)). lia. Qed.
Lemma vcreate_ok (v : T) f : forall n, 1 <= n <= 2 ^ Z.of_nat f ->
  exists t, vcreate (S f) n v = Some t /\ vfull t = true /\ velems t = repeat v (Z.to_nat n).
Proof.
  induction f as [|f IH]; intros n Hn.
  - change (2 ^ Z.of_nat 0) with 1 in Hn. replace n with 1 by lia. exists (Leaf v). split; [reflexivity|]. split; reflexivity.
  - remember (S f) as m eqn:Em. cbn [vcreate]. destruct (Z.eqb_spec n 1) as [->|N1]; [exists (Leaf v); split; [reflexivity|]; split; reflexivity|].
    destruct (Z.eqb_spec n 0); [lia|]. destruct (half n ltac:(lia)) as (H1 & H2 & H3).
    rewrite Em, Nat2Z.inj_succ, Z.pow_succ_r in Hn by lia.
    destruct (IH (Z.quot n 2) ltac:(lia)) as (a & Ea & Fa & Va). destruct (IH (n - Z.quot n 2) ltac:(lia)) as (b & Eb & Fb & Vb).
    rewrite Ea, Eb. cbn [bind]. exists (Branch a b). split; [reflexivity|]. cbn [vfull velems]. rewrite Fa, Fb, Va, Vb. split; [reflexivity|].
    rewrite <- repeat_app. f_equal. lia.
Qed.
Lemma vrot_ok (mk : Z -> T) m f : m <> 0 -> forall n o, 1 <= n <= 2 ^ Z.of_nat f ->
  exists t, vrot (S f) mk o n m = Some t /\ vfull t = true /\ velems t = map (fun i => mk (Z.rem (o + Z.of_nat i) m)) (seq 0 (Z.to_nat n)).
Proof.
  intros Hm. induction f as [|f IH]; intros n o Hn.
  - change (2 ^ Z.of_nat 0) with 1 in Hn. replace n with 1 by lia. cbn [vrot]. rewrite Z.eqb_refl. unfold assert_. destruct (Z.eqb_spec m 0); [lia|].
    eexists. split; [reflexivity|]. split; [reflexivity|]. change (Z.to_nat 1) with 1%nat. cbn [velems seq map]. change (Z.of_nat 0) with 0. rewrite Z.add_0_r. reflexivity.
  - remember (S f) as k eqn:Ek. cbn [vrot]. destruct (Z.eqb_spec n 1) as [->|N1].
    { unfold assert_. destruct (Z.eqb_spec m 0); [lia|]. eexists. split; [reflexivity|]. split; [reflexivity|]. change (Z.to_nat 1) with 1%nat. cbn [velems seq map]. change (Z.of_nat 0) with 0. rewrite Z.add_0_r. reflexivity. }
    destruct (half n ltac:(lia)) as (H1 & H2 & H3). rewrite Ek, Nat2Z.inj_succ, Z.pow_succ_r in Hn by lia.
    destruct (IH (Z.quot n 2) o ltac:(lia)) as (a & Ea & Fa & Va). destruct (IH (n - Z.quot n 2) (o + Z.quot n 2) ltac:(lia)) as (b & Eb & Fb & Vb).
    rewrite Ea, Eb. cbn [bind]. exists (Branch a b). split; [reflexivity|]. cbn [vfull velems]. rewrite Fa, Fb, Va, Vb. split; [reflexivity|].
    replace (Z.to_nat n) with (Z.to_nat (Z.quot n 2) + Z.to_nat (n - Z.quot n 2))%nat by lia. rewrite seq_app, map_app. f_equal.
    rewrite <- (map_map (fun i => (i + Z.to_nat (Z.quot n 2))%nat) (fun i => mk (Z.rem (o + Z.of_nat i) m))) || idtac.
    cbn [Nat.add]. remember (Z.to_nat (Z.quot n 2)) as q eqn:Eq.
    assert (G : forall c d, map (fun i => mk (Z.rem (o + Z.quot n 2 + Z.of_nat i) m)) (seq c d) = map (fun i => mk (Z.rem (o + Z.of_nat i) m)) (seq (q + c) d)).
    { intros c d. revert c. induction d as [|d IHd]; intros c; [reflexivity|]. cbn [seq map]. f_equal; [f_equal; f_equal; lia|].
      rewrite IHd. f_equal. f_equal. lia. }
    rewrite G, Nat.add_0_r. reflexivity.
Qed.

(** ** Traversal *)
Lemma vfor_each_ok t : vfull t = true -> forall off,
  vfor_each off t = Some (combine (map (fun i => off + Z.of_nat i) (seq 0 (length (velems t)))) (velems t)).
Proof.
  assert (Cmb : forall (a b : list T) off, combine (map (fun i => off + Z.of_nat i) (seq 0 (length (a ++ b)))) (a ++ b) =
     combine (map (fun i => off + Z.of_nat i) (seq 0 (length a))) a ++ combine (map (fun i => off + Z.of_nat (length a) + Z.of_nat i) (seq 0 (length b))) b).
  { induction a as [|x a IHa]; intros b off; cbn [app length seq map combine].
    - f_equal. apply map_ext. intros. lia.
    - f_equal. rewrite <- !seq_shift, !map_map.
      specialize (IHa b (off + 1)). rewrite !(map_ext (fun x0 => off + Z.of_nat (S x0)) (fun i => off + 1 + Z.of_nat i)) by (intros; lia).
      rewrite IHa. f_equal. f_equal. apply map_ext. intros. lia. }
  induction t as [|v|a IHa b IHb]; cbn [vfull]; intros H off; [discriminate| |].
  - cbn. rewrite Z.add_0_r. reflexivity.
  - apply andb_true_iff in H. destruct H as [Ha Hb]. cbn [vfor_each velems]. rewrite IHa, IHb by assumption. cbn [bind]. rewrite Cmb, vN_len. reflexivity.
Qed.
End Laws.
