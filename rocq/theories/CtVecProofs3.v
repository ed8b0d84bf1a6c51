(** Vector laws in the form the properties use. *)
From Coq Require Import ZArith Bool List Lia Permutation Sorting.Sorted.
From Verif Require Import Fw FwLemmas SpecCt Lcg LcgProofs CtVec CtVecProofs CtVecProofs2 LutOpt LutOptProofs LutOptProofs2.
Import ListNotations.
Open Scope Z_scope.

Lemma read_elems {T} (t : vec T) i : vfull t = true -> 0 <= i < vN t -> exists v, vread i t = Some v /\ nth_error (velems t) (Z.to_nat i) = Some v.
Proof.
  intros F Hi. rewrite vread_in by assumption. destruct (nth_error (velems t) (Z.to_nat i)) as [v|] eqn:E; [exists v; split; reflexivity|].
  apply nth_error_None in E. pose proof (vN_len t). lia.
Qed.
Lemma write_laws {T} (t : vec T) i w : vfull t = true -> 0 <= i < vN t ->
  exists t', vwrite i w t = Some t' /\ vfull t' = true /\ vN t' = vN t /\ vread i t' = Some w /\
    forall j, 0 <= j < vN t -> j <> i -> vread j t' = vread j t.
Proof.
  intros F Hi. destruct (vwrite_in w t i F Hi) as (t' & E & V & Sh). pose proof (shape_vN _ _ Sh) as N'. pose proof (shape_vfull _ _ Sh) as F'.
  pose proof (vN_len t) as L. exists t'. split; [exact E|]. split; [congruence|]. split; [exact N'|]. split.
  - rewrite vread_in by (congruence || lia). rewrite V. apply put_same. lia.
  - intros j Hj Hne. rewrite !vread_in by (congruence || lia). rewrite V. apply put_other. lia.
Qed.
Lemma swap_laws {T} (t : vec T) i j : vfull t = true -> 0 <= i < vN t -> 0 <= j < vN t ->
  exists t', vswap i j t = Some t' /\ vfull t' = true /\ vN t' = vN t /\ vread i t' = vread j t /\ vread j t' = vread i t /\
    forall k, 0 <= k < vN t -> k <> i -> k <> j -> vread k t' = vread k t.
Proof.
  intros F Hi Hj. destruct (vswap_ok i j t F Hi Hj) as (t' & E & V & Sh). pose proof (shape_vN _ _ Sh) as N'. pose proof (shape_vfull _ _ Sh) as F'.
  pose proof (vN_len t) as L. exists t'. split; [exact E|]. split; [congruence|]. split; [exact N'|].
  assert (R : forall k, 0 <= k < vN t -> vread k t' = nth_error (velems t) (if (Z.to_nat k =? Z.to_nat i)%nat then Z.to_nat j else if (Z.to_nat k =? Z.to_nat j)%nat then Z.to_nat i else Z.to_nat k)).
  { intros k Hk. rewrite vread_in by (congruence || lia). rewrite V. apply exchange_nth; lia. }
  split; [|split].
  - rewrite R, Nat.eqb_refl, vread_in by (assumption || lia). reflexivity.
  - rewrite R, Nat.eqb_refl by lia. rewrite vread_in by assumption. destruct (Nat.eqb_spec (Z.to_nat j) (Z.to_nat i)) as [Eq|]; [rewrite Eq|]; reflexivity.
  - intros k Hk N1 N2. rewrite R, vread_in by assumption. destruct (Nat.eqb_spec (Z.to_nat k) (Z.to_nat i)); [lia|]. destruct (Nat.eqb_spec (Z.to_nat k) (Z.to_nat j)); [lia|]. reflexivity.
Qed.
Lemma read_outside {T} (t : vec T) i : vfull t = true -> (i < 0 -> vread i t = vread 0 t) /\ (vN t <= i -> vread i t = vread (vN t - 1) t).
Proof.
  intros F. pose proof (vfull_pos t F) as P. rewrite !(fun k => proj1 (vread_clamp t F k)). unfold clamp. split; intros H; f_equal; lia.
Qed.
Lemma permute_any {T G} (value : G -> Z) (next : G -> option G) (P : G -> Prop) (t : vec T) g :
  (forall g, P g -> 0 <= value g < 2 ^ 32 /\ exists g', next g = Some g' /\ P g') -> vfull t = true -> P g ->
  exists t' g', vpermute value next g t = Some (t', g') /\ Permutation (velems t) (velems t') /\ vshape t' = vshape t /\ P g'.
Proof.
  intros HP F Hg. pose proof (vfull_pos t F) as Pos. unfold vpermute. apply vpermute_generic; try assumption; try lia.
  intros h Hh. destruct (HP h Hh) as (R & X). split; [lia|exact X].
Qed.
Lemma permute_lcg {T} (t : vec T) x : vfull t = true -> 0 <= x < 2 ^ 32 ->
  exists t', vpermute rng_value rng_next x t = Some (t', Nat.iter (Z.to_nat (vN t) - 1) (step lcg_A lcg_C) x) /\
    velems t' = fst (shuffle (step lcg_A lcg_C) (length (velems t)) x (velems t)).
Proof.
  intros F Hx. pose proof (vfull_pos t F) as Pos. pose proof (vN_len t) as L. unfold vpermute.
  destruct (vpermute_shuffle nx rng_next (2 ^ 32) rng_next_ok (Z.to_nat (vN t)) x t F) as (t' & E & V & Sh); [lia|lia|exact Hx|].
  rewrite shuffle_state in E. exists t'. split; [exact E|]. rewrite V. f_equal. f_equal. lia.
Qed.
Lemma permute_empty {T G} (value : G -> Z) (next : G -> option G) (t : vec T) g : vN t = 0 -> vpermute value next g t = None.
Proof. intros H. unfold vpermute. rewrite H. reflexivity. Qed.

(** Every arrangement is the result of some sequence of generator values. *)
Lemma find_in {T} (a : T) l (dec : forall x y : T, {x = y} + {x <> y}) : In a l -> exists k, (k < length l)%nat /\ nth_error l k = Some a.
Proof. intros H. apply In_nth_error in H. destruct H as [k Hk]. exists k. split; [apply nth_error_Some; congruence|exact Hk]. Qed.
Lemma vpermute_SS {T G} (value : G -> Z) (next : G -> option G) n g (t : vec T) : vpermute_impl value next (S (S n)) g t =
  (do _ <- assert_ ((Z.of_nat (S (S n)) - 1 <? vN t) && (Z.rem (Z.shiftr (value g) 16) (Z.of_nat (S (S n))) <? vN t));
   do t1 <- vswap (Z.of_nat (S (S n)) - 1) (Z.rem (Z.shiftr (value g) 16) (Z.of_nat (S (S n)))) t;
   do g1 <- next g;
   vpermute_impl value next (S n) g1 t1).
Proof. reflexivity. Qed.
Lemma permute_reaches {T} (n : nat) : forall (t : vec T) (l : list T), vfull t = true -> (1 <= n)%nat -> Z.of_nat n <= vN t -> Z.of_nat n <= 2 ^ 16 ->
  Permutation (firstn n (velems t)) (firstn n l) -> skipn n (velems t) = skipn n l -> length l = length (velems t) ->
  exists vs : list Z, Forall (fun v => 0 <= v < 2 ^ 32) vs /\ exists t' r,
    vpermute_impl (fun g : list Z => hd 0 g) (fun g => Some (tl g)) n vs t = Some (t', r) /\ velems t' = l.
Proof.
  induction n as [|n IH]; intros t l F Hn HN Hb Pm Sk Hl; [lia|]. destruct n as [|n].
  - exists []. split; [constructor|]. exists t, []. split; [reflexivity|].
    pose proof (vN_len t) as L. destruct (velems t) as [|a e] eqn:Ee; [cbn in L; lia|]. destruct l as [|b l]; [discriminate|].
    cbn [firstn] in Pm. apply Permutation_length_1 in Pm. cbn [skipn] in Sk. congruence.
  - pose proof (vN_len t) as L. remember (S n) as m eqn:Em.
    (* the element that must end at position m *)
    destruct (nth_error l m) as [a|] eqn:Ea; [|apply nth_error_None in Ea; lia].
    assert (Fl : firstn (S m) l = firstn m l ++ [a]).
    { clear - Ea. revert m Ea. induction l as [|x l IHl]; intros [|m] Ea; try discriminate; [injection Ea as ->; destruct l; reflexivity|]. cbn [nth_error] in Ea. cbn [firstn app]. f_equal. apply IHl. exact Ea. }
    assert (Ia : In a (firstn (S m) (velems t))).
    { apply (Permutation_in _ (Permutation_sym Pm)). rewrite Fl. apply in_or_app. right. left. reflexivity. }
    apply In_nth_error in Ia. destruct Ia as [k Hk].
    assert (Lk : (k < S m)%nat). { assert (k < length (firstn (S m) (velems t)))%nat by (apply nth_error_Some; congruence). rewrite firstn_length in H. lia. }
    assert (Hk' : nth_error (velems t) k = Some a).
    { rewrite <- (firstn_skipn (S m) (velems t)). rewrite nth_error_app1; [exact Hk|]. rewrite firstn_length. lia. }
    destruct (vswap_ok (Z.of_nat m) (Z.of_nat k) t F) as (t1 & E1 & V1 & S1); [lia|lia|]. rewrite !Nat2Z.id in V1.
    pose proof (shape_vN _ _ S1) as N1. pose proof (shape_vfull _ _ S1) as F1. pose proof (vN_len t1) as L1.
    assert (Am : nth_error (velems t1) m = Some a) by (rewrite V1, exchange_nth by lia; rewrite Nat.eqb_refl; exact Hk').
    assert (Sk1 : skipn m (velems t1) = skipn m l).
    { apply nth_error_eq. intros q. assert (Sn : forall (l0 : list T) n0 k', nth_error (skipn n0 l0) k' = nth_error l0 (n0 + k')%nat).
      { clear. intros l0 n0. revert l0. induction n0 as [|n0 IHn]; intros l0 k'; [reflexivity|]. destruct l0 as [|x l0]; [destruct k'; reflexivity|]. cbn [skipn Nat.add nth_error]. apply IHn. }
      rewrite !Sn. destruct q as [|q]; [rewrite Nat.add_0_r; congruence|].
      rewrite V1, exchange_nth by lia. destruct (Nat.eqb_spec (m + S q) m); [lia|]. destruct (Nat.eqb_spec (m + S q) k); [lia|].
      replace (m + S q)%nat with (S m + q)%nat by lia. rewrite <- !Sn. rewrite Sk. reflexivity. }
    destruct (IH t1 l) as (vs & Fv & t' & r & E' & V'); [congruence|lia|lia|lia| |exact Sk1|lia|].
    { apply (Permutation_app_inv_r (skipn m l)). rewrite <- Sk1 at 1. rewrite !firstn_skipn.
      eapply Permutation_trans; [rewrite V1; apply Permutation_sym, exchange_perm; lia|].
      rewrite <- (firstn_skipn (S m) (velems t)), <- (firstn_skipn (S m) l). rewrite Sk. apply Permutation_app_tail. exact Pm. }
    exists (Z.of_nat k * 2 ^ 16 :: vs). split; [constructor; [split; lia|exact Fv]|]. exists t', r. split; [|exact V'].
    rewrite Em, vpermute_SS, <- Em. cbn [hd tl]. rewrite Z.shiftr_div_pow2, Z.div_mul by lia.
    rewrite Z.rem_mod_nonneg, Z.mod_small by lia. unfold assert_. destruct (Z.ltb_spec (Z.of_nat (S m) - 1) (vN t)); [|lia].
    destruct (Z.ltb_spec (Z.of_nat k) (vN t)); [|lia]. cbn [andb bind]. replace (Z.of_nat (S m) - 1) with (Z.of_nat m) by lia. rewrite E1. cbn [bind]. exact E'.
Qed.
Lemma permute_reaches_all {T} (t : vec T) l : vfull t = true -> vN t <= 2 ^ 16 -> Permutation (velems t) l ->
  exists vs : list Z, Forall (fun v => 0 <= v < 2 ^ 32) vs /\ exists t' r,
    vpermute (fun g : list Z => hd 0 g) (fun g => Some (tl g)) vs t = Some (t', r) /\ velems t' = l.
Proof.
  intros F Hb Pm. pose proof (vfull_pos t F) as Pos. pose proof (vN_len t) as L. pose proof (Permutation_length Pm) as Lp. unfold vpermute. apply permute_reaches; try assumption; try lia.
  - rewrite !firstn_all2 by lia. exact Pm.
  - rewrite !skipn_all2 by lia. reflexivity.
Qed.

Lemma unique_spec t l0 : vfull t = true -> velems t = map IC l0 -> vN t <= 2 ^ 31 ->
  exists u l, vunique t = Some u /\ vfull u = true /\ velems u = map IC l /\ StronglySorted Z.lt l /\ (forall z, In z l <-> In z l0).
Proof.
  intros F V HN. destruct (vunique_ok t F) as (u & l & E & Fu & Vu & Sl & Il); [|exact HN|].
  - intros c Hc. rewrite V in Hc. apply in_map_iff in Hc. destruct Hc as (z & <- & _). exists z. reflexivity.
  - exists u, l. split; [exact E|]. split; [exact Fu|]. split; [exact Vu|]. split; [exact Sl|]. intros z. rewrite Il, V, in_map_iff.
    split; [intros (y & Ey & Hy); injection Ey as ->; exact Hy|intros Hz; exists z; split; [reflexivity|exact Hz]].
Qed.
Lemma next_above_empty v t : vfull t = false -> next_above v t = None.
Proof.
  induction t as [|x|a IHa b IHb]; cbn [vfull]; intros H; [reflexivity|discriminate|]. cbn [next_above].
  apply andb_false_iff in H. destruct H as [H|H]; [rewrite IHa by exact H; reflexivity|]. rewrite IHb by exact H. destruct (next_above v a); reflexivity.
Qed.
Lemma unique_empty t : vfull t = false -> vunique t = None.
Proof. intros H. unfold vunique. rewrite Nat.add_comm. cbn [Nat.add uniq_N is_upper]. rewrite next_above_empty by exact H. reflexivity. Qed.

Lemma create_spec {T} (v : T) n : 1 <= n < 2 ^ 31 -> exists t, vcreate 64 n v = Some t /\ vfull t = true /\ velems t = repeat v (Z.to_nat n).
Proof. intros H. apply vcreate_ok. lia. Qed.
Lemma rotation_spec o n : 1 <= n < 2 ^ 31 -> 0 <= o < 2 ^ 31 ->
  exists t, vrotation IC o n = Some t /\ vfull t = true /\ velems t = map IC (rotation (Z.to_nat o) (Z.to_nat n)).
Proof.
  intros Hn Ho. destruct (vrot_ok IC n 63 ltac:(lia) n o) as (t & E & F & V); [lia|]. exists t. split; [exact E|]. split; [exact F|].
  rewrite V. unfold rotation. rewrite map_map. apply map_ext_in. intros i Hi. apply in_seq in Hi. f_equal.
  rewrite Z.rem_mod_nonneg by lia. rewrite Nat2Z.inj_mod. f_equal; lia.
Qed.
Lemma vrot_zero {T} (mk : Z -> T) f : forall o m, vrot f mk o 0 m = None.
Proof. induction f as [|f IH]; intros o m; [reflexivity|]. cbn [vrot]. change (0 =? 1) with false. cbv iota. change (Z.quot 0 2) with 0. rewrite IH. reflexivity. Qed.
Lemma unique_Empty : vunique Empty = None.
Proof. reflexivity. Qed.
Lemma no_taps_reduce N ts s : forall t off, vmap_reduce (cat_bit_map N 0 ts Empty s) cat_bit_reduce off t = None.
Proof.
  induction t as [|v|a IHa b IHb]; intros off; cbn [vmap_reduce]; [reflexivity| |rewrite IHa; reflexivity].
  unfold cat_bit_map. destruct (ic_value v); [|reflexivity]. cbn [bind get_src_vec]. rewrite unique_Empty. reflexivity.
Qed.
Lemma create_zero {T} (v : T) : vcreate 64 0 v = Some Empty.
Proof. reflexivity. Qed.
Lemma no_taps_plan N S ts tout ti : lut_opt_plan N 0 S = Some (ts, tout, ti) -> ti = Empty.
Proof.
  unfold lut_opt_plan. destruct (assert_ (0 <=? 0)); [|discriminate]. cbn [bind]. destruct (vrotation IC 1 N); [|discriminate]. cbn [bind].
  destruct (make_perms (Z.to_nat 0) S v) as [[p g]|]; [|discriminate]. cbn [bind]. destruct (vpermute rng_value rng_next g v) as [[o h]|]; [|discriminate].
  rewrite create_zero. cbn [bind]. congruence.
Qed.
Lemma step_no_taps N S s : lut_opt_step N 0 S s = None.
Proof.
  unfold lut_opt_step. destruct (lut_opt_plan N 0 S) as [[[ts tout] ti]|] eqn:E; [|reflexivity]. apply no_taps_plan in E. subst ti. cbn [bind].
  change (Z.to_nat 0) with O. rewrite no_taps_reduce. reflexivity.
Qed.
