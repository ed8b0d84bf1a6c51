(** The taps of lut_opt, and linearity of its step. *)
From Coq Require Import ZArith Bool List Lia Permutation Sorting.Sorted.
From Verif Require Import Fw FwLemmas MulProofs SpecCt Lcg LcgProofs CtVec CtVecProofs CtVecProofs2 LutOpt.
Import ListNotations.
Open Scope Z_scope.

Definition nx : Z -> Z := step lcg_A lcg_C.
Lemma rng_next_ok x : 0 <= x < 2 ^ 32 -> rng_next x = Some (nx x) /\ 0 <= nx x < 2 ^ 32.
Proof. intros H. split; [|apply step_range]. unfold rng_next. rewrite lcg_forward by lia. reflexivity. Qed.

Section Map.
Context {A B : Type} (f : A -> B).
Lemma put_map w l : forall i, put i (f w) (map f l) = map f (put i w l).
Proof. induction l as [|a l IH]; intros [|i]; cbn; try reflexivity. rewrite IH. reflexivity. Qed.
Lemma exchange_map i j l : exchange i j (map f l) = map f (exchange i j l).
Proof.
  unfold exchange. rewrite !nth_error_map. destruct (nth_error l i); cbn; [|reflexivity]. destruct (nth_error l j); cbn; [|reflexivity].
  rewrite !put_map. reflexivity.
Qed.
Lemma shuffle_map next n : forall x l, shuffle next n x (map f l) = (map f (fst (shuffle next n x l)), snd (shuffle next n x l)).
Proof.
  induction n as [|n IH]; intros x l; [reflexivity|]. destruct n as [|n]; [reflexivity|]. rewrite !shuffle_SS, exchange_map. apply IH.
Qed.
End Map.
Lemma shuffle_len next n x (l : list Z) : (n <= length l)%nat -> length (fst (shuffle next n x l)) = length l.
Proof. intros H. symmetry. apply Permutation_length, shuffle_perm. exact H. Qed.
Lemma shuffle_range n : forall x (l : list Z), 0 <= x < 2 ^ 32 -> 0 <= snd (shuffle nx n x l) < 2 ^ 32.
Proof. intros x l Hx. rewrite shuffle_state. apply iter_range. exact Hx. Qed.

(** A tree that holds a list of integral constants. *)
Definition holds (t : vec cv) (l : list Z) : Prop := vfull t = true /\ velems t = map IC l.
Lemma holds_vN t l : holds t l -> vN t = Z.of_nat (length l).
Proof. intros [_ H]. rewrite vN_len, H, map_length. reflexivity. Qed.
Lemma vpermute_holds t l x : holds t l -> 0 <= x < 2 ^ 32 ->
  exists t', vpermute rng_value rng_next x t = Some (t', snd (shuffle nx (length l) x l)) /\ holds t' (fst (shuffle nx (length l) x l)).
Proof.
  intros Hh Hx. pose proof (holds_vN t l Hh) as HN. destruct Hh as [F V]. pose proof (vfull_pos t F) as Hp. unfold vpermute.
  destruct (vpermute_shuffle nx rng_next (2 ^ 32) rng_next_ok (Z.to_nat (vN t)) x t F) as (t' & E & V' & Sh); [lia|lia|exact Hx|].
  rewrite HN, Nat2Z.id, V, shuffle_map in *. exists t'. split; [exact E|]. split; [rewrite (shape_vfull _ _ Sh); exact F|exact V'].
Qed.

Lemma make_perms_ok T : forall x t l, holds t l -> 0 <= x < 2 ^ 32 ->
  exists ts, make_perms T x t = Some (ts, snd (shuffles nx T x l)) /\ Forall2 holds ts (fst (shuffles nx T x l)) /\
    0 <= snd (shuffles nx T x l) < 2 ^ 32 /\ Forall (Permutation l) (fst (shuffles nx T x l)) /\ length (fst (shuffles nx T x l)) = T.
Proof.
  induction T as [|T IH]; intros x t l Hh Hx; cbn [make_perms shuffles].
  - exists []. split; [reflexivity|]. split; [constructor|]. split; [exact Hx|]. split; [constructor|reflexivity].
  - destruct (vpermute_holds t l x Hh Hx) as (t1 & E1 & H1). rewrite E1. cbn [bind].
    pose proof (shuffle_range (length l) x l Hx) as R. pose proof (shuffle_perm nx (length l) x l (le_n _)) as Pm.
    destruct (shuffle nx (length l) x l) as [p x1] eqn:Es. cbn [fst snd] in *.
    destruct (IH x1 t1 p H1 R) as (ts & E & F & Rg & FP & Ln). rewrite E. cbn [bind].
    destruct (shuffles nx T x1 p) as [ps x2] eqn:Ess. cbn [fst snd] in *.
    exists (t1 :: ts). split; [reflexivity|]. split; [constructor; assumption|]. split; [exact Rg|]. split; [|cbn; congruence].
    constructor; [exact Pm|]. eapply Forall_impl; [|exact FP]. intros q Hq. exact (Permutation_trans Pm Hq).
Qed.

Lemma get_source_ok ts ps : Forall2 holds ts ps -> forall D I, (D < length ps)%nat -> (forall p, In p ps -> 0 <= I < Z.of_nat (length p)) ->
  get_source ts D I = Some (nth (Z.to_nat I) (nth D ps []) 0).
Proof.
  induction 1 as [|t p ts ps Hh HF IH]; intros D I HD HI; [cbn in HD; lia|]. pose proof (HI p (or_introl eq_refl)) as HIp. destruct D as [|D].
  - cbn [get_source nth]. pose proof (holds_vN t p Hh) as HN. destruct Hh as [F V]. rewrite vread_in by (assumption || lia). rewrite V, nth_error_map.
    rewrite (nth_error_nth' p 0) by lia. reflexivity.
  - cbn [get_source nth]. apply IH; [cbn in HD; lia|]. intros q Hq. apply HI. right. exact Hq.
Qed.
Lemma get_src_vec_ok ts ps I : Forall2 holds ts ps -> (forall p, In p ps -> 0 <= I < Z.of_nat (length p)) ->
  forall n acc, (n <= length ps)%nat -> vfull acc = true -> vN acc = Z.of_nat (length ps) ->
  exists acc', get_src_vec I n ts acc = Some acc' /\ vfull acc' = true /\ vN acc' = vN acc /\
    forall k, nth_error (velems acc') k = if (k <? n)%nat then Some (IC (nth (Z.to_nat I) (nth k ps []) 0)) else nth_error (velems acc) k.
Proof.
  intros HF HI. induction n as [|n IH]; intros acc Hn Fa Na; cbn [get_src_vec].
  - exists acc. split; [reflexivity|]. split; [exact Fa|]. split; [reflexivity|]. intros k. reflexivity.
  - rewrite (get_source_ok ts ps HF n I) by (assumption || lia). cbn [bind].
    destruct (vwrite_in (IC (nth (Z.to_nat I) (nth n ps []) 0)) acc (Z.of_nat n) Fa) as (a1 & E1 & V1 & S1); [lia|]. rewrite E1. cbn [bind].
    pose proof (shape_vN _ _ S1) as N1. pose proof (shape_vfull _ _ S1) as F1.
    destruct (IH a1) as (a2 & E2 & F2 & N2 & V2); [lia|congruence|lia|]. exists a2. split; [exact E2|]. split; [exact F2|]. split; [lia|].
    intros k. rewrite V2, V1, Nat2Z.id. pose proof (vN_len acc) as La. destruct (Nat.ltb_spec k n), (Nat.ltb_spec k (S n)); try lia; [reflexivity| |].
    + replace k with n by lia. apply put_same. lia.
    + apply put_other. lia.
Qed.
Lemma nth_error_eq {A} (l l' : list A) : (forall k, nth_error l k = nth_error l' k) -> l = l'.
Proof.
  revert l'. induction l as [|x l IH]; intros [|y l'] V; [reflexivity|specialize (V O); discriminate V|specialize (V O); discriminate V|].
  f_equal; [specialize (V O); injection V as E; exact E|]. apply IH. intros k. exact (V (S k)).
Qed.

(** XOR of the named bits. *)
Lemma get_bit_b2z N i s : 0 <= i < N -> 0 <= s < 2 ^ N -> get_bit N i s = Some (Z.b2z (Z.testbit s i)).
Proof. intros Hi Hs. rewrite get_bit_ok by (lia || assumption). f_equal. symmetry. rewrite <- Z.testbit_spec' by lia. reflexivity. Qed.
Lemma xor_bits_app s a b : xor_bits s (a ++ b) = xorb (xor_bits s a) (xor_bits s b).
Proof.
  unfold xor_bits. induction a as [|x a IH]; cbn [map app fold_right]; [destruct (fold_right xorb false (map (Z.testbit s) b)); reflexivity|].
  rewrite IH, xorb_assoc. reflexivity.
Qed.
Lemma make_bit_ok N s t : 0 <= s < 2 ^ N -> forall l off, holds t l -> (forall i, In i l -> 0 <= i < N) ->
  vmap_reduce (make_bit_map N s) make_bit_reduce off t = Some (Z.b2z (xor_bits s l)).
Proof.
  intros Hs. induction t as [|v|a IHa b IHb]; intros l off [F V] Hl; cbn [vfull velems] in *; [discriminate| |].
  - destruct l as [|i [|]]; try discriminate. injection V as ->. cbn [vmap_reduce]. unfold make_bit_map. cbn [ic_value bind].
    rewrite get_bit_b2z by (try apply Hl; try (left; reflexivity); assumption). unfold xor_bits. cbn. rewrite xorb_false_r. reflexivity.
  - apply andb_true_iff in F. destruct F as [Fa Fb]. symmetry in V. apply map_eq_app in V. destruct V as (la & lb & -> & Va & Vb).
    cbn [vmap_reduce]. rewrite (IHa la off) by (try (split; [assumption|symmetry; assumption]); intros; apply Hl, in_or_app; left; assumption).
    rewrite (IHb lb (off + vN a)) by (try (split; [assumption|symmetry; assumption]); intros; apply Hl, in_or_app; right; assumption).
    cbn [bind]. unfold make_bit_reduce. rewrite fxor1_b2z, xor_bits_app. reflexivity.
Qed.

(** Concatenating bits: the first is the most significant. *)
Lemma cat_bits_ok (m : Z -> cv -> option (Z * Z)) (fb : Z -> bool) t : forall l off, holds t l ->
  (forall o i, In i l -> m o (IC i) = Some (1, Z.b2z (fb i))) ->
  exists x, vmap_reduce m cat_bit_reduce off t = Some (Z.of_nat (length l), x) /\ 0 <= x < 2 ^ Z.of_nat (length l) /\
    forall k, (k < length l)%nat -> Z.testbit x (Z.of_nat (length l - 1 - k)) = fb (nth k l 0).
Proof.
  induction t as [|v|a IHa b IHb]; intros l off [F V] Hm; cbn [vfull velems] in *; [discriminate| |].
  - destruct l as [|i [|]]; try discriminate. injection V as ->. cbn [vmap_reduce length]. rewrite (Hm off i (or_introl eq_refl)).
    exists (Z.b2z (fb i)). split; [reflexivity|]. split; [destruct (fb i); cbn; lia|]. intros k Hk. replace k with O by lia. cbn. destruct (fb i); reflexivity.
  - apply andb_true_iff in F. destruct F as [Fa Fb]. symmetry in V. apply map_eq_app in V. destruct V as (la & lb & -> & Va & Vb).
    destruct (IHa la off) as (x & Ex & Rx & Tx); [split; [assumption|symmetry; assumption]|intros; apply Hm, in_or_app; left; assumption|].
    destruct (IHb lb (off + vN a)) as (y & Ey & Ry & Ty); [split; [assumption|symmetry; assumption]|intros; apply Hm, in_or_app; right; assumption|].
    cbn [vmap_reduce]. rewrite Ex, Ey. cbn [bind cat_bit_reduce]. rewrite cat_eq by lia. exists (x * 2 ^ Z.of_nat (length lb) + y).
    rewrite app_length, Nat2Z.inj_add. split; [reflexivity|]. split; [apply join_bound; lia|].
    intros k Hk. destruct (Nat.ltb_spec k (length la)) as [L|L].
    + rewrite app_nth1 by exact L. rewrite <- Tx by exact L.
      replace (Z.of_nat (length la + length lb - 1 - k)) with (Z.of_nat (length la - 1 - k) + Z.of_nat (length lb)) by lia.
      rewrite <- Z.div_pow2_bits by lia. rewrite join_div by lia. reflexivity.
    + rewrite app_nth2 by lia. rewrite <- Ty by lia.
      replace (length la + length lb - 1 - k)%nat with (length lb - 1 - (k - length la))%nat by lia.
      rewrite <- (Z.mod_pow2_bits_low (x * 2 ^ Z.of_nat (length lb) + y) (Z.of_nat (length lb))) by lia. rewrite join_mod by lia. reflexivity.
Qed.

(** The rotation. *)
Lemma rotation_holds N : 1 <= N < 2 ^ 31 -> exists t, vrotation IC 1 N = Some t /\ holds t (rotation 1 (Z.to_nat N)).
Proof.
  intros HN. destruct (vrot_ok IC N 63 ltac:(lia) N 1) as (t & E & F & V); [lia|]. exists t. split; [exact E|]. split; [exact F|].
  rewrite V. unfold rotation. rewrite map_map. apply map_ext_in. intros i Hi. apply in_seq in Hi. f_equal.
  rewrite Z.rem_mod_nonneg by lia. rewrite Nat2Z.inj_mod. f_equal; lia.
Qed.
Lemma rotation_length o n : length (rotation o n) = n.
Proof. unfold rotation. rewrite map_length, seq_length. reflexivity. Qed.
Lemma rotation_in n z : (0 < n)%nat -> (In z (rotation 1 n) <-> 0 <= z < Z.of_nat n).
Proof.
  intros Hn. unfold rotation. rewrite in_map_iff. split.
  - intros (i & <- & Hi). pose proof (Nat.mod_upper_bound (1 + i) n ltac:(lia)). lia.
  - intros Hz. exists (if (z =? 0)%Z then n - 1 else Z.to_nat z - 1)%nat. destruct (Z.eqb_spec z 0) as [->|].
    + split; [|apply in_seq; lia]. replace (1 + (n - 1))%nat with n by lia. rewrite Nat.mod_same by lia. reflexivity.
    + split; [|apply in_seq; lia]. replace (1 + (Z.to_nat z - 1))%nat with (Z.to_nat z) by lia. rewrite Nat.mod_small by lia. lia.
Qed.
Lemma rotation_nodup n : NoDup (rotation 1 n).
Proof.
  destruct n as [|n]; [constructor|]. apply NoDup_incl_NoDup with (l := map Z.of_nat (seq 0 (S n))).
  - apply FinFun.Injective_map_NoDup; [intros x y; lia|apply seq_NoDup].
  - rewrite rotation_length, map_length, seq_length. lia.
  - intros z Hz. apply in_map_iff in Hz. destruct Hz as (i & <- & Hi). apply in_seq in Hi. apply rotation_in; lia.
Qed.

(** ** The step *)
Section Step.
Context (N T S : Z) (HN : 1 <= N < 2 ^ 31) (HT : 1 <= T < 2 ^ 31) (HS : 0 <= S < 2 ^ 32).
Let n := Z.to_nat N.
Let rot := rotation 1 n.
Let ps := fst (shuffles nx (Z.to_nat T) S rot).
Let x1 := snd (shuffles nx (Z.to_nat T) S rot).
Let out := fst (shuffle nx n x1 rot).
(** The positions a source of output value v reads, in order of the shuffles. *)
Let srcs (v : Z) : list Z := map (fun p => nth (Z.to_nat v) p 0) ps.

Lemma plan_ok : exists ts tout tinit, lut_opt_plan N T S = Some (ts, tout, tinit) /\ Forall2 holds ts ps /\
  Forall (Permutation rot) ps /\ length ps = Z.to_nat T /\ holds tout out /\ Permutation rot out /\
  vfull tinit = true /\ vN tinit = T.
Proof.
  unfold lut_opt_plan, assert_. destruct (Z.leb_spec 0 T); [|lia]. cbn [bind].
  destruct (rotation_holds N HN) as (t & Et & Ht). rewrite Et. cbn [bind]. fold n rot in Ht.
  destruct (make_perms_ok (Z.to_nat T) S t rot Ht HS) as (ts & E & F & R & FP & L). rewrite E. cbn [bind]. fold ps x1 in F, R, FP, L |- *.
  destruct (vpermute_holds t rot x1 Ht R) as (tout & Eo & Ho). rewrite Eo. cbn [bind].
  assert (Ln : length rot = n) by apply rotation_length. rewrite Ln in Ho. fold out in Ho.
  destruct (vcreate_ok (IC 0) 63 T) as (ti & Ei & Fi & Vi); [lia|]. rewrite Ei. cbn [bind].
  exists ts, tout, ti. split; [reflexivity|]. split; [exact F|]. split; [exact FP|]. split; [exact L|]. split; [exact Ho|].
  split; [apply shuffle_perm; lia|]. split; [exact Fi|]. rewrite vN_len, Vi, repeat_length. lia.
Qed.

Lemma srcs_range : Forall (Permutation rot) ps -> forall v z, 0 <= v < N -> In z (srcs v) -> 0 <= z < N.
Proof.
  intros FP v z Hv Hz. apply in_map_iff in Hz. destruct Hz as (p & <- & Hp). rewrite Forall_forall in FP. specialize (FP p Hp).
  assert (In (nth (Z.to_nat v) p 0) rot).
  { apply (Permutation_in _ (Permutation_sym FP)). apply nth_In. rewrite <- (Permutation_length FP). unfold rot, n. rewrite rotation_length. lia. }
  apply rotation_in in H; unfold n in *; lia.
Qed.

(** Everything about a step in one statement. *)
Lemma lut_step_ok s : 0 <= s < 2 ^ N -> Forall (Permutation rot) ps /\ length ps = Z.to_nat T /\ Permutation rot out /\
  exists r, lut_opt_step N T S s = Some r /\ 0 <= r < 2 ^ N /\
    forall o, 0 <= o < N -> forall l, StronglySorted Z.lt l -> (forall z, In z l <-> In z (srcs (nth (n - 1 - Z.to_nat o) out 0))) ->
      Z.testbit r o = xor_bits s l.
Proof.
  intros Hs. destruct plan_ok as (ts & tout & tinit & E & F & FP & L & Ho & Po & Fi & Ni).
  split; [exact FP|]. split; [exact L|]. split; [exact Po|].
  assert (Lo : length out = n) by (rewrite <- (Permutation_length Po); apply rotation_length).
  assert (Ro : forall v, In v out -> 0 <= v < N).
  { intros v Hv. apply (Permutation_in _ (Permutation_sym Po)) in Hv. apply rotation_in in Hv; unfold n in *; lia. }
  assert (Lp : forall p, In p ps -> length p = n).
  { intros p Hp. rewrite Forall_forall in FP. rewrite <- (Permutation_length (FP p Hp)). apply rotation_length. }
  (* the bit for one output value *)
  assert (Hbit : forall v, 0 <= v < N -> exists b, (forall o, cat_bit_map N (Z.to_nat T) ts tinit s o (IC v) = Some (1, Z.b2z b)) /\
     forall l, StronglySorted Z.lt l -> (forall z, In z l <-> In z (srcs v)) -> b = xor_bits s l).
  { intros v Hv.
    destruct (get_src_vec_ok ts ps v F) with (n := Z.to_nat T) (acc := tinit) as (raw & Er & Fr & Nr & Vr);
      [intros p Hp; rewrite (Lp p Hp); unfold n; lia|lia|exact Fi|lia|].
    assert (Vr' : velems raw = map IC (srcs v)).
    { apply nth_error_eq. intros k. rewrite Vr. unfold srcs. rewrite map_map, nth_error_map. destruct (Nat.ltb_spec k (Z.to_nat T)).
      - rewrite (nth_error_nth' ps []) by lia. reflexivity.
      - pose proof (vN_len tinit). rewrite (proj2 (nth_error_None ps k)) by lia. apply nth_error_None. lia. }
    destruct (vunique_ok raw Fr) as (u & l & Eu & Fu & Vu & Sl & Il).
    { intros c Hc. rewrite Vr' in Hc. apply in_map_iff in Hc. destruct Hc as (z & <- & _). exists z. reflexivity. }
    { lia. }
    assert (Il' : forall z, In z l <-> In z (srcs v)).
    { intros z. rewrite Il, Vr', in_map_iff. split; [intros (y & Ey & Hy); injection Ey as ->; exact Hy|intros Hz; exists z; split; [reflexivity|exact Hz]]. }
    exists (xor_bits s l). split.
    - intros o. unfold cat_bit_map. cbn [ic_value bind]. rewrite Er. cbn [bind]. rewrite Eu. cbn [bind].
      rewrite (make_bit_ok N s u Hs l 0); [reflexivity|split; assumption|]. intros i Hi. apply (srcs_range FP v); [exact Hv|]. apply Il'. exact Hi.
    - intros l' Sl' Il''. f_equal. apply strong_sorted_unique; [exact Sl|exact Sl'|]. intros z. rewrite Il', Il''. reflexivity. }
  assert (Hfb : exists fb : Z -> bool, (forall o v, 0 <= v < N -> cat_bit_map N (Z.to_nat T) ts tinit s o (IC v) = Some (1, Z.b2z (fb v))) /\
     forall v l, 0 <= v < N -> StronglySorted Z.lt l -> (forall z, In z l <-> In z (srcs v)) -> fb v = xor_bits s l).
  { exists (fun v => match cat_bit_map N (Z.to_nat T) ts tinit s 0 (IC v) with Some (_, b) => Z.odd b | None => false end). split.
    - intros o v Hv. destruct (Hbit v Hv) as (b & Hb & _). rewrite !Hb. destruct b; reflexivity.
    - intros v l Hv Sl Il. destruct (Hbit v Hv) as (b & Hb & Hl). rewrite Hb. rewrite <- (Hl l Sl Il). destruct b; reflexivity. }
  destruct Hfb as (fb & Hm & Hfb).
  unfold lut_opt_step. rewrite E. cbn [bind].
  destruct (cat_bits_ok (cat_bit_map N (Z.to_nat T) ts tinit s) fb tout out 0 Ho) as (x & Ex & Rx & Tx).
  { intros o i Hi. apply Hm, Ro. exact Hi. }
  rewrite Ex. cbn [bind]. assert (Ln : Z.of_nat (length out) = N) by (rewrite Lo; unfold n; lia). rewrite Ln in *.
  unfold assert_. rewrite Z.eqb_refl. cbn [bind]. exists x. split; [reflexivity|]. split; [exact Rx|].
  intros o Ho' l Sl Il. specialize (Tx (n - 1 - Z.to_nat o)%nat). rewrite Lo in Tx.
  replace (Z.of_nat (n - 1 - (n - 1 - Z.to_nat o))) with o in Tx by (unfold n in *; lia). rewrite Tx by (unfold n; lia).
  apply Hfb; [|exact Sl|exact Il]. apply Ro, nth_In. unfold n in *. lia.
Qed.
End Step.
