(** Sorting and removing duplicates, and reductions. *)
From Coq Require Import ZArith Bool List Lia Permutation Sorting.Sorted.
From Verif Require Import Fw FwLemmas SpecCt CtVec CtVecProofs.
Import ListNotations.
Open Scope Z_scope.

Definition all_ic (t : vec cv) : Prop := forall c, In c (velems t) -> exists z, c = IC z.
(** z is above the bound v. *)
Definition above (v : cv) (z : Z) : Prop := match v with Lower => True | IC a => a < z | Upper => False end.

Lemma next_above_ok v t : v <> Upper -> vfull t = true -> all_ic t ->
  exists c, next_above v t = Some c /\
    ((c = Upper /\ forall z, In (IC z) (velems t) -> ~ above v z) \/
     (exists m, c = IC m /\ In (IC m) (velems t) /\ above v m /\ forall z, In (IC z) (velems t) -> above v z -> m <= z)).
Proof.
  intros Hv. induction t as [|x|a IHa b IHb]; cbn [vfull]; intros H Hic; [discriminate| |].
  - destruct (Hic x (or_introl eq_refl)) as [z ->]. cbn [next_above velems].
    destruct v as [| |a]; [|congruence|]; cbn [vcompare bind].
    + exists (IC z). split; [reflexivity|]. right. exists z. split; [reflexivity|]. split; [left; reflexivity|]. split; [exact I|].
      intros y [E|[]] _. injection E as ->. lia.
    + rewrite Z.gtb_ltb. destruct (Z.ltb_spec a z) as [L|L].
      * exists (IC z). split; [reflexivity|]. right. exists z. split; [reflexivity|]. split; [left; reflexivity|]. split; [exact L|].
        intros y [E|[]] _. injection E as ->. lia.
      * exists Upper. split; [destruct (z <? a); reflexivity|]. left. split; [reflexivity|]. intros y [E|[]]. injection E as ->. cbn. lia.
  - apply andb_true_iff in H. destruct H as [Ha Hb].
    destruct IHa as (ca & Ea & Ca); [exact Ha|intros c Hc; apply Hic; cbn [velems]; apply in_or_app; left; exact Hc|].
    destruct IHb as (cb & Eb & Cb); [exact Hb|intros c Hc; apply Hic; cbn [velems]; apply in_or_app; right; exact Hc|].
    cbn [next_above velems]. rewrite Ea, Eb. cbn [bind].
    destruct Ca as [[-> Ca]|(ma & -> & Ia & Aa & La)], Cb as [[-> Cb]|(mb & -> & Ib & Ab & Lb)]; cbn [vcompare bind].
    + exists Upper. split; [reflexivity|]. left. split; [reflexivity|]. intros z Hz. apply in_app_or in Hz. destruct Hz; [apply Ca|apply Cb]; assumption.
    + exists (IC mb). split; [reflexivity|]. right. exists mb. split; [reflexivity|]. split; [apply in_or_app; right; exact Ib|]. split; [exact Ab|].
      intros z Hz Az. apply in_app_or in Hz. destruct Hz as [Hz|Hz]; [destruct (Ca z Hz Az)|exact (Lb z Hz Az)].
    + exists (IC ma). split; [reflexivity|]. right. exists ma. split; [reflexivity|]. split; [apply in_or_app; left; exact Ia|]. split; [exact Aa|].
      intros z Hz Az. apply in_app_or in Hz. destruct Hz as [Hz|Hz]; [exact (La z Hz Az)|destruct (Cb z Hz Az)].
    + rewrite Z.gtb_ltb. destruct (Z.ltb_spec ma mb) as [L|L].
      * exists (IC ma). split; [reflexivity|]. right. exists ma. split; [reflexivity|]. split; [apply in_or_app; left; exact Ia|]. split; [exact Aa|].
        intros z Hz Az. apply in_app_or in Hz. destruct Hz as [Hz|Hz]; [exact (La z Hz Az)|pose proof (Lb z Hz Az); lia].
      * exists (IC mb). split; [destruct (mb <? ma); reflexivity|]. right. exists mb. split; [reflexivity|]. split; [apply in_or_app; right; exact Ib|]. split; [exact Ab|].
        intros z Hz Az. apply in_app_or in Hz. destruct Hz as [Hz|Hz]; [pose proof (La z Hz Az); lia|exact (Lb z Hz Az)].
Qed.

Definition aboveb (v : cv) (c : cv) : bool :=
  match v, c with Lower, IC _ => true | IC a, IC z => a <? z | _, _ => false end.
Lemma filter_length_lt {A} (f g : A -> bool) (l : list A) x : (forall y, g y = true -> f y = true) -> In x l -> f x = true -> g x = false ->
  (length (filter g l) < length (filter f l))%nat.
Proof.
  intros Hfg Hx Hf Hg.
  assert (Le : forall l', (length (filter g l') <= length (filter f l'))%nat).
  { induction l' as [|y l' IH]; [reflexivity|]. cbn [filter]. destruct (g y) eqn:E; [rewrite (Hfg y E); cbn [length]; lia|]. destruct (f y); cbn [length]; lia. }
  induction l as [|y l IH]; [destruct Hx|]. cbn [filter]. destruct Hx as [->|Hx].
  - rewrite Hf, Hg. cbn [length]. pose proof (Le l). lia.
  - specialize (IH Hx). destruct (g y) eqn:E; [rewrite (Hfg y E); cbn [length]; lia|]. destruct (f y); cbn [length]; lia.
Qed.

Lemma uniq_ok t : vfull t = true -> all_ic t -> forall fuel prev, prev <> Upper ->
  (length (filter (aboveb prev) (velems t)) + 2 <= fuel)%nat ->
  exists l, uniq_N fuel prev t = Some (Z.of_nat (length l)) /\ StronglySorted Z.lt l /\
    (forall z, In z l <-> In (IC z) (velems t) /\ above prev z) /\
    forall i acc, vfull acc = true -> 0 <= i -> vN acc = i + Z.of_nat (length l) ->
      exists acc', uniq_build fuel prev t i acc = Some acc' /\ vshape acc' = vshape acc /\
        forall k, nth_error (skipn (Z.to_nat i) (velems acc')) k = nth_error (map IC l) k.
Proof.
  intros Hf Hic. induction fuel as [|fuel IH]; intros prev Hp Hfu; [lia|].
  destruct (next_above_ok prev t Hp Hf Hic) as (c & Ec & Cc). cbn [uniq_N uniq_build].
  replace (is_upper prev) with false by (destruct prev; [reflexivity|congruence|reflexivity]). rewrite Ec. cbn [bind].
  destruct Cc as [[-> Cc]|(m & -> & Im & Am & Lm)].
  - destruct fuel as [|fuel]; [lia|]. cbn [uniq_N uniq_build is_upper bind]. exists []. split; [reflexivity|]. split; [constructor|]. split.
    { intros z. split; [intros []|]. intros [Hz Az]. destruct (Cc z Hz Az). }
    intros i acc Fa Hi HN. cbn [length] in HN. destruct (vwrite_clamp Upper acc Fa i) as (acc' & E & V & Sh).
    exists acc'. split; [exact E|]. split; [exact Sh|]. intros k. rewrite skipn_all2; [reflexivity|]. rewrite V, put_length. pose proof (vN_len acc). lia.
  - assert (Hdec : (length (filter (aboveb (IC m)) (velems t)) < length (filter (aboveb prev) (velems t)))%nat).
    { apply filter_length_lt with (IC m).
      - intros [| |z]; cbn; try discriminate. intros Hz. apply Z.ltb_lt in Hz. destruct prev as [| |p]; cbn in *; [reflexivity|tauto|apply Z.ltb_lt; lia].
      - exact Im.
      - destruct prev as [| |p]; cbn in *; [reflexivity|tauto|apply Z.ltb_lt; lia].
      - cbn. apply Z.ltb_irrefl. }
    destruct (IH (IC m)) as (l & EN & Sl & Il & Bl); [discriminate|lia|]. rewrite EN. cbn [bind is_upper].
    exists (m :: l). split; [f_equal; cbn [length]; lia|]. split.
    { constructor; [exact Sl|]. apply Forall_forall. intros z Hz. apply Il in Hz. exact (proj2 Hz). }
    split.
    { intros z. cbn [In]. rewrite Il. cbn [above]. split.
      - intros [->|[Hz Lz]]; [split; assumption|]. split; [exact Hz|]. destruct prev as [| |p]; cbn in *; [exact I|congruence|lia].
      - intros [Hz Az]. pose proof (Lm z Hz Az). destruct (Z.eq_dec m z); [left; assumption|]. right. split; [exact Hz|lia]. }
    intros i acc Fa Hi HN. cbn [length] in HN.
    destruct (Bl (i + 1) acc Fa) as (acc1 & E1 & S1 & V1); [lia|lia|]. rewrite E1. cbn [bind].
    assert (F1 : vfull acc1 = true) by (rewrite (shape_vfull _ _ S1); exact Fa).
    assert (N1 : vN acc1 = vN acc) by exact (shape_vN _ _ S1).
    destruct (vwrite_in (IC m) acc1 i F1) as (acc2 & E2 & V2 & S2); [lia|].
    exists acc2. split; [exact E2|]. split; [congruence|]. intros k. rewrite V2.
    assert (Sk : forall (l0 : list cv) n k', nth_error (skipn n l0) k' = nth_error l0 (n + k')%nat).
    { clear. intros l0 n. revert l0. induction n as [|n IHn]; intros l0 k'; [reflexivity|]. destruct l0 as [|x l0]; [destruct k'; reflexivity|]. cbn [skipn Nat.add nth_error]. apply IHn. }
    rewrite Sk. pose proof (vN_len acc1) as L1. destruct k as [|k].
    + rewrite Nat.add_0_r, put_same by lia. reflexivity.
    + rewrite put_other by lia. cbn [map nth_error]. rewrite <- V1, Sk. f_equal. lia.
Qed.

Lemma vunique_ok t : vfull t = true -> all_ic t -> vN t <= 2 ^ 31 ->
  exists u l, vunique t = Some u /\ vfull u = true /\ velems u = map IC l /\ StronglySorted Z.lt l /\ (forall z, In z l <-> In (IC z) (velems t)).
Proof.
  intros Hf Hic HN. unfold vunique.
  assert (Hle : forall (f : cv -> bool) l, (length (filter f l) <= length l)%nat).
  { intros f. induction l as [|x l IH]; [reflexivity|]. cbn [filter length]. destruct (f x); cbn [length]; lia. }
  pose proof (Hle (aboveb Lower) (velems t)) as Hl. pose proof (vN_len t) as Lt.
  destruct (uniq_ok t Hf Hic (Z.to_nat (vN t) + 2)%nat Lower) as (l & EN & Sl & Il & Bl); [discriminate|lia|].
  rewrite EN. cbn [bind].
  assert (Hpos : (0 < length l)%nat).
  { destruct (velems t) as [|c tl] eqn:E; [pose proof (vfull_pos t Hf); cbn in Lt; lia|].
    assert (Hc : In c (velems t)) by (rewrite E; left; reflexivity). destruct (Hic c Hc) as [z ->].
    assert (Hz : In z l) by (apply Il; split; [left; reflexivity|exact I]). destruct l; [destruct Hz|cbn; lia]. }
  assert (Hlen : Z.of_nat (length l) <= vN t).
  { assert (NoDup l). { clear - Sl. induction Sl as [|a l Sl IH F]; constructor; [|exact IH]. intros Ha. rewrite Forall_forall in F. specialize (F a Ha). lia. }
    assert (incl (map IC l) (velems t)). { intros c Hc. apply in_map_iff in Hc. destruct Hc as (z & <- & Hz). apply Il in Hz. exact (proj1 Hz). }
    pose proof (NoDup_incl_length (FinFun.Injective_map_NoDup (f := IC) ltac:(intros x y E; congruence) H) H0) as G. rewrite map_length in G. lia. }
  destruct (vcreate_ok (IC 0) 63 (Z.of_nat (length l))) as (z & Ez & Fz & Vz); [lia|]. rewrite Ez. cbn [bind].
  destruct (Bl 0 z Fz) as (u & Eu & Su & Vu); [lia|rewrite vN_len, Vz, repeat_length; lia|].
  exists u, l. split; [exact Eu|]. split; [rewrite (shape_vfull _ _ Su); exact Fz|]. split; [|split; [exact Sl|]].
  - cbn [skipn Z.to_nat] in Vu.
    clear - Vu. revert Vu. generalize (velems u), (map IC l). induction l0 as [|x l0 IH]; intros [|y l1] V; [reflexivity|specialize (V O); discriminate V|specialize (V O); discriminate V|].
    f_equal; [specialize (V O); injection V as E; exact E|]. apply IH. intros k. exact (V (S k)).
  - intros y. rewrite Il. cbn [above]. tauto.
Qed.
Lemma strong_sorted_unique l : forall l', StronglySorted Z.lt l -> StronglySorted Z.lt l' -> (forall z, In z l <-> In z l') -> l = l'.
Proof.
  induction l as [|a l IH]; intros [|b l'] S S' H; [reflexivity|destruct (proj2 (H b)); left; reflexivity|destruct (proj1 (H a)); left; reflexivity|].
  inversion S as [|? ? S1 F1]; subst. inversion S' as [|? ? S2 F2]; subst. rewrite Forall_forall in F1, F2.
  assert (a = b).
  { destruct (proj1 (H a) (or_introl eq_refl)) as [E|E]; [congruence|]. destruct (proj2 (H b) (or_introl eq_refl)) as [E'|E']; [congruence|].
    specialize (F1 b E'). specialize (F2 a E). lia. }
  subst b. f_equal. apply IH; try assumption. intros z. split; intros Hz.
  - destruct (proj1 (H z) (or_intror Hz)) as [E|E]; [|exact E]. subst z. specialize (F1 a Hz). lia.
  - destruct (proj2 (H z) (or_intror Hz)) as [E|E]; [|exact E]. subst z. specialize (F2 a Hz). lia.
Qed.

(** ** Reductions *)
(** With an associative reduction the tree shape does not matter. *)
Fixpoint fold1 {A} (f : A -> A -> A) (x : A) (l : list A) : A := match l with [] => x | y :: l => fold1 f (f x y) l end.
Lemma fold1_app {A} (f : A -> A -> A) : (forall a b c, f a (f b c) = f (f a b) c) -> forall l x y l',
  fold1 f x (l ++ y :: l') = f (fold1 f x l) (fold1 f y l').
Proof.
  intros As. assert (G : forall l' a b, fold1 f (f a b) l' = f a (fold1 f b l')).
  { induction l' as [|c l' IH]; intros a b; cbn [fold1]; [reflexivity|]. rewrite <- As. apply IH. }
  induction l as [|z l IH]; intros x y l'; cbn [app fold1]; [apply G|apply IH].
Qed.
Lemma vmap_reduce_ok {T A} (g : Z -> T -> A) (f : A -> A -> A) (t : vec T) : (forall a b c, f a (f b c) = f (f a b) c) ->
  vfull t = true -> forall off, exists x l,
    map (fun p => g (fst p) (snd p)) (combine (map (fun i => off + Z.of_nat i) (seq 0 (length (velems t)))) (velems t)) = x :: l /\
    vmap_reduce (fun o c => Some (g o c)) (fun a b => Some (f a b)) off t = Some (fold1 f x l).
Proof.
  intros As. induction t as [|v|a IHa b IHb]; cbn [vfull]; intros H off; [discriminate| |].
  - exists (g (off + 0) v), []. split; [reflexivity|]. cbn. rewrite Z.add_0_r. reflexivity.
  - assert (H0 := H). apply andb_true_iff in H. destruct H as [Ha Hb].
    destruct (IHa Ha off) as (x & l & El & Ex). destruct (IHb Hb (off + vN a)) as (y & l' & El' & Ey).
    pose proof (vfor_each_ok (Branch a b) H0 off) as F. cbn [vfor_each] in F. rewrite (vfor_each_ok a Ha), (vfor_each_ok b Hb) in F. cbn [bind] in F.
    injection F as F. cbn [vmap_reduce]. rewrite Ex, Ey. cbn [bind].
    exists x, (l ++ y :: l'). split; [cbn [velems]; rewrite <- F, map_app, El, El'; reflexivity|]. rewrite fold1_app by exact As. reflexivity.
Qed.
