(** The comparisons of the test programs and the loops around them. *)
From Coq Require Import ZArith List Bool Lia.
From Verif Require Import Fw FwLemmas Spec SpecLemmas SpecTests Flopoco FlopocoLemmas FlopocoProofs CompareProofs MpfrLib Mpfr MpfrRange MpfrProofs MpfrProofs2 Policy PolicyProofs PolicyProofs6 Tests TestsProofs TestsProofs2.
Import ListNotations.
Open Scope Z_scope.

Lemma cmp_idx F m e n f : 0 <= F -> 2 ^ F <= m < 2 ^ (F + 1) -> 2 ^ F <= n < 2 ^ (F + 1) ->
  cmp_num m e n f = (idx F m e ?= idx F n f).
Proof.
  intros HF Hm Hn. pose proof (pow2_S F HF) as P1. pose proof (pow2_pos F HF) as P0. unfold idx.
  destruct (Z.lt_trichotomy e f) as [L|[->|L]].
  - rewrite (cmp_num_k _ _ _ _ e) by lia. rewrite Z.sub_diag, Z.pow_0_r, Z.mul_1_r.
    replace (f - e) with (f - e - 1 + 1) by lia. rewrite pow2_S by lia. pose proof (pow2_pos (f - e - 1) ltac:(lia)) as PD.
    assert (1 <= 2 ^ (f - e - 1)) by lia. transitivity Lt; [apply Z.compare_lt_iff|symmetry; apply Z.compare_lt_iff]; nia.
  - rewrite (cmp_num_k _ _ _ _ f) by lia. rewrite Z.sub_diag, Z.pow_0_r, !Z.mul_1_r.
    destruct (Z.compare_spec m n); symmetry; [apply Z.compare_eq_iff|apply Z.compare_lt_iff|apply Z.compare_gt_iff]; lia.
  - rewrite (cmp_num_k _ _ _ _ f) by lia. rewrite Z.sub_diag, Z.pow_0_r, Z.mul_1_r.
    replace (e - f) with (e - f - 1 + 1) by lia. rewrite pow2_S by lia. pose proof (pow2_pos (e - f - 1) ltac:(lia)) as PD.
    transitivity Gt; [apply Z.compare_gt_iff|symmetry; apply Z.compare_gt_iff]; nia.
Qed.

(** Data of a format, as MPFR numbers of precision F+1. *)
Definition normal_v (F : Z) (v : fval) : Prop :=
  match v with Num _ m e => 2 ^ F <= m < 2 ^ (F + 1) /\ - 2 ^ 29 <= e + F <= 2 ^ 29 | _ => True end.
Lemma decode_normal E F x : ok_ef E F -> wf (E + F + 3) x -> normal_v F (decode E F x).
Proof.
  intros [HE HF] Hx. destruct (pack_view E F x ltac:(lia) ltac:(lia) Hx) as (fl & s & ey & f & O & ->). rewrite decode_pack by assumption.
  destruct O as (_ & _ & Hfl & He & Hf). destruct (fl =? 0); [exact I|]. destruct (fl =? 1); [|destruct (fl =? 2); exact I].
  assert (B : 2 ^ E = 2 * bias E + 2) by (unfold bias; replace E with (E - 1 + 1) at 1 by lia; rewrite pow2_S by lia; lia).
  assert (2 ^ (E - 1) <= 2 ^ 29) by (apply Z.pow_le_mono_r; lia). assert (bias E = 2 ^ (E - 1) - 1) by reflexivity.
  pose proof (pow2_S F ltac:(lia)). cbn [normal_v]. split; lia.
Qed.
Lemma neg_normal F v : normal_v F v -> normal_v F (neg_spec v). Proof. destruct v; auto. Qed.
Lemma neg_neg v : neg_spec (neg_spec v) = v. Proof. destruct v as [|[]|[]|[]]; reflexivity. Qed.
Lemma vcmp_neg x y : vcmp (neg_spec x) (neg_spec y) = vcmp y x.
Proof.
  rewrite (vcmp_swap x y). destruct x as [|[]|[]|s m e], y as [|[]|[]|t n f]; try reflexivity; try (destruct s; reflexivity); try (destruct t; reflexivity).
  cbn [neg_spec vcmp]. f_equal. rewrite <- cmp_num_opp. f_equal; unfold sgn; [destruct s|destruct t]; cbn [negb]; lia.
Qed.
Lemma near_neg F g v : near F (neg_spec g) (neg_spec v) <-> near F g v.
Proof.
  assert (K : forall g v, near F g v -> near F (neg_spec g) (neg_spec v)).
  { clear g v. intros g v [->|[->|H]]; [left; reflexivity|right; left; reflexivity|right; right]. intros s q k Hq.
    destruct (H (negb s) q k Hq) as [H1 H2]. change (Num s q k) with (Num s q k). replace (Num s q k) with (neg_spec (Num (negb s) q k)) by (cbn; rewrite negb_involutive; reflexivity).
    unfold between in *. rewrite !vcmp_neg. tauto. }
  split; [|apply K]. intros H. apply K in H. rewrite !neg_neg in H. exact H.
Qed.

Lemma some_inj {A} (x y : A) : Some x = Some y -> x = y. Proof. congruence. Qed.
Lemma up_idx F m e : 1 <= F <= 128 -> 2 ^ F <= m < 2 ^ (F + 1) -> - 2 ^ 29 <= e + F <= 2 ^ 29 ->
  exists m' e', mp_up (F + 1) m e = Num false m' e' /\ 2 ^ F <= m' < 2 ^ (F + 1) /\ idx F m' e' = idx F m e + 1.
Proof. intros HF Hm He. exact (next_above F (- 2 ^ 29) (2 ^ 29) HF ltac:(split; [vm_compute; discriminate|lia]) m e Hm He). Qed.
Lemma down_idx F m e : 1 <= F <= 128 -> 2 ^ F <= m < 2 ^ (F + 1) -> - 2 ^ 29 <= e + F <= 2 ^ 29 ->
  exists m' e', mp_down (F + 1) m e = Num false m' e' /\ 2 ^ F <= m' < 2 ^ (F + 1) /\ idx F m' e' = idx F m e - 1.
Proof.
  intros HF Hm He. destruct (next_below F (- 2 ^ 29) (2 ^ 29) HF ltac:(split; [lia|vm_compute; discriminate]) m e Hm He) as (m' & e' & H & K).
  exists m', e'. split; [|exact K]. unfold mpfr_nextbelow in H. cbn [neg_spec negb mpfr_nextabove] in H. rewrite neg_neg in H. exact H.
Qed.
Lemma vcmp_pos F m e n f : 0 <= F -> 2 ^ F <= m < 2 ^ (F + 1) -> 2 ^ F <= n < 2 ^ (F + 1) ->
  vcmp (Num false m e) (Num false n f) = Some (idx F m e ?= idx F n f).
Proof. intros. cbn [vcmp sgn]. rewrite cmp_idx with (F := F) by assumption. reflexivity. Qed.
Lemma vcmp_negs F m e n f : 0 <= F -> 2 ^ F <= m < 2 ^ (F + 1) -> 2 ^ F <= n < 2 ^ (F + 1) ->
  vcmp (Num true m e) (Num true n f) = Some (idx F n f ?= idx F m e).
Proof. intros. rewrite <- (vcmp_pos F n f m e) by assumption. exact (vcmp_neg (Num false m e) (Num false n f)). Qed.
Lemma vcmp_np F m e n f : 0 <= F -> 2 ^ F <= m < 2 ^ (F + 1) -> 2 ^ F <= n < 2 ^ (F + 1) ->
  vcmp (Num true m e) (Num false n f) = Some Lt /\ vcmp (Num false m e) (Num true n f) = Some Gt.
Proof.
  intros HF Hm Hn. pose proof (pow2_pos F HF) as PF. destruct (cmp_num_pos_neg m e n f ltac:(lia) ltac:(lia)) as [A B]. cbn [vcmp sgn].
  rewrite A, B. auto.
Qed.
Lemma mpfr_eq x y : x <> NaN -> y <> NaN -> (mpfr_cmp x y = Eq <-> vcmp x y = Some Eq).
Proof. intros Hx Hy. rewrite mpfr_cmp_vcmp. replace (mpfr_unordered_p x y) with false by (destruct x, y; try congruence; reflexivity). split; congruence. Qed.
Lemma near_lt F g v : 1 <= F <= 128 -> normal_v F g -> normal_v F v -> vcmp g v = Some Lt ->
  (mpfr_cmp (mpfr_nextabove (F + 1) g) v = Eq <-> near F g v).
Proof.
  intros HF Ng Nv L. pose proof (pow2_pos F ltac:(lia)) as PF. pose proof (pow2_S F ltac:(lia)) as P1. destruct mp_one30 as (R1 & R2 & R3).
  assert (Gn : g <> NaN) by (intros ->; discriminate L). assert (Vn : v <> NaN) by (intros ->; destruct g; discriminate L).
  assert (W : forall s q k, 2 ^ F <= q < 2 ^ (F + 1) -> between g (Num s q k) v -> near F g v -> False).
  { intros s q k Hq B [->|[->|H]]; [congruence|congruence|]. destruct (H s q k Hq) as [K _]. exact (K B). }
  assert (No : forall s q k, mpfr_cmp (mpfr_nextabove (F + 1) g) v <> Eq -> 2 ^ F <= q < 2 ^ (F + 1) -> between g (Num s q k) v ->
    (mpfr_cmp (mpfr_nextabove (F + 1) g) v = Eq <-> near F g v)).
  { intros s q k H1 Hq B. split; [intros H; contradiction|intros H; exfalso; exact (W s q k Hq B H)]. }
  assert (Q : 2 ^ F <= 2 ^ F < 2 ^ (F + 1)) by lia.
  destruct g as [|[]|z|[] m e]; try congruence.
  - (* -inf *) cbn [mpfr_nextabove] in *.
    assert (X : 2 ^ F <= 2 ^ (F + 1) - 1 < 2 ^ (F + 1)) by lia.
    destruct v as [|[]|z|[] n f]; try congruence; try discriminate L.
    + apply (No true (2 ^ F) 0); [cbn [mpfr_cmp]; discriminate|exact Q|split; reflexivity].
    + apply (No true (2 ^ F) 0); [cbn [mpfr_cmp]; discriminate|exact Q|split; reflexivity].
    + cbn [normal_v] in Nv. apply (No true (2 ^ F) (f + 1)); [|exact Q|split; [reflexivity|]].
      * rewrite mpfr_eq by discriminate. rewrite (vcmp_negs F) by (lia || tauto). intros H. apply some_inj in H. apply Z.compare_eq_iff in H.
        unfold idx in H. nia.
      * rewrite (vcmp_negs F) by (lia || tauto). f_equal. apply Z.compare_lt_iff. unfold idx. nia.
    + cbn [normal_v] in Nv. apply (No true (2 ^ F) 0); [|exact Q|split; [reflexivity|]].
      * rewrite mpfr_eq by discriminate. rewrite (proj1 (vcmp_np F _ _ _ _ ltac:(lia) X (proj1 Nv))). discriminate.
      * apply (vcmp_np F); (lia || tauto).
  - (* +inf *) destruct v as [|[]|z|[] n f]; discriminate L || congruence.
  - (* zero *) cbn [mpfr_nextabove] in *. replace (F + 1 - 1) with F in * by lia.
    destruct v as [|[]|z'|[] n f]; try congruence; try discriminate L.
    + apply (No false (2 ^ F) 0); [cbn [mpfr_cmp]; discriminate|exact Q|split; reflexivity].
    + cbn [normal_v] in Nv. apply (No false (2 ^ F) (f - 1)); [|exact Q|split; [reflexivity|]].
      * rewrite mpfr_eq by discriminate. rewrite (vcmp_pos F) by (lia || tauto). intros H. apply some_inj in H. apply Z.compare_eq_iff in H.
        unfold idx in H. nia.
      * rewrite (vcmp_pos F) by (lia || tauto). f_equal. apply Z.compare_lt_iff. unfold idx. nia.
  - (* negative *) destruct Ng as [Hm He]. destruct (down_idx F m e HF Hm He) as (m' & e' & D & Hm' & I). cbn [mpfr_nextabove] in *. rewrite D in *. cbn [neg_spec negb] in *.
    destruct v as [|[]|z|[] n f]; try congruence; try discriminate L.
    + apply (No true (2 ^ F) (e - 1)); [discriminate|exact Q|split; [|reflexivity]].
      rewrite (vcmp_negs F) by (lia || tauto). f_equal. apply Z.compare_lt_iff. unfold idx. nia.
    + apply (No true (2 ^ F) (e - 1)); [discriminate|exact Q|split; [|reflexivity]].
      rewrite (vcmp_negs F) by (lia || tauto). f_equal. apply Z.compare_lt_iff. unfold idx. nia.
    + destruct Nv as [Hn Hf]. rewrite (vcmp_negs F) in L by (lia || tauto). apply some_inj in L. rewrite Z.compare_lt_iff in L.
      rewrite mpfr_eq by discriminate. rewrite (vcmp_negs F) by (lia || tauto). split.
      * intros H. apply some_inj in H. apply Z.compare_eq_iff in H. right; right. intros s q k Hq. unfold between. destruct s.
        -- rewrite !(vcmp_negs F) by (lia || tauto). split; intros [A B]; apply some_inj in A; apply some_inj in B; rewrite Z.compare_lt_iff in A, B; lia.
        -- destruct (vcmp_np F q k n f ltac:(lia) Hq Hn) as [_ A]. destruct (vcmp_np F q k m e ltac:(lia) Hq Hm) as [_ B]. rewrite A, B. split; intros [_ ?]; discriminate.
      * intros H. f_equal. apply Z.compare_eq_iff. destruct (Z.eq_dec (idx F n f) (idx F m' e')) as [C|C]; [exact C|exfalso].
        refine (W true m' e' Hm' _ H). unfold between. rewrite !(vcmp_negs F) by (lia || tauto). split; f_equal; apply Z.compare_lt_iff; lia.
    + destruct Nv as [Hn Hf]. apply (No true (2 ^ F) (e - 1)); [|exact Q|split].
      * rewrite mpfr_eq by discriminate. rewrite (proj1 (vcmp_np F _ _ _ _ ltac:(lia) Hm' Hn)). discriminate.
      * rewrite (vcmp_negs F) by (lia || tauto). f_equal. apply Z.compare_lt_iff. unfold idx. nia.
      * apply (vcmp_np F); (lia || tauto).
  - (* positive *) destruct Ng as [Hm He]. destruct (up_idx F m e HF Hm He) as (m' & e' & D & Hm' & I). cbn [mpfr_nextabove] in *. rewrite D in *.
    destruct v as [|[]|z|[] n f]; try congruence; try discriminate L.
    + apply (No false (2 ^ F) (e + 1)); [discriminate|exact Q|split; [|reflexivity]].
      rewrite (vcmp_pos F) by (lia || tauto). f_equal. apply Z.compare_lt_iff. unfold idx. nia.
    + destruct Nv as [Hn Hf]. rewrite (proj2 (vcmp_np F m e n f ltac:(lia) Hm Hn)) in L. discriminate L.
    + destruct Nv as [Hn Hf]. rewrite (vcmp_pos F) in L by (lia || tauto). apply some_inj in L. rewrite Z.compare_lt_iff in L.
      rewrite mpfr_eq by discriminate. rewrite (vcmp_pos F) by (lia || tauto). split.
      * intros H. apply some_inj in H. apply Z.compare_eq_iff in H. right; right. intros s q k Hq. unfold between. destruct s.
        -- destruct (vcmp_np F m e q k ltac:(lia) Hm Hq) as [_ A]. destruct (vcmp_np F n f q k ltac:(lia) Hn Hq) as [_ B]. rewrite A, B. split; intros [? _]; discriminate.
        -- rewrite !(vcmp_pos F) by (lia || tauto). split; intros [A B]; apply some_inj in A; apply some_inj in B; rewrite Z.compare_lt_iff in A, B; lia.
      * intros H. f_equal. apply Z.compare_eq_iff. destruct (Z.eq_dec (idx F n f) (idx F m' e')) as [C|C]; [symmetry; exact C|exfalso].
        refine (W false m' e' Hm' _ H). unfold between. rewrite !(vcmp_pos F) by (lia || tauto). split; f_equal; apply Z.compare_lt_iff; lia.
Qed.

Lemma near_eq F g v : 1 <= F -> normal_v F g -> normal_v F v -> vcmp g v = Some Eq -> near F g v.
Proof.
  intros HF Ng Nv H. right; right. intros s q k Hq. unfold between.
  destruct g as [|[]|a|[] m e], v as [|[]|b|[] n f]; try discriminate H; cbn [normal_v] in Ng, Nv;
    try (destruct s; split; intros [A B]; discriminate A || discriminate B; fail).
  - destruct Ng as [Hm He], Nv as [Hn Hf]. rewrite (vcmp_negs F) in H by (lia || tauto). apply some_inj in H. rewrite Z.compare_eq_iff in H. destruct s.
    + rewrite !(vcmp_negs F) by (lia || tauto). split; intros [A B]; apply some_inj in A; apply some_inj in B; rewrite Z.compare_lt_iff in A, B; lia.
    + destruct (vcmp_np F q k n f ltac:(lia) Hq Hn) as [_ A]. destruct (vcmp_np F q k m e ltac:(lia) Hq Hm) as [_ B]. rewrite A, B. split; intros [_ ?]; discriminate.
  - rewrite (proj1 (vcmp_np F m e n f ltac:(lia) (proj1 Ng) (proj1 Nv))) in H. discriminate H.
  - rewrite (proj2 (vcmp_np F m e n f ltac:(lia) (proj1 Ng) (proj1 Nv))) in H. discriminate H.
  - destruct Ng as [Hm He], Nv as [Hn Hf]. rewrite (vcmp_pos F) in H by (lia || tauto). apply some_inj in H. rewrite Z.compare_eq_iff in H. destruct s.
    + destruct (vcmp_np F m e q k ltac:(lia) Hm Hq) as [_ A]. destruct (vcmp_np F n f q k ltac:(lia) Hn Hq) as [_ B]. rewrite A, B. split; intros [? _]; discriminate.
    + rewrite !(vcmp_pos F) by (lia || tauto). split; intros [A B]; apply some_inj in A; apply some_inj in B; rewrite Z.compare_lt_iff in A, B; lia.
Qed.

Lemma nexttoward_near F g v : 1 <= F <= 128 -> normal_v F g -> normal_v F v ->
  (mpfr_cmp (mpfr_nexttoward (F + 1) g v) v = Eq <-> near F g v).
Proof.
  intros HF Ng Nv. unfold mpfr_nexttoward. pose proof (mpfr_cmp_vcmp g v) as C. destruct (mpfr_unordered_p g v) eqn:U.
  - split; [intros _|reflexivity]. unfold near. destruct g; [auto|..]; destruct v; try discriminate U; auto.
  - destruct (mpfr_cmp g v) eqn:M.
    + split; [intros _; apply near_eq; (lia || assumption)|intros _; exact M].
    + apply near_lt; assumption.
    + rewrite <- near_neg, <- near_lt; [|lia|apply neg_normal; assumption|apply neg_normal; assumption|rewrite vcmp_neg, vcmp_swap, C; reflexivity].
      unfold mpfr_nextbelow. set (x := mpfr_nextabove (F + 1) (neg_spec g)).
      assert (Gn : mpfr_nan_p v = false) by (unfold mpfr_unordered_p in U; destruct (mpfr_nan_p v); [rewrite orb_true_r in U; discriminate U|reflexivity]).
      destruct (mpfr_nan_p x) eqn:X.
      * destruct x; try discriminate X. cbn. tauto.
      * rewrite !mpfr_eq by (intros Y; try rewrite Y in *; try discriminate; destruct x, v; discriminate). rewrite <- (neg_neg v) at 1. rewrite vcmp_neg, vcmp_swap.
        destruct (vcmp x (neg_spec v)) as [[]|]; cbn; split; congruence.
Qed.

Lemma near_refl F v : 1 <= F -> normal_v F v -> near F v v.
Proof.
  intros HF N. destruct v as [|[]|z|s m e]; [left; reflexivity|..]; (apply near_eq; [lia|exact N|exact N|]); try reflexivity.
  cbn [vcmp]. f_equal. unfold cmp_num. apply Z.compare_refl.
Qed.
Theorem near_ok E F g r : ok_ef E F -> wf (E + F + 3) g -> wf (E + F + 3) r ->
  exists b, near_or_exit E F (Some g) (Some r) = Some b /\ (b = true <-> near F (decode E F g) (decode E F r)).
Proof.
  intros HO Hg Hr. pose proof HO as [HE HF]. unfold near_or_exit. cbn [bind].
  destruct (equals_correct E F r g ltac:(lia) ltac:(lia) Hr Hg) as [[-> Q]|[-> Q]].
  - exists true. split; [reflexivity|]. split; [intros _|reflexivity]. rewrite Q. apply near_refl; [lia|apply decode_normal; assumption].
  - change (negb (to_bool 0)) with true. cbv iota. rewrite !fl_get_ok by assumption. cbn [bind]. eexists. split; [reflexivity|].
    rewrite <- nexttoward_near by (assumption || apply decode_normal; assumption).
    destruct (mpfr_cmp _ (decode E F r)); split; congruence.
Qed.
Theorem same_ok E F g r : ok_ef E F -> wf (E + F + 3) g -> wf (E + F + 3) r ->
  exists b, same_or_exit E F (Some g) (Some r) = Some b /\ (b = true <-> decode E F g = decode E F r).
Proof.
  intros [HE HF] Hg Hr. unfold same_or_exit. cbn [bind]. eexists. split; [reflexivity|].
  destruct (equals_correct E F r g ltac:(lia) ltac:(lia) Hr Hg) as [[-> Q]|[-> Q]]; unfold to_bool; cbn; split; congruence.
Qed.

(** ** Loops *)
Lemma each_ok {A} (test : A -> option bool) (Q : A -> Prop) l :
  (forall x, In x l -> exists b, test x = Some b /\ (b = true <-> Q x)) ->
  exists b, each test l = Some b /\ (b = true <-> forall x, In x l -> Q x).
Proof.
  induction l as [|x l IH]; intros H; cbn [each].
  - exists true. split; [reflexivity|]. split; [intros _ x []|reflexivity].
  - destruct (H x (or_introl eq_refl)) as (b & -> & Hb). cbn [bind]. destruct b.
    + destruct (IH (fun y Hy => H y (or_intror Hy))) as (b & -> & Hl). exists b. split; [reflexivity|]. rewrite Hl. cbn [In]. split.
      * intros K y [<-|Hy]; [apply Hb; reflexivity|apply K; exact Hy].
      * intros K y Hy. apply K. right. exact Hy.
    + exists false. split; [reflexivity|]. split; [discriminate|]. intros K. apply Hb, K. left. reflexivity.
Qed.
Lemma each2_ok (test : Z -> Z -> option bool) (Q : Z -> Z -> Prop) la lb :
  (forall a b, In a la -> In b lb -> exists r, test a b = Some r /\ (r = true <-> Q a b)) ->
  exists r, each2 test la lb = Some r /\ (r = true <-> forall a b, In a la -> In b lb -> Q a b).
Proof.
  intros H. destruct (each_ok (fun a => each (test a) lb) (fun a => forall b, In b lb -> Q a b) la) as (r & E & K).
  - intros a Ha. apply each_ok. intros b Hb. apply H; assumption.
  - exists r. split; [exact E|]. rewrite K. firstorder.
Qed.
Lemma each2_true (test : Z -> Z -> option bool) la lb : (forall a b, In a la -> In b lb -> test a b = Some true) -> each2 test la lb = Some true.
Proof.
  intros H. destruct (each2_ok test (fun _ _ => True) la lb) as (r & E & K).
  - intros a b Ha Hb. exists true. rewrite (H a b Ha Hb). tauto.
  - rewrite E, (proj2 K); auto.
Qed.
