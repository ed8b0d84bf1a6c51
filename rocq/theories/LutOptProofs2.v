(** Consequences of the shape of a lut_opt step. *)
From Coq Require Import ZArith Bool List Lia Permutation Sorting.Sorted.
From Verif Require Import Fw FwLemmas SpecCt Lcg LcgProofs CtVec CtVecProofs CtVecProofs2 LutOpt LutOptProofs.
Import ListNotations.
Open Scope Z_scope.

Lemma insert_sorted x l : StronglySorted Z.lt l -> exists l', StronglySorted Z.lt l' /\ (forall z, In z l' <-> z = x \/ In z l) /\ (length l' <= S (length l))%nat.
Proof.
  induction 1 as [|a l Sl IH F].
  - exists [x]. split; [repeat constructor|]. split; [|cbn; lia]. intros z. cbn. intuition congruence.
  - destruct IH as (l' & S' & I' & L'). destruct (Z.lt_total x a) as [L|[E|L]].
    + exists (x :: a :: l). split; [constructor; [constructor; assumption|]|].
      * constructor; [exact L|]. eapply Forall_impl; [|exact F]. intros y Hy. cbv beta in *. lia.
      * split; [|cbn; lia]. intros z. cbn. intuition congruence.
    + exists (a :: l). split; [constructor; assumption|]. split; [|cbn; lia]. intros z. cbn. intuition congruence.
    + exists (a :: l'). split; [constructor; [exact S'|]|].
      * rewrite Forall_forall in *. intros z Hz. apply I' in Hz. destruct Hz as [->|Hz]; [exact L|apply F; exact Hz].
      * split; [|cbn; lia]. intros z. cbn. rewrite I'. intuition congruence.
Qed.
Lemma sorted_exists l : exists l', StronglySorted Z.lt l' /\ (forall z, In z l' <-> In z l) /\ (length l' <= length l)%nat.
Proof.
  induction l as [|x l (l' & S' & I' & L')]; [exists []; split; [constructor|]; split; [tauto|reflexivity]|].
  destruct (insert_sorted x l' S') as (m & Sm & Im & Lm). exists m. split; [exact Sm|]. split; [|cbn; lia].
  intros z. rewrite Im, I'. cbn. intuition congruence.
Qed.

Lemma taps_srcs next N T x o b : taps next N T x o b <->
  In b (map (fun p => nth (Z.to_nat (nth (N - 1 - Z.to_nat o) (fst (shuffle next N (snd (shuffles next T x (rotation 1 N))) (rotation 1 N))) 0)) p 0)
    (fst (shuffles next T x (rotation 1 N)))).
Proof.
  unfold taps. destruct (shuffles next T x (rotation 1 N)) as [ps x1]. cbn [fst snd]. destruct (shuffle next N x1 (rotation 1 N)) as [out x2]. reflexivity.
Qed.

Section Facts.
Context (N T S : Z) (HN : 1 <= N < 2 ^ 31) (HT : 1 <= T < 2 ^ 31) (HS : 0 <= S < 2 ^ 32).
Let tp := taps (step lcg_A lcg_C) (Z.to_nat N) (Z.to_nat T) S.
Let n := Z.to_nat N.
Let ps := fst (shuffles (step lcg_A lcg_C) (Z.to_nat T) S (rotation 1 n)).
Let out := fst (shuffle (step lcg_A lcg_C) n (snd (shuffles (step lcg_A lcg_C) (Z.to_nat T) S (rotation 1 n))) (rotation 1 n)).

Lemma idx o : 0 <= o < N -> (n - 1 - Z.to_nat o < n)%nat.
Proof. clear - HN. intros Ho. unfold n. lia. Qed.
Lemma step_bits s : 0 <= s < 2 ^ N -> exists r, lut_opt_step N T S s = Some r /\ 0 <= r < 2 ^ N /\
  forall o, 0 <= o < N -> forall l, StronglySorted Z.lt l -> (forall b, In b l <-> tp o b) -> Z.testbit r o = xor_bits s l.
Proof.
  intros Hs. destruct (lut_step_ok N T S HN HT HS s Hs) as (_ & _ & _ & r & E & R & B). exists r. split; [exact E|]. split; [exact R|].
  intros o Ho l Sl Il. apply B; [exact Ho|exact Sl|]. intros z. rewrite Il. unfold tp. rewrite taps_srcs. reflexivity.
Qed.
Lemma plan_facts : Forall (Permutation (rotation 1 n)) ps /\ length ps = Z.to_nat T /\ Permutation (rotation 1 n) out.
Proof. destruct (lut_step_ok N T S HN HT HS 0) as (A & B & C & _); [pose proof (pow2_pos N); lia|]. split; [exact A|]. split; [exact B|exact C]. Qed.
Lemma tp_def o b : tp o b <-> In b (map (fun p => nth (Z.to_nat (nth (n - 1 - Z.to_nat o) out 0)) p 0) ps).
Proof. apply taps_srcs. Qed.
Lemma out_range v : In v out -> 0 <= v < N.
Proof.
  intros Hv. destruct plan_facts as (_ & _ & P). apply (Permutation_in _ (Permutation_sym P)) in Hv. apply rotation_in in Hv; unfold n in *; lia.
Qed.
Lemma out_length : length out = n.
Proof. destruct plan_facts as (_ & _ & P). rewrite <- (Permutation_length P). apply rotation_length. Qed.
Lemma ps_length p : In p ps -> length p = n.
Proof. intros Hp. destruct plan_facts as (F & _ & _). rewrite Forall_forall in F. rewrite <- (Permutation_length (F p Hp)). apply rotation_length. Qed.
Lemma ps_perm p : In p ps -> Permutation (rotation 1 n) p.
Proof. intros Hp. destruct plan_facts as (F & _ & _). rewrite Forall_forall in F. exact (F p Hp). Qed.

Lemma list_pos {A} (l : list A) k : length l = k -> (0 < k)%nat -> exists p, In p l.
Proof. intros <-. destruct l as [|p l]; cbn; [lia|]. intros _. exists p. left. reflexivity. Qed.
Lemma ps_some : exists p, In p ps.
Proof. destruct plan_facts as (_ & L & _). apply (list_pos ps (Z.to_nat T) L). clear - HT. lia. Qed.
Lemma tap_list o : 0 <= o < N -> exists l, StronglySorted Z.lt l /\ (forall b, In b l <-> tp o b) /\
  1 <= Z.of_nat (length l) <= T /\ forall b, In b l -> 0 <= b < N.
Proof.
  intros Ho. destruct (sorted_exists (map (fun p => nth (Z.to_nat (nth (n - 1 - Z.to_nat o) out 0)) p 0) ps)) as (l & Sl & Il & Ll).
  exists l. split; [exact Sl|]. split; [intros b; rewrite Il, tp_def; reflexivity|].
  destruct plan_facts as (F & L & P). rewrite map_length, L in Ll. split.
  - split; [|lia]. destruct ps_some as (p & Hp).
    assert (H : In (nth (Z.to_nat (nth (n - 1 - Z.to_nat o) out 0)) p 0) l) by (apply Il, in_map_iff; exists p; split; [reflexivity|exact Hp]).
    destruct l; [destruct H|cbn; lia].
  - intros b Hb. apply Il in Hb. apply in_map_iff in Hb. destruct Hb as (p & <- & Hp).
    assert (Hv : 0 <= nth (n - 1 - Z.to_nat o) out 0 < N) by (apply out_range, nth_In; rewrite out_length; apply idx; exact Ho).
    assert (In (nth (Z.to_nat (nth (n - 1 - Z.to_nat o) out 0)) p 0) (rotation 1 n)).
    { apply (Permutation_in _ (Permutation_sym (ps_perm p Hp))), nth_In. rewrite (ps_length p Hp). clear - Hv. unfold n in *. lia. }
    apply rotation_in in H; unfold n in *; lia.
Qed.

Lemma xor_bits_lxor s t l : (forall b, In b l -> 0 <= b) -> xor_bits (Z.lxor s t) l = xorb (xor_bits s l) (xor_bits t l).
Proof.
  unfold xor_bits. induction l as [|x l IH]; intros H; [reflexivity|]. cbn [map fold_right]. rewrite IH by (intros; apply H; right; assumption).
  rewrite Z.lxor_spec. destruct (Z.testbit s x), (Z.testbit t x), (fold_right xorb false (map (Z.testbit s) l)), (fold_right xorb false (map (Z.testbit t) l)); reflexivity.
Qed.
Lemma bits_eq_bounded x y : 0 <= x < 2 ^ N -> 0 <= y < 2 ^ N -> (forall o, 0 <= o < N -> Z.testbit x o = Z.testbit y o) -> x = y.
Proof.
  intros Hx Hy H. apply Z.bits_inj'. intros o Ho. destruct (Z.ltb_spec o N) as [L|L]; [apply H; lia|].
  rewrite !testbit_small with (W := N) by lia. reflexivity.
Qed.
Lemma lxor_range x y : 0 <= x < 2 ^ N -> 0 <= y < 2 ^ N -> 0 <= Z.lxor x y < 2 ^ N.
Proof.
  intros Hx Hy. assert (E : Z.lxor x y = Z.lxor x y mod 2 ^ N).
  { apply Z.bits_inj'. intros o Ho. rewrite Z.lxor_spec. destruct (Z.ltb_spec o N) as [L|L].
    - rewrite Z.mod_pow2_bits_low by lia. rewrite Z.lxor_spec. reflexivity.
    - rewrite Z.mod_pow2_bits_high by lia. rewrite !testbit_small with (W := N) by lia. reflexivity. }
  rewrite E. apply mod_pow_bound. lia.
Qed.
Lemma step_linear s t : 0 <= s < 2 ^ N -> 0 <= t < 2 ^ N -> exists a b, lut_opt_step N T S s = Some a /\ lut_opt_step N T S t = Some b /\
  lut_opt_step N T S (Z.lxor s t) = Some (Z.lxor a b).
Proof.
  intros Hs Ht. destruct (step_bits s Hs) as (a & Ea & Ra & Ba). destruct (step_bits t Ht) as (b & Eb & Rb & Bb).
  destruct (step_bits (Z.lxor s t) (lxor_range s t Hs Ht)) as (c & Ec & Rc & Bc).
  exists a, b. split; [exact Ea|]. split; [exact Eb|]. rewrite Ec. f_equal. apply bits_eq_bounded; [exact Rc|apply lxor_range; assumption|].
  intros o Ho. destruct (tap_list o Ho) as (l & Sl & Il & _ & Rl). rewrite Z.lxor_spec, (Bc o Ho l Sl Il), (Ba o Ho l Sl Il), (Bb o Ho l Sl Il).
  apply xor_bits_lxor. intros z Hz. specialize (Rl z Hz). lia.
Qed.
Lemma step_zero : lut_opt_step N T S 0 = Some 0.
Proof.
  assert (H0 : 0 <= 0 < 2 ^ N) by (pose proof (pow2_pos N); lia). destruct (step_bits 0 H0) as (a & Ea & Ra & Ba). rewrite Ea. f_equal.
  apply bits_eq_bounded; [exact Ra|exact H0|]. intros o Ho. destruct (tap_list o Ho) as (l & Sl & Il & _). rewrite (Ba o Ho l Sl Il), Z.testbit_0_l.
  unfold xor_bits. clear. induction l as [|x l IH]; [reflexivity|]. cbn [map fold_right]. rewrite IH, Z.testbit_0_l. reflexivity.
Qed.
Lemma step_depends s t o a b : 0 <= s < 2 ^ N -> 0 <= t < 2 ^ N -> 0 <= o < N -> (forall i, tp o i -> Z.testbit s i = Z.testbit t i) ->
  lut_opt_step N T S s = Some a -> lut_opt_step N T S t = Some b -> Z.testbit a o = Z.testbit b o.
Proof.
  intros Hs Ht Ho H Ea Eb. destruct (step_bits s Hs) as (a' & Ea' & _ & Ba). destruct (step_bits t Ht) as (b' & Eb' & _ & Bb).
  rewrite Ea in Ea'. injection Ea' as <-. rewrite Eb in Eb'. injection Eb' as <-.
  destruct (tap_list o Ho) as (l & Sl & Il & _). rewrite (Ba o Ho l Sl Il), (Bb o Ho l Sl Il). unfold xor_bits. f_equal. apply map_ext_in.
  intros i Hi. apply H, Il, Hi.
Qed.
(** Flipping a tap flips the bit. *)
Lemma step_flips s o i a b : 0 <= s < 2 ^ N -> 0 <= o < N -> tp o i ->
  lut_opt_step N T S s = Some a -> lut_opt_step N T S (Z.lxor s (2 ^ i)) = Some b -> Z.testbit b o = negb (Z.testbit a o).
Proof.
  intros Hs Ho Hi Ea Eb. destruct (tap_list o Ho) as (l & Sl & Il & _ & Rl). assert (Hi0 : In i l) by (apply Il; exact Hi). pose proof (Rl i Hi0) as Ri.
  assert (Hp : 0 <= 2 ^ i < 2 ^ N) by (pose proof (pow2_pos i ltac:(lia)); pose proof (pow2_lt i N ltac:(lia)); lia).
  destruct (step_bits s Hs) as (a' & Ea' & _ & Ba). destruct (step_bits _ (lxor_range s (2 ^ i) Hs Hp)) as (b' & Eb' & _ & Bb).
  rewrite Ea in Ea'. injection Ea' as <-. rewrite Eb in Eb'. injection Eb' as <-.
  rewrite (Ba o Ho l Sl Il), (Bb o Ho l Sl Il), xor_bits_lxor by (intros z Hz; specialize (Rl z Hz); lia).
  assert (X : xor_bits (2 ^ i) l = true).
  { assert (Not : forall m, ~ In i m -> (forall z, In z m -> 0 <= z) -> xor_bits (2 ^ i) m = false).
    { unfold xor_bits. induction m as [|z m IH]; intros Hn Hz; [reflexivity|]. cbn [map fold_right]. rewrite IH; [|intros F; apply Hn; right; exact F|intros; apply Hz; right; assumption].
      rewrite Z.pow2_bits_false; [reflexivity|]. intros F. apply Hn. left. congruence. }
    assert (Pos : forall z, In z l -> 0 <= z) by (intros z Hz; specialize (Rl z Hz); lia).
    clear - Sl Hi0 Not Pos Ri. induction Sl as [|z m Sm IH F]; [destruct Hi0|]. unfold xor_bits. cbn [map fold_right]. destruct Hi0 as [->|Hi0].
    - rewrite Z.pow2_bits_true by lia. change (fold_right xorb false (map (Z.testbit (2 ^ i)) m)) with (xor_bits (2 ^ i) m). rewrite Not; [reflexivity| |intros; apply Pos; right; assumption].
      intros G. rewrite Forall_forall in F. specialize (F i G). lia.
    - change (fold_right xorb false (map (Z.testbit (2 ^ i)) m)) with (xor_bits (2 ^ i) m). rewrite IH; [|exact Hi0|intros; apply Pos; right; assumption].
      rewrite Z.pow2_bits_false; [reflexivity|]. intros G. rewrite Forall_forall in F. specialize (F i Hi0). lia. }
  rewrite X, xorb_true_r. reflexivity.
Qed.

(** Every state bit feeds at least one and at most T bits of the next state. *)
Lemma in_pos b (l : list Z) : In b l -> exists k, (k < length l)%nat /\ nth k l 0 = b.
Proof. intros H. apply (In_nth l b 0) in H. exact H. Qed.
Lemma tap_used b : 0 <= b < N -> exists o, 0 <= o < N /\ tp o b.
Proof.
  intros Hb. destruct plan_facts as (F & L & P). destruct ps_some as (p & Hp).
  assert (Ib : In b p) by (apply (Permutation_in _ (ps_perm p Hp)), rotation_in; unfold n; lia).
  apply in_pos in Ib. destruct Ib as (v & Lv & Ev). rewrite (ps_length p Hp) in Lv.
  assert (Iv : In (Z.of_nat v) out) by (apply (Permutation_in _ P), rotation_in; unfold n in *; lia).
  apply in_pos in Iv. destruct Iv as (k & Lk & Ek). rewrite out_length in Lk.
  exists (Z.of_nat (n - 1 - k)). split; [unfold n in *; lia|]. apply tp_def, in_map_iff. exists p. split; [|exact Hp].
  rewrite Nat2Z.id. replace (n - 1 - (n - 1 - k))%nat with k by lia. rewrite Ek, Nat2Z.id. exact Ev.
Qed.
Lemma nth_inj (l : list Z) i j : NoDup l -> (i < length l)%nat -> (j < length l)%nat -> nth i l 0 = nth j l 0 -> i = j.
Proof. intros ND Hi Hj E. apply (proj1 (NoDup_nth l 0) ND); assumption. Qed.
Lemma tap_fanout b os : NoDup os -> (forall o, In o os -> 0 <= o < N /\ tp o b) -> Z.of_nat (length os) <= T.
Proof.
  intros ND H. destruct plan_facts as (F & L & P).
  assert (NDo : NoDup out) by (apply (Permutation_NoDup P), rotation_nodup).
  assert (K : exists g : nat -> Z, incl os (map g (seq 0 (Z.to_nat T)))).
  { assert (G : forall qs, (forall p, In p qs -> In p ps) -> exists g : nat -> Z, forall o, 0 <= o < N ->
       In b (map (fun p => nth (Z.to_nat (nth (n - 1 - Z.to_nat o) out 0)) p 0) qs) -> In o (map g (seq 0 (length qs)))).
    { induction qs as [|p qs IH]; intros Hq; [exists (fun _ => 0); intros o _ []|].
      destruct IH as (g & Hg); [intros; apply Hq; right; assumption|]. pose proof (Hq p (or_introl eq_refl)) as Hp.
      assert (NDp : NoDup p) by (apply (Permutation_NoDup (ps_perm p Hp)), rotation_nodup).
      (* the one output that this shuffle gives b to *)
      assert (U : exists o0, forall o, 0 <= o < N -> nth (Z.to_nat (nth (n - 1 - Z.to_nat o) out 0)) p 0 = b -> o = o0).
      { destruct (in_dec Z.eq_dec b p) as [Ib|Nb].
        - apply in_pos in Ib. destruct Ib as (v & Lv & Ev). rewrite (ps_length p Hp) in Lv.
          assert (Iv : In (Z.of_nat v) out) by (apply (Permutation_in _ P), rotation_in; unfold n in *; lia).
          apply in_pos in Iv. destruct Iv as (k & Lk & Ek). rewrite out_length in Lk. exists (Z.of_nat (n - 1 - k)). intros o Ho Eo.
          pose proof (out_range (nth (n - 1 - Z.to_nat o) out 0) ltac:(apply nth_In; rewrite out_length; apply idx; exact Ho)) as Rv.
          assert (Z.to_nat (nth (n - 1 - Z.to_nat o) out 0) = v).
          { apply (nth_inj p); [exact NDp|rewrite (ps_length p Hp); clear - Rv; unfold n in *; lia|rewrite (ps_length p Hp); exact Lv|congruence]. }
          assert (n - 1 - Z.to_nat o = k)%nat.
          { apply (nth_inj out); [exact NDo|rewrite out_length; apply idx; exact Ho|rewrite out_length; exact Lk|]. lia. }
          unfold n in *. lia.
        - exists 0. intros o Ho Eo. exfalso. apply Nb. rewrite <- Eo. apply nth_In. rewrite (ps_length p Hp).
          pose proof (out_range (nth (n - 1 - Z.to_nat o) out 0) ltac:(apply nth_In; rewrite out_length; apply idx; exact Ho)) as Rv. unfold n in *. lia. }
      destruct U as (o0 & U). exists (fun k => match k with O => o0 | Datatypes.S k => g k end). intros o Ho Hin. cbn [length seq map]. cbn [map In] in Hin.
      destruct Hin as [E|Hin]; [left; symmetry; apply U; assumption|right]. rewrite <- seq_shift, map_map. apply Hg; assumption. }
    destruct (G ps) as (g & Hg); [tauto|]. rewrite L in Hg. exists g. intros o Ho. destruct (H o Ho) as [Ro To]. apply Hg; [exact Ro|]. apply tp_def. exact To. }
  destruct K as (g & K). pose proof (NoDup_incl_length ND K) as Hl. rewrite map_length, seq_length in Hl. lia.
Qed.
End Facts.

(** With one tap a bit the step only moves bits, so it is one to one. *)
Lemma step_one_inj N S s t a : 1 <= N < 2 ^ 31 -> 0 <= S < 2 ^ 32 -> 0 <= s < 2 ^ N -> 0 <= t < 2 ^ N ->
  lut_opt_step N 1 S s = Some a -> lut_opt_step N 1 S t = Some a -> s = t.
Proof.
  intros HN HS Hs Ht Ea Eb. apply (bits_eq_bounded N); [exact Hs|exact Ht|]. intros b Hb.
  destruct (tap_used N 1 S HN ltac:(lia) HS b Hb) as (o & Ho & To).
  destruct (tap_list N 1 S HN ltac:(lia) HS o Ho) as (l & Sl & Il & Ll & _).
  destruct (step_bits N 1 S HN ltac:(lia) HS s Hs) as (a' & Ea' & _ & Ba). rewrite Ea in Ea'. injection Ea' as <-.
  destruct (step_bits N 1 S HN ltac:(lia) HS t Ht) as (a' & Eb' & _ & Bb). rewrite Eb in Eb'. injection Eb' as <-.
  specialize (Ba o Ho l Sl Il). specialize (Bb o Ho l Sl Il). apply Il in To. destruct l as [|x [|y l]]; [destruct To| |cbn in Ll; lia].
  destruct To as [->|[]]. unfold xor_bits in *. cbn in Ba, Bb. rewrite xorb_false_r in Ba, Bb. congruence.
Qed.
