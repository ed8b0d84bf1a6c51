From Coq Require Import ZArith List Bool Lia Reals Lra.
From Flocq Require Import Core Relative.
From Verif Require Import Fw FwLemmas Spec Spec754 SpecLemmas ValueLemmas Flopoco FlopocoLemmas AddSingle AddSingleProofs3 AddSingleProofs4 CompareProofs AddDual AddDualProofs Mul MulProofs SpecFlocq SpecReal SpecFlocq754 RealProofs SoftFloat SfProofs10 SpecApp App AppProofs AppProofs2 AppProofs3 AppProofs4 AppProofs6.
From Verif Require PropsSoftFloat.
Import ListNotations.
Open Scope Z_scope.

(** ** Matrices *)
Lemma each_ok {A B : Type} (f : A -> option B) (P : A -> B -> Prop) l : (forall a, In a l -> exists b, f a = Some b /\ P a b) ->
  exists bs, each f l = Some bs /\ Forall2 P l bs.
Proof.
  induction l as [|a l IH]; intros H; [exists []; split; [reflexivity|constructor]|]. destruct (H a (or_introl eq_refl)) as (b & H1 & H2).
  destruct IH as (bs & I1 & I2); [intros; apply H; right; assumption|]. exists (b :: bs). cbn [each]. rewrite H1, I1. cbn [bind]. split; [reflexivity|constructor; assumption].
Qed.

Lemma forall2_seq {B : Type} (P : nat -> B -> Prop) n s bs : Forall2 P (seq s n) bs -> length bs = n /\ forall i, (i < n)%nat -> exists b, nth_error bs i = Some b /\ P (s + i)%nat b.
Proof.
  revert s bs. induction n as [|n IH]; intros s bs H; cbn [seq] in H; inversion H; subst; [split; [reflexivity|lia]|].
  destruct (IH _ _ H4) as [I1 I2]. split; [cbn; lia|]. intros [|i] Hi; [exists y; split; [reflexivity|]; rewrite Nat.add_0_r; assumption|].
  destruct (I2 i ltac:(lia)) as (b & B1 & B2). exists b. split; [exact B1|]. replace (s + S i)%nat with (S s + i)%nat by lia. exact B2.
Qed.

Lemma mat_mul_cells add_mul dflt N left right (P : nat -> nat -> Z -> Prop) :
  (forall r c, (r < N)%nat -> (c < N)%nat -> exists z, cell add_mul dflt N left right r c = Some z /\ P r c z) ->
  exists m, mat_mul add_mul dflt N left right = Some m /\ entries N m P.
Proof.
  intros H. unfold mat_mul.
  destruct (each_ok (fun r => each (cell add_mul dflt N left right r) (seq 0 N)) (fun r row => length row = N /\ forall c, (c < N)%nat -> exists z, nth_error row c = Some z /\ P r c z) (seq 0 N)) as (m & M1 & M2).
  { intros r Hr. apply in_seq in Hr. destruct (each_ok (cell add_mul dflt N left right r) (P r) (seq 0 N)) as (row & R1 & R2).
    { intros c Hc. apply in_seq in Hc. apply H; lia. }
    exists row. split; [exact R1|]. apply forall2_seq in R2. exact R2. }
  exists m. split; [exact M1|]. apply forall2_seq in M2. destruct M2 as [L M2]. split; [exact L|]. intros r Hr. destruct (M2 r Hr) as (row & R1 & R2 & R3). exists row. split; [exact R1|]. split; [exact R2|exact R3].
Qed.

Lemma cell_loop add_mul dflt N left right r c : cell add_mul dflt N left right r c = loop (fun a xy => add_mul a (fst xy) (snd xy)) dflt (row_col N left right r c).
Proof. unfold cell, row_col. generalize (seq 0 N). intros l. revert dflt. induction l as [|i l IH]; intros d; [reflexivity|]. cbn [loop map fst snd]. destruct (add_mul d (left r i) (right i c)); cbn [bind]; [apply IH|reflexivity]. Qed.

Lemma row_col_all {A B} (P : A * B -> Prop) N left right r c : (forall i, (i < N)%nat -> P (left r i, right i c)) -> Forall P (row_col N left right r c).
Proof. intros H. apply Forall_map, Forall_forall. intros i Hi. apply in_seq in Hi. apply H. lia. Qed.

Lemma row_col_map {A B A' B'} (f : A -> A') (g : B -> B') N left right r c :
  map (fun ab => (f (fst ab), g (snd ab))) (row_col N left right r c) = row_col N (fun i j => f (left i j)) (fun i j => g (right i j)) r c.
Proof. unfold row_col. rewrite map_map. reflexivity. Qed.
Lemma row_col_len {A B} N (left : nat -> nat -> A) (right : nat -> nat -> B) r c : length (row_col N left right r c) = N.
Proof. unfold row_col. rewrite map_length, seq_length. reflexivity. Qed.

(** ** The traits with full-width products *)
Lemma loop_ext {A S} (f g : S -> A -> option S) l : (forall s a, f s a = g s a) -> forall s, loop f s l = loop g s l.
Proof. intros H. induction l as [|a l IH]; intros s; [reflexivity|]. cbn [loop]. rewrite H. destruct (g s a); cbn [bind]; [apply IH|reflexivity]. Qed.

Lemma full_mac E F LF RF a xy : full_add_mul E F E LF E RF a (fst xy) (snd xy) = mac E F LF RF a xy.
Proof. unfold full_add_mul, full_mul, mac. rewrite Z.eqb_refl. reflexivity. Qed.


Theorem mat_mul_full E F LF RF N left right : dual_ok_width E F -> 1 <= LF -> 1 <= RF -> F < LF + RF + 1 ->
  (forall i j, (i < N)%nat -> (j < N)%nat -> wf (E + LF + 3) (left i j) /\ wf (E + RF + 3) (right i j)) ->
  exists m, mat_mul (full_add_mul E F E LF E RF) fl_default N left right = Some m /\
  entries N m (fun r c z => wf (E + F + 3) z /\
    let xys := row_col N (fun i j => decode E LF (left i j)) (fun i j => decode E RF (right i j)) r c in
    let u := bpow radix2 (- (F + 1)) in let eta := bpow radix2 (emin E) in
    decode E F z = dot_spec E F xys /\
    (finite_v (decode E F z) -> (Rabs (rv (decode E F z) - Rdot xys) <= ((1 + u) ^ N - 1) * Rabsdot xys + 2 * INR N * (1 + u) ^ N * eta)%R) /\
    (Forall (fun xy => finite_v (fst xy) /\ finite_v (snd xy)) xys ->
      ((1 + u) ^ S N * (Rabsdot xys + 2 * INR N * eta) < bpow radix2 (emax E + 1))%R -> finite_v (decode E F z))).
Proof.
  intros W HL HR HF H. apply mat_mul_cells. intros r c Hr Hc. rewrite cell_loop. rewrite (loop_ext _ (mac E F LF RF)) by (intros; apply full_mac).
  assert (HW : Forall (wf2 E LF RF) (row_col N left right r c)). { apply row_col_all. intros i Hi. split; [apply (proj1 (H r i Hr Hi))|apply (proj2 (H i c Hi Hc))]. }
  destruct (loop_mac_ok E F LF RF _ W HL HR HF HW) as (z & Z1 & Z2 & Z3 & Z4). pose proof (loop_mac_fin E F LF RF _ W HL HR HF HW) as Z5. cbv zeta in Z4, Z5.
  exists z. split; [exact Z1|]. split; [exact Z2|]. cbv zeta. unfold dec2 in Z3, Z4, Z5. rewrite (row_col_map (decode E LF) (decode E RF)) in Z3, Z4, Z5. rewrite row_col_len in Z4, Z5.
  split; [exact Z3|]. split; [exact Z4|]. intros Fx HT. rewrite Z3. apply Z5; assumption.
Qed.

(** The exponents of mul's result and operands must agree. *)
Lemma mul_mismatch AE AF LE LF RF x y : LE <> AE -> LE < AE \/ AF < LF + RF + 1 -> mul AE AF LE LF RF x y = None.
Proof.
  intros HE HF. unfold mul, mul_v1.
  repeat match goal with |- bind ?o _ = None => destruct o; [cbn [bind]|reflexivity] end. cbv zeta.
  repeat match goal with |- bind ?o _ = None => destruct o; [cbn [bind]|reflexivity] end. cbv zeta.
  repeat match goal with |- bind ?o _ = None => destruct o; [cbn [bind]|reflexivity] end. cbv zeta.
  repeat match goal with |- bind ?o _ = None => destruct o; [cbn [bind]|reflexivity] end. cbv zeta.
  repeat match goal with |- bind ?o _ = None => destruct o; [cbn [bind]|reflexivity] end. cbv zeta.
  destruct (Z.leb_spec (LF + RF + 2) (1 + AF)) as [L|L].
  - repeat match goal with |- bind (get_bits ?w _ 0 _) _ = None => destruct (get_bits _ _ 0 _); [cbn [bind]|reflexivity] end. cbv zeta.
    assert (G : forall v, get_bits (LE + 2) (AE + 1) AE v = None). { intros v. unfold get_bits. destruct (Z.ltb_spec (AE + 1) (LE + 2)); [lia|reflexivity]. }
    rewrite G. reflexivity.
  - assert (G : forall v, checked_cast (2 + AE + AF) (LE + 2 + AF) v = None). { intros v. unfold checked_cast. destruct (Z.eqb_spec (2 + AE + AF) (LE + 2 + AF)); [lia|reflexivity]. }
    repeat match goal with |- bind (get_bits _ _ _ _) _ = None => destruct (get_bits _ _ _ _); [cbn [bind]; cbv zeta|reflexivity] end. rewrite G. reflexivity.
Qed.

Theorem full_mismatch AE AF LE LF RE RF N left right : LE <> AE -> LE < AE \/ AF < LF + RF + 1 ->
  mat_mul (full_add_mul AE AF LE LF RE RF) fl_default (S N) left right = None.
Proof.
  intros HE HF. assert (Hp : forall a x y, full_add_mul AE AF LE LF RE RF a x y = None).
  { intros a x y. unfold full_add_mul, full_mul. destruct (LE =? RE); cbn [assert_ bind]; [|reflexivity]. rewrite mul_mismatch by assumption. reflexivity. }
  unfold mat_mul. cbn [seq each]. unfold cell at 1. cbn [seq loop]. rewrite Hp. reflexivity.
Qed.

Theorem round_mismatch AE AF LE LF RE RF N left right : LE <> AE -> 1 <= LF -> 1 <= RF ->
  mat_mul (round_add_mul AE AF LE LF RE RF) fl_default (S N) left right = None.
Proof.
  intros HE HL HR. assert (Hp : forall a x y, round_add_mul AE AF LE LF RE RF a x y = None).
  { intros a x y. unfold round_add_mul. destruct (LE =? RE); cbn [assert_ bind]; [|reflexivity]. rewrite mul_mismatch by lia. reflexivity. }
  unfold mat_mul. cbn [seq each]. unfold cell at 1. cbn [seq loop]. rewrite Hp. reflexivity.
Qed.
