(** Interval arithmetic with the directed modes; proofs for C91. *)
From Coq Require Import ZArith Bool Lia Reals Lra List.
From Flocq Require Import Core.
From Verif Require Import Spec Spec754 Spec754Mode SpecFlocq SpecSfMode SpecEnclose.
Import ListNotations.
Open Scope Z_scope.

Lemma at_most_le v x y : at_most v x -> (x <= y)%R -> at_most v y.
Proof. destruct v; cbn [at_most]; try tauto; lra. Qed.
Lemma at_least_le v x y : at_least v x -> (y <= x)%R -> at_least v y.
Proof. destruct v; cbn [at_least]; try tauto; lra. Qed.

Section Corners.
Open Scope R_scope.
Context (a1 a2 b1 b2 x y : R) (X : a1 <= x <= a2) (Y : b1 <= y <= b2).
Lemma corner_low : exists a b, (a = a1 \/ a = a2) /\ (b = b1 \/ b = b2) /\ a * b <= x * y.
Proof.
  destruct (Rle_or_lt 0 y) as [P|P].
  - destruct (Rle_or_lt 0 a1) as [Q|Q].
    + exists a1, b1. split; [tauto|]. split; [tauto|]. nra.
    + exists a1, b2. split; [tauto|]. split; [tauto|]. nra.
  - destruct (Rle_or_lt 0 a2) as [Q|Q].
    + exists a2, b1. split; [tauto|]. split; [tauto|]. nra.
    + exists a2, b2. split; [tauto|]. split; [tauto|]. nra.
Qed.
Lemma corner_high : exists a b, (a = a1 \/ a = a2) /\ (b = b1 \/ b = b2) /\ x * y <= a * b.
Proof.
  destruct (Rle_or_lt 0 y) as [P|P].
  - destruct (Rle_or_lt 0 a2) as [Q|Q].
    + exists a2, b2. split; [tauto|]. split; [tauto|]. nra.
    + exists a2, b1. split; [tauto|]. split; [tauto|]. nra.
  - destruct (Rle_or_lt 0 a1) as [Q|Q].
    + exists a1, b2. split; [tauto|]. split; [tauto|]. nra.
    + exists a1, b1. split; [tauto|]. split; [tauto|]. nra.
Qed.
End Corners.
Lemma inv_between b1 b2 y : (0 < b1 \/ b2 < 0)%R -> (b1 <= y <= b2)%R -> (/ b2 <= / y <= / b1)%R.
Proof.
  intros [P|P] [H1 H2].
  - split; apply Rinv_le; lra.
  - assert (forall u v, (u <= v)%R -> (v < 0)%R -> (/ v <= / u)%R) as L.
    { intros u v U V. assert (/ - u <= / - v)%R by (apply Rinv_le; lra). rewrite !Rinv_opp in *. lra. }
    split; apply L; lra.
Qed.

Section Iv.
Context (E F : Z) (odd : bool).
Notation rl w := (rv (decode754 E F w)).
Notation dec := (decode754 E F).

Lemma iv_add op a1 a2 b1 b2 : encloses E F odd (fun md => op md a1 b1) (rl a1 + rl b1) -> encloses E F odd (fun md => op md a2 b2) (rl a2 + rl b2) ->
  exists lo hi, op (enum_of Min) a1 b1 = Some lo /\ op (enum_of Max) a2 b2 = Some hi /\
    forall x y, inside E F a1 a2 x -> inside E F b1 b2 y -> at_most (dec lo) (x + y) /\ at_least (dec hi) (x + y).
Proof.
  intros (l & _ & L1 & _ & _ & _ & (L2 & _) & _) (_ & h & _ & H1 & _ & _ & (_ & H2 & _) & _). exists l, h. split; [exact L1|]. split; [exact H1|].
  intros x y X Y. unfold inside in X, Y. split; [apply (at_most_le _ _ _ L2)|apply (at_least_le _ _ _ H2)]; lra.
Qed.
Lemma iv_any op g a1 a2 b1 b2 x y : (forall a b, In a [a1; a2] -> In b [b1; b2] -> encloses E F odd (fun md => op md a b) (g (rl a) (rl b))) ->
  (exists a b, In a [a1; a2] /\ In b [b1; b2] /\ (g (rl a) (rl b) <= g x y)%R) -> (exists a b, In a [a1; a2] /\ In b [b1; b2] /\ (g x y <= g (rl a) (rl b))%R) ->
  (exists a b lo, In a [a1; a2] /\ In b [b1; b2] /\ op (enum_of Min) a b = Some lo /\ at_most (dec lo) (g x y)) /\
  (exists a b hi, In a [a1; a2] /\ In b [b1; b2] /\ op (enum_of Max) a b = Some hi /\ at_least (dec hi) (g x y)).
Proof.
  intros H (a & b & A & B & L) (c & d & C & D & U). destruct (H a b A B) as (l & _ & L1 & _ & _ & _ & (L2 & _) & _), (H c d C D) as (_ & h & _ & H1 & _ & _ & (_ & H2 & _) & _). split.
  - exists a, b, l. split; [exact A|]. split; [exact B|]. split; [exact L1|]. exact (at_most_le _ _ _ L2 L).
  - exists c, d, h. split; [exact C|]. split; [exact D|]. split; [exact H1|]. exact (at_least_le _ _ _ H2 U).
Qed.
Lemma pick (P : R -> R -> Prop) a1 a2 b1 b2 : (exists a b, (a = rl a1 \/ a = rl a2) /\ (b = rl b1 \/ b = rl b2) /\ P a b) -> exists a b, In a [a1; a2] /\ In b [b1; b2] /\ P (rl a) (rl b).
Proof.
  intros (a & b & [A|A] & [B|B] & H); subst; [exists a1, b1|exists a1, b2|exists a2, b1|exists a2, b2]; cbn [In]; tauto.
Qed.
Lemma iv_mul op a1 a2 b1 b2 x y : (forall a b, In a [a1; a2] -> In b [b1; b2] -> encloses E F odd (fun md => op md a b) (rl a * rl b)) ->
  inside E F a1 a2 x -> inside E F b1 b2 y ->
  (exists a b lo, In a [a1; a2] /\ In b [b1; b2] /\ op (enum_of Min) a b = Some lo /\ at_most (dec lo) (x * y)) /\
  (exists a b hi, In a [a1; a2] /\ In b [b1; b2] /\ op (enum_of Max) a b = Some hi /\ at_least (dec hi) (x * y)).
Proof.
  intros H X Y. apply (iv_any op Rmult); [exact H| |].
  - apply (pick (fun a b => (a * b <= x * y)%R)), corner_low; assumption.
  - apply (pick (fun a b => (x * y <= a * b)%R)), corner_high; assumption.
Qed.
Lemma iv_div op a1 a2 b1 b2 x y : (forall a b, In a [a1; a2] -> In b [b1; b2] -> encloses E F odd (fun md => op md a b) (rl a / rl b)) ->
  (0 < rl b1 \/ rl b2 < 0)%R -> inside E F a1 a2 x -> inside E F b1 b2 y ->
  (exists a b lo, In a [a1; a2] /\ In b [b1; b2] /\ op (enum_of Min) a b = Some lo /\ at_most (dec lo) (x / y)) /\
  (exists a b hi, In a [a1; a2] /\ In b [b1; b2] /\ op (enum_of Max) a b = Some hi /\ at_least (dec hi) (x / y)).
Proof.
  intros H Z X Y. pose proof (inv_between _ _ _ Z Y) as I. apply (iv_any op Rdiv); [exact H| |].
  - apply (pick (fun a b => (a / b <= x / y)%R)). destruct (corner_low _ _ _ _ _ _ X I) as (a & b & A & [B|B] & K); subst b; [exists a, (rl b2)|exists a, (rl b1)]; repeat split; try tauto; exact K.
  - apply (pick (fun a b => (x / y <= a / b)%R)). destruct (corner_high _ _ _ _ _ _ X I) as (a & b & A & [B|B] & K); subst b; [exists a, (rl b2)|exists a, (rl b1)]; repeat split; try tauto; exact K.
Qed.
End Iv.
