(** The widths at which the dual-path adder and the IEEE adder on top of it are right: all of them settled. *)
From Coq Require Import ZArith List Bool Lia.
From Verif Require Import Fw FwLemmas Spec SpecLemmas Flopoco CompareProofs FlopocoLemmas AddDual AddDualProofs AddDualProofs5 AddDualProofs6 Ieee IeeeProofs IeeeProofs2 Cores SpecCores CoresProofs.
Import ListNotations.
Open Scope Z_scope.

Lemma add_dual_narrow E F x y : E <= 3 -> add_dual E F E F E F x y = None.
Proof.
  intros HE. unfold add_dual, ctMax. destruct (promote _ _ E F x) as [X|]; [|reflexivity]. cbn [bind].
  destruct (promote _ _ E F y) as [Y|]; [|reflexivity]. cbn [bind].
  match goal with |- context [3 <? ?a] => replace (3 <? a) with false by (symmetry; rewrite Z.ltb_ge; destruct (E <? E); lia) end.
  rewrite andb_false_r. reflexivity.
Qed.

Theorem add_dual_right_iff E F : 1 <= E -> 1 <= F -> E + F + 3 <= 128 ->
  (core_right E F F F (add_spec E F) (add_dual E F E F E F) <->
   3 < E /\ ~ (F = 1 \/ F = 61 /\ 7 <= E \/ E = 4 /\ 33 <= F \/ E = 5 /\ 65 <= F)).
Proof.
  intros HE HF HW. split.
  - intros R. destruct (Z_le_gt_dec E 3) as [L|G].
    { destruct (R 0 0) as (r & R1 & _); try (split; [lia|apply pow2_pos; lia]). rewrite add_dual_narrow in R1 by exact L. discriminate. }
    split; [lia|]. intros H.
    assert (C : (F = 1 \/ F = 61) /\ 2 * F + 4 < 2 ^ E \/ (E = 4 /\ 33 <= F \/ E = 5 /\ 65 <= F)).
    { destruct H as [H|[[H K]|H]]; [| |right; exact H]; left; (split; [lia|]); subst F.
      - pose proof (pow2_le 4 E ltac:(lia)) as P. change (2 ^ 4) with 16 in P. lia.
      - pose proof (pow2_le 7 E ltac:(lia)) as P. change (2 ^ 7) with 128 in P. lia. }
    clear H. destruct C as [[C1 C2]|C].
    + destruct (add_dual_asserts E F ltac:(lia) C1 C2) as (x & y & Wx & Wy & N). destruct (R x y Wx Wy) as (r & R1 & _). congruence.
    + destruct (add_dual_overflows E F C HW) as (x & y & Wx & Wy & Q & N). destruct (R x y Wx Wy) as (r & R1 & _ & R2).
      rewrite Q in R2. destruct (N r R1) as [D|(m & e & D)]; rewrite D in R2; discriminate.
  - intros [G H] a b Ha Hb. apply add_dual_same; try assumption. apply dual_legal_widths; lia.
Qed.

Definition ieee_fails (E F : Z) : bool :=
  fails (decode_ieee E F) (decode_ieee E F) (decode_ieee E F) (2 ^ (E + F + 1)) (2 ^ (E + F + 1)) (add_ieee E F) (w_add E F)
    (fst (ieee_wit E F)) (snd (ieee_wit E F)).
Lemma ieee_failing : forallb (fun E => ieee_fails E 61) (zrange 7 58) && forallb (ieee_fails 4) (zrange 34 88) && forallb (ieee_fails 5) (zrange 66 55) = true.
Proof. vm_compute. reflexivity. Qed.

Definition from_check (E F : Z) : bool :=
  (F =? 1) || (F =? 61) && (7 <=? E) || (E =? 4) && (34 <=? F) || (E =? 5) && (66 <=? F) ||
  (F <=? 2 ^ (E + 1) + 1) && ((F =? 5) || (F =? 13) || (F =? 29) || (2 ^ E <=? 2 * F + 4) || negb (2 ^ Z.log2 (F + 3) =? F + 3)).
Lemma from_checked : forallb (fun E => forallb (fun F => implb (E + F + 3 <=? 128) (from_check E F)) (zrange 1 125)) (zrange 4 125) = true.
Proof. vm_compute. reflexivity. Qed.

Theorem w_add_right_iff E F : 1 <= E -> 1 <= F -> E + F + 3 <= 128 ->
  (ieee_core_right E F (add_ieee E F) (w_add E F) <->
   3 < E /\ ~ (F = 1 \/ F = 61 /\ 7 <= E \/ E = 4 /\ 34 <= F \/ E = 5 /\ 66 <= F)).
Proof.
  intros HE HF HW. split.
  - intros R. destruct (Z_le_gt_dec E 3) as [L|G].
    { destruct (R 0 0) as (r & R1 & _); try (split; [lia|apply pow2_pos; lia]). unfold w_add in R1. rewrite add_dual_narrow in R1 by exact L. discriminate. }
    split; [lia|]. intros [H|H].
    + destruct (w_add_aborts E F) as (a & b & Wa & Wb & _ & _ & N); [lia|left; exact H| |].
      { pose proof (pow2_le 4 E ltac:(lia)) as P. change (2 ^ 4) with 16 in P. lia. }
      destruct (R a b Wa Wb) as (r & R1 & _). congruence.
    + destruct (andb_prop _ _ ieee_failing) as [C C3]. destruct (andb_prop _ _ C) as [C1 C2].
      apply (fails_ieee E F (add_ieee E F) (w_add E F) (fst (ieee_wit E F)) (snd (ieee_wit E F))); [|exact R].
      destruct H as [[-> H]|[[-> H]|[-> H]]].
      * exact (zrange_forall _ 7 58 E C1 ltac:(lia)).
      * exact (zrange_forall _ 34 88 F C2 ltac:(lia)).
      * exact (zrange_forall _ 66 55 F C3 ltac:(lia)).
  - intros [G H] a b Ha Hb. apply w_add_from; try assumption.
    pose proof (zrange_forall _ 4 125 E from_checked ltac:(lia)) as C. cbv beta in C. pose proof (zrange_forall _ 1 125 F C ltac:(lia)) as C1. cbv beta in C1.
    replace (E + F + 3 <=? 128) with true in C1 by lia. cbn [implb] in C1. unfold from_check in C1. unfold dual_ok_from.
    rewrite !orb_true_iff, !andb_true_iff, !orb_true_iff, !Z.eqb_eq, !Z.leb_le, negb_true_iff, Z.eqb_neq in C1.
    change (2 ^ 31) with 2147483648. intuition lia.
Qed.
