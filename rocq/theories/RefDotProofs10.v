From Coq Require Import ZArith QArith List Bool Lia.
From Verif Require Import Fw FwLemmas Spec SpecDot Flopoco Dot DotProofs5 Source RefDot SpecRefDot RefDotProofs3 RefDotProofs9.
Import ListNotations.
Open Scope Z_scope.

(** The operands 1.fa * 2^(ea-bias) and so on. *)
Definition pword (E F e m : Z) : Z := 2 ^ (E + F + 1) + e * 2 ^ F + (m - 2 ^ F).
Definition operands43 : list Z := [pword 4 3 7 10; pword 4 3 0 9; pword 4 3 1 15; pword 4 3 4 9; pword 4 3 7 10; pword 4 3 0 14; pword 4 3 1 15; pword 4 3 5 14].
Definition operands44 : list Z := [pword 4 4 8 19; pword 4 4 3 21; pword 4 4 0 17; pword 4 4 0 23; pword 4 4 8 21; pword 4 4 4 24; pword 4 4 0 21; pword 4 4 0 29].
Definition operands45 : list Z := [pword 4 5 10 39; pword 4 5 4 40; pword 4 5 0 33; pword 4 5 0 53; pword 4 5 10 41; pword 4 5 5 51; pword 4 5 0 39; pword 4 5 0 53].
Definition operands616 : list Z := [pword 6 16 32 98307; pword 6 16 17 98303; pword 6 16 0 78935; pword 6 16 0 106903; pword 6 16 32 98301; pword 6 16 17 98305; pword 6 16 0 107143; pword 6 16 0 81593].
Definition wrong4 (E F : Z) (xs : list Z) : Prop := length xs = 8%nat /\ Forall (fun x => wf (E + F + 3) x /\ pos_normal (decode E F x)) xs /\ ~ right4 E F xs.
Ltac wrong := split; [reflexivity|]; split; [repeat (apply Forall_cons; [split; [vm_compute; split; congruence|eexists _, _; vm_compute; reflexivity]|]); apply Forall_nil|];
  intros (g & G & D); vm_compute in G; apply (f_equal (fun o => match o with Some z => z | None => 0 end)) in G; subst g; vm_compute in D; discriminate.
Lemma wrong43 : wrong4 4 3 operands43. Proof. wrong. Qed.
Lemma wrong44 : wrong4 4 4 operands44. Proof. wrong. Qed.
Lemma wrong45 : wrong4 4 5 operands45. Proof. wrong. Qed.
Lemma wrong616 : wrong4 6 16 operands616. Proof. wrong. Qed.
Lemma wrong_wide E F : E <= 30 -> 4 <= F -> 6 * F < 2 ^ E -> exists xs, wrong4 E F xs.
Proof.
  intros HE HF HW. destruct (dot4_loses_carry E F HE HF HW) as (a0 & a1 & a2 & a3 & b0 & b1 & b2 & b3 & W & P & r & m & e & R & S & D). exists [a0; a1; a2; a3; b0; b1; b2; b3]. split; [reflexivity|]. split.
  - destruct W as (? & ? & ? & ? & ? & ? & ? & ?). destruct P as (? & ? & ? & ? & ? & ? & ? & ?). repeat (apply Forall_cons; [split; assumption|]). apply Forall_nil.
  - intros (g & G & Q). rewrite R in G. apply (f_equal (fun o => match o with Some z => z | None => 0 end)) in G. subst g. rewrite S, D in Q. injection Q. lia.
Qed.
Lemma formats_split E F : In (E, F) test_dot4_formats -> dot4_covers E F /\ (3 * 2 ^ (E - 1) - 2 < 4 * F \/ exists xs, wrong4 E F xs).
Proof.
  intros H. unfold test_dot4_formats in H. cbn [In] in H.
  repeat (destruct H as [H|H]; [injection H as <- <-; split; [unfold dot4_covers; cbn; lia|first [left; reflexivity|right; first [exists operands43; exact wrong43|exists operands44; exact wrong44|exists operands45; exact wrong45|exists operands616; exact wrong616|apply wrong_wide; [discriminate|discriminate|reflexivity]]]]|]). contradiction.
Qed.
Lemma formats_pass K draw E F n ws : In (E, F) [(1, 3); (2, 3); (3, 3); (3, 4); (4, 16); (5, 16)] -> draws K draw -> words ws -> (n * (8 * words_per_value E F K) <= length ws)%nat -> test_dot4 draw E F n ws = Some true.
Proof.
  intros H. apply test4_passes; cbn [In] in H; repeat (destruct H as [H|H]; [injection H as <- <-; first [reflexivity|unfold dot4_covers; cbn; lia]|]); contradiction.
Qed.
Lemma formats_fail K E F n : In (E, F) [(4, 3); (4, 4); (5, 4); (6, 4); (4, 5); (5, 5); (6, 5); (6, 16)] ->
  exists ws, words ws /\ length ws = (8 * words_per_value E F K)%nat /\ forall draw rest, draws K draw -> test_dot4 draw E F (S n) (ws ++ rest) = Some false.
Proof.
  intros H. assert (I : In (E, F) test_dot4_formats) by (unfold test_dot4_formats; cbn [In] in *; intuition). destruct (formats_split E F I) as [C W].
  assert (exists xs, wrong4 E F xs) as (xs & L & A & R).
  { destruct W as [W|W]; [|exact W]. exfalso. clear - H W. cbn [In] in H. repeat (destruct H as [H|H]; [injection H as <- <-; discriminate W|]). contradiction. }
  apply (test4_fails K E F n xs); assumption.
Qed.
