(** The fma test; what the tests let pass. *)
From Coq Require Import ZArith List Bool Lia.
From Verif Require Import Fw FwLemmas Spec SpecFma SpecTests SpecLemmas Flopoco FlopocoLemmas FlopocoProofs AddDual AddDualProofs Fma FmaProofs4 MpfrLib Mpfr MpfrRange MpfrProofs MpfrProofs2 Policy PolicyProofs PolicyProofs6 Tests TestsProofs TestsProofs2 TestsProofs3 TestsProofs4 TestsProofs5.
Import ListNotations.
Open Scope Z_scope.

Lemma each_true {A} (test : A -> option bool) l : (forall x, In x l -> test x = Some true) -> each test l = Some true.
Proof. induction l as [|x l IH]; intros H; [reflexivity|]. cbn [each]. rewrite (H x) by (left; reflexivity). cbn [bind]. apply IH. intros y Hy. apply H. right. exact Hy. Qed.
Lemma each_none {A} (test : A -> option bool) l1 x l2 : (forall y, In y l1 -> test y = Some true) -> test x = None -> each test (l1 ++ x :: l2) = None.
Proof.
  intros H Hx. induction l1 as [|y l1 IH]; cbn [each app].
  - rewrite Hx. reflexivity.
  - rewrite (H y) by (left; reflexivity). cbn [bind]. apply IH. intros z Hz. apply H. right. exact Hz.
Qed.

(** The operand formats and the format of the wide sum. *)
Definition fma_fits (ER FR EA FA EB FB EC FC : Z) : Prop :=
  let E := Z.max (Z.max EA EB + 2) (EC + 1) in let F := Z.max (FA + FB + 2) FC in
  dual_ok_width E F /\ 1 <= ER < E /\ 1 <= FR <= F.
Lemma fma_pair ER FR EA FA EB FB EC FC a b c : ok_ef ER FR -> fmt EA FA -> fmt EB FB -> fmt EC FC -> fma_fits ER FR EA FA EB FB EC FC ->
  wf (EA + FA + 3) a -> wf (EB + FB + 3) b -> wf (EC + FC + 3) c ->
  ulp_or_exit ER FR (fma ER FR EA FA EB FB EC FC a b c) (ref_fma ER FR EA FA EB FB EC FC a b c) = Some true.
Proof.
  intros HR HA HB HC (HD & HE & HF) Wa Wb Wc. pose proof HA as [? ?]. pose proof HB as [? ?]. pose proof HC as [? ?].
  destruct (fma_one_place ER FR EA FA EB FB EC FC a b c ltac:(lia) ltac:(lia) ltac:(lia) ltac:(lia) ltac:(lia) ltac:(lia) HD HE HF Wa Wb Wc) as (r & R1 & R2 & R3).
  destruct (ulp_result ER FR (fma ER FR EA FA EB FB EC FC a b c) (ref_fma ER FR EA FA EB FB EC FC a b c) (fma_spec ER FR (decode EA FA a) (decode EB FB b) (decode EC FC c)) HR) as (t & HT & K).
  { eauto. }
  { apply ref_fma_ok; auto using fmt_ef. }
  rewrite HT. f_equal. apply K. exists r. split; [exact R1|]. destruct R3 as [[? ?]|(? & ? & R3)]; [left; auto|right]. split; [assumption|split; [assumption|]].
  intros w Hw. destruct (R3 w Hw). auto.
Qed.
Theorem fma_test ER FR EA FA EB FB EC FC u v w n : ok_ef ER FR -> fmt EA FA -> fmt EB FB -> fmt EC FC -> fma_fits ER FR EA FA EB FB EC FC ->
  draws_ok FA u -> draws_ok FB v -> draws_ok FC w ->
  (FA <= FB -> Z.of_nat n < 132 + 4 * FA -> test_fma_impl (fma ER FR EA FA EB FB EC FC) ER FR EA FA EB FB EC FC u v w n = Some true) /\
  (FB < FA -> Z.of_nat n < 132 + 4 * FB -> test_fma_impl (fma ER FR EA FA EB FB EC FC) ER FR EA FA EB FB EC FC u v w n = None).
Proof.
  intros HR HA HB HC HF Hu Hv Hw.
  destruct (args_wf EA FA u n HA Hu) as (la & La & Wa & _). destruct (args_wf EB FB v n HB Hv) as (lb & Lb & Wb & _). destruct (args_wf EC FC w n HC Hw) as (lc & Lc & Wc & _).
  pose proof HA as [HA1 HA2]. pose proof HB as [HB1 HB2]. pose proof HC as [HC1 HC2].
  destruct (args_ok EA FA u n HA1 HA2 Hu) as (la' & La' & _ & Na & _). destruct (args_ok EB FB v n HB1 HB2 Hv) as (lb' & Lb' & _ & Nb & _). destruct (args_ok EC FC w n HC1 HC2 Hw) as (lc' & Lc' & _ & Nc & _).
  assert (la' = la) by congruence. assert (lb' = lb) by congruence. assert (lc' = lc) by congruence. subst la' lb' lc'.
  assert (P : forall a j, In a la -> (j < length lb)%nat -> each (fun c => do b <- nth_error lb j; ulp_or_exit ER FR (fma ER FR EA FA EB FB EC FC a b c) (ref_fma ER FR EA FA EB FB EC FC a b c)) lc = Some true).
  { intros a j Ha Hj. apply each_true. intros c Hc. destruct (nth_error lb j) as [b|] eqn:B; [|apply nth_error_None in B; lia]. cbn [bind].
    apply fma_pair; auto. apply Wb. eapply nth_error_In; exact B. }
  unfold test_fma_impl. rewrite La, Lb, Lc. cbn [bind]. split; intros HL Hn.
  - apply each_true. intros a Ha. apply each_true. intros j Hj. apply in_seq in Hj. apply P; [exact Ha|lia].
  - destruct la as [|a0 la]; [cbn [length] in Na; lia|]. cbn [each]. 
    replace (length (a0 :: la)) with (length lb + S (length (a0 :: la) - length lb - 1))%nat by lia.
    rewrite seq_app, Nat.add_0_l. cbn [seq]. rewrite each_none; [reflexivity| |].
    + intros j Hj. apply in_seq in Hj. apply P; [left; reflexivity|lia].
    + destruct lc as [|c0 lc]; [cbn [length] in Nc; lia|]. cbn [each]. rewrite (proj2 (nth_error_None lb (length lb))) by lia. reflexivity.
Qed.

(** A NaN compares equal to everything, so the comparison of neighbours accepts it for any sum. *)
Theorem near_accepts_nan ER FR EA FA EB FB w u v n : ok_ef ER FR -> fmt EA FA -> fmt EB FB -> draws_ok FA u -> draws_ok FB v ->
  wf (ER + FR + 3) w -> decode ER FR w = NaN ->
  test_add_near (fun _ _ => Some w) ER FR EA FA EB FB u v n = Some true /\
  test_convert_impl (fun _ => Some w) ER FR EA FA u n = Some true.
Proof.
  intros HR HA HB Hu Hv Ww D. split.
  - destruct (near_test (fun _ _ => Some w) ER FR EA FA EB FB u v n HR HA HB Hu Hv) as (la & lb & b & La & Lb & H & K).
    { intros x y _ _. eauto. }
    rewrite H. f_equal. apply K. intros x y _ _. exists w. split; [reflexivity|]. left. exact D.
  - destruct (convert_test (fun _ => Some w) ER FR EA FA u n HR HA Hu) as (la & b & La & H & K).
    { intros x _. eauto. }
    rewrite H. f_equal. apply K. intros x _. exists w. split; [reflexivity|]. left. exact D.
Qed.
