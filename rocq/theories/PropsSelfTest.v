(** C79: the self-test programs test_fp_flopoco and test_fp_ieee accept the library, whatever they draw, as long as no
    product of two draws is too small for the format. Draws are described in SpecSelf.v. Closed under the global context. *)
From Coq Require Import ZArith List Bool Lia.
From Verif Require Import Fw Spec SpecSelf SelfTest SelfTestProofs Inst.
Open Scope Z_scope.

(** The test of one flopoco format. *)
Theorem C79_flopoco_format E F d k : 3 <= E <= 11 -> 1 <= F <= 52 -> 0 <= k -> 2 * k <= bias E ->
  (forall i, draw k (d i)) -> fl_test E F d = Some true.
Proof. exact (fl_test_ok E F d k). Qed.
Print Assumptions C79_flopoco_format.
(** The test of one IEEE format. *)
Theorem C79_ieee_format E F d k : 4 <= E <= 18 -> 1 <= F <= 128 -> 0 <= k -> 2 * k <= bias E - 1 ->
  (forall i, draw k (d i)) -> ie_test E F d = Some true.
Proof. exact (ie_test_ok E F d k). Qed.
Print Assumptions C79_ieee_format.
(** The two programs. *)
Theorem C79_flopoco_program d : (forall i, draw 15 (d i)) -> fl_main d = Some true.
Proof. exact (fl_main_ok d). Qed.
Print Assumptions C79_flopoco_program.
Theorem C79_ieee_program d : (forall i, draw 15 (d i)) -> ie_main d = Some true.
Proof. exact (ie_main_ok d). Qed.
Print Assumptions C79_ieee_program.
(** For every draw the generator can return, a multiple of 2^-64, it is false: a product that underflows is reported as a
    mistake of the library, *)
Theorem C79_any_draw_refuted : exists d, (forall i, draw 64 (d i)) /\ fl_main d = Some false /\ ie_main d = Some false.
Proof. exact (ex_intro _ tiny_draws tiny_fail). Qed.
Print Assumptions C79_any_draw_refuted.
(** and one draw too small for a format ends the program with an exception. *)
Theorem C79_one_small_draw_refuted : exists d, (forall i, draw 40 (d i)) /\ (forall i, i <> 3%nat -> draw 1 (d i)) /\ fl_main d = None /\ ie_main d = None.
Proof. exact one_tiny_fails'. Qed.
Print Assumptions C79_one_small_draw_refuted.

(** A sequence of draws that meets the hypotheses: 3/4 and 0 in turn. *)
Definition some_draws (i : nat) : fval := if Nat.even i then Num false (3 * 2 ^ 51) (-53) else Zero false.
Example C79_some_draws : forall i, draw 15 (some_draws i).
Proof. intros i. unfold some_draws. destruct (Nat.even i); [right; exists (3 * 2 ^ 51), (-53); decide_example|left; reflexivity]. Qed.
Example C79_example : 3 <= 11 <= 11 /\ 1 <= 52 <= 52 /\ 2 * 511 <= bias 11 /\ 4 <= 5 <= 18 /\ 2 * 7 <= bias 5 - 1 /\ fl_test 8 23 some_draws = Some true /\ ie_test 8 23 some_draws = Some true.
Proof. decide_example. Qed.
Example C79_flopoco_format_at := C79_flopoco_format 8 23 some_draws 15 ltac:(hyp) ltac:(hyp) ltac:(hyp) ltac:(hyp) C79_some_draws.
Example C79_ieee_format_at := C79_ieee_format 8 23 some_draws 15 ltac:(hyp) ltac:(hyp) ltac:(hyp) ltac:(hyp) C79_some_draws.
Example C79_flopoco_program_at := C79_flopoco_program some_draws C79_some_draws.
Example C79_ieee_program_at := C79_ieee_program some_draws C79_some_draws.
