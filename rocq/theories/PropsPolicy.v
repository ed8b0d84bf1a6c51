(** C65, C66: the test program of policy_test.hpp, for the number types of policy_flopoco.hpp, policy_ieee_on_flopoco.hpp,
    policy_native.hpp and policy_softfloat.hpp. Operators, and when they are right, are those of SpecPolicy.v. *)
From Coq Require Import ZArith List Bool Lia.
From Verif Require Import Fw Spec Spec754 SpecPolicy Flopoco Ieee AddDual AddDualProofs Mpfr MpfrRange Policy PolicyProofs2 PolicyProofs4 PolicyProofs5 PolicyProofs6 PolicyProofs7 Inst.
Import ListNotations.
Open Scope Z_scope.

(** The test of a list of inputs without NaN is exact, whatever operators it is given: it reports no failure if and only if,
    on every pair of the inputs, all nine operators are right up to the sign of a zero. *)
(** For the FloPoCo number type. *)
Theorem C65_flopoco_exact E F O l : 1 <= E <= 30 -> 1 <= F <= 128 -> (forall a, In a l -> wf (E + F + 3) a /\ decode E F a <> NaN) ->
  (forall a b, In a l -> In b l -> returns (wf (E + F + 3)) O a b) ->
  exists failed, test_inputs (flopoco_policy E F) O l = Some failed /\
  (failed = false <-> forall a b, In a l -> In b l ->
   right_comparisons (decode E F) O a b /\ right_arithmetic (decode E F) (mul_spec E F) (add_spec E F) (div_spec E F) O a b).
Proof. intros HE HF. exact (decides_ok (flopoco_policy E F) (decode E F) _ _ _ _ O l (flopoco_decides E F (conj HE HF))). Qed.
Print Assumptions C65_flopoco_exact.
(** For the IEEE wrapper of the FloPoCo type. *)
Theorem C65_ieee_exact E F O l : 1 <= E <= 30 -> 1 <= F <= 128 -> (forall a, In a l -> wf (E + F + 1) a /\ decode_ieee E F a <> NaN) ->
  (forall a b, In a l -> In b l -> returns (wf (E + F + 1)) O a b) ->
  exists failed, test_inputs (ieee_policy E F) O l = Some failed /\
  (failed = false <-> forall a b, In a l -> In b l ->
   right_comparisons (decode_ieee E F) O a b /\ right_arithmetic (decode_ieee E F) (mul_ieee E F) (add_ieee E F) (div_ieee E F) O a b).
Proof. intros HE HF. exact (decides_ok (ieee_policy E F) (decode_ieee E F) _ _ _ _ O l (ieee_decides E F (conj HE HF))). Qed.
Print Assumptions C65_ieee_exact.
(** For single precision (the native float and SoftFloat). *)
Theorem C65_single_exact O l : (forall a, In a l -> word32 a /\ decode754 8 23 a <> NaN) ->
  (forall a b, In a l -> In b l -> returns (word32) O a b) ->
  exists failed, test_inputs single_policy O l = Some failed /\
  (failed = false <-> forall a b, In a l -> In b l ->
   right_comparisons (decode754 8 23) O a b /\ right_arithmetic (decode754 8 23) (mul754 8 23) (add754 8 23) (div754 8 23) O a b).
Proof. exact (decides_ok single_policy (decode754 8 23) _ _ _ _ O l single_decides). Qed.
Print Assumptions C65_single_exact.
(** For the native double. *)
Theorem C65_double_exact O l : (forall a, In a l -> word64 a /\ decode754 11 52 a <> NaN) ->
  (forall a b, In a l -> In b l -> returns (word64) O a b) ->
  exists failed, test_inputs double_policy O l = Some failed /\
  (failed = false <-> forall a b, In a l -> In b l ->
   right_comparisons (decode754 11 52) O a b /\ right_arithmetic (decode754 11 52) (mul754 11 52) (add754 11 52) (div754 11 52) O a b).
Proof. exact (decides_ok double_policy (decode754 11 52) _ _ _ _ O l double_decides). Qed.
Print Assumptions C65_double_exact.
(** With the library's own FloPoCo operators 1, -2.5 and infinity pass; with a subtraction in place of the addition the
    failure is reported, and an operator wrong only in the last bit of one quotient is too. *)
Definition with_add (O : operators) (f : Z -> Z -> option Z) : operators :=
  Operators (o_eq O) (o_ne O) (o_lt O) (o_le O) (o_gt O) (o_ge O) (o_mul O) f (o_div O).
Definition with_div (O : operators) (f : Z -> Z -> option Z) : operators :=
  Operators (o_eq O) (o_ne O) (o_lt O) (o_le O) (o_gt O) (o_ge O) (o_mul O) (o_add O) f.
Example C65_instance : let O := flopoco_ops 5 10 in let l := [0x13C00; 0x1C100; 0x20000] in
  (forall a, In a l -> wf 18 a /\ decode 5 10 a <> NaN) /\ map (decode 5 10) l = [Num false 1024 (-10); Num true 1280 (-9); Inf false] /\
  test_inputs (flopoco_policy 5 10) O l = Some false /\
  test_inputs (flopoco_policy 5 10) (with_add O (fun a b => o_add O a (Z.lxor b 0x8000))) l = Some true /\
  test_inputs (flopoco_policy 5 10) (with_div O (fun a b => if b =? 0x1C100 then bind (o_div O a b) (fun r => Some (Z.lxor r 1)) else o_div O a b)) l = Some true.
Proof.
  cbv zeta. split; [|vm_compute; repeat split; reflexivity].
  intros a [<-|[<-|[<-|[]]]]; (split; [decide_example|vm_compute; discriminate]).
Qed.
Example C65_single_instance : let l := [0x3F800000; 0xC0200000; 1; 0x7F7FFFFF; 0xFF800000; 0x80000000] in
  (forall a, In a l -> word32 a /\ decode754 8 23 a <> NaN) /\
  test_inputs single_policy (single_ops 64) l = Some false /\
  test_inputs single_policy (with_add (single_ops 64) (fun a b => if a =? 1 then Some b else o_add (single_ops 64) a b)) l = Some true.
Proof.
  cbv zeta. split; [|vm_compute; repeat split; reflexivity].
  intros a [<-|[<-|[<-|[<-|[<-|[<-|[]]]]]]]; (split; [unfold word32; lia|vm_compute; discriminate]).
Qed.
Example C65_double_instance : let l := [0x3FF0000000000000; 0xC004000000000000; 1; 0x7FEFFFFFFFFFFFFF; 0xFFF0000000000000] in
  (forall a, In a l -> word64 a /\ decode754 11 52 a <> NaN) /\ test_inputs double_policy double_ops l = Some false.
Proof.
  cbv zeta. split; [|vm_compute; reflexivity].
  intros a [<-|[<-|[<-|[<-|[<-|[]]]]]]; (split; [unfold word64; lia|vm_compute; discriminate]).
Qed.
Example C65_ieee_instance : let l := [0x3C00; 0xC100; 0x7C00; 0x0001] in
  (forall a, In a l -> wf 16 a /\ decode_ieee 5 10 a <> NaN) /\ test_inputs (ieee_policy 5 10) (ieee_ops 5 10) l = Some false.
Proof.
  cbv zeta. split; [|vm_compute; reflexivity].
  intros a [<-|[<-|[<-|[<-|[]]]]]; (split; [decide_example|vm_compute; discriminate]).
Qed.

(** The test does not hold of NaN: a list with a NaN is reported as failing whenever the comparisons of that NaN with
    itself are right, because mpfr_cmp, which the test takes as reference (policy_test.hpp:367), calls two NaN equal. *)
Theorem C65_flopoco_nan_refuted E F O l a : 1 <= E <= 30 -> 1 <= F <= 128 -> (forall x, In x l -> wf (E + F + 3) x) -> (forall x y, In x l -> In y l -> returns (wf (E + F + 3)) O x y) ->
  In a l -> decode E F a = NaN -> right_comparisons (decode E F) O a a -> test_inputs (flopoco_policy E F) O l = Some true.
Proof. intros HE HF. exact (decides_nan (flopoco_policy E F) (decode E F) _ _ _ _ O l a (flopoco_decides E F (conj HE HF))). Qed.
Print Assumptions C65_flopoco_nan_refuted.
Theorem C65_ieee_nan_refuted E F O l a : 1 <= E <= 30 -> 1 <= F <= 128 -> (forall x, In x l -> wf (E + F + 1) x) -> (forall x y, In x l -> In y l -> returns (wf (E + F + 1)) O x y) ->
  In a l -> decode_ieee E F a = NaN -> right_comparisons (decode_ieee E F) O a a -> test_inputs (ieee_policy E F) O l = Some true.
Proof. intros HE HF. exact (decides_nan (ieee_policy E F) (decode_ieee E F) _ _ _ _ O l a (ieee_decides E F (conj HE HF))). Qed.
Print Assumptions C65_ieee_nan_refuted.
Theorem C65_single_nan_refuted O l a : (forall x, In x l -> word32 x) -> (forall x y, In x l -> In y l -> returns (word32) O x y) ->
  In a l -> decode754 8 23 a = NaN -> right_comparisons (decode754 8 23) O a a -> test_inputs single_policy O l = Some true.
Proof. exact (decides_nan single_policy (decode754 8 23) _ _ _ _ O l a single_decides). Qed.
Print Assumptions C65_single_nan_refuted.
Theorem C65_double_nan_refuted O l a : (forall x, In x l -> word64 x) -> (forall x y, In x l -> In y l -> returns (word64) O x y) ->
  In a l -> decode754 11 52 a = NaN -> right_comparisons (decode754 11 52) O a a -> test_inputs double_policy O l = Some true.
Proof. exact (decides_nan double_policy (decode754 11 52) _ _ _ _ O l a double_decides). Qed.
Print Assumptions C65_double_nan_refuted.
Example C65_nan_instance : let O := single_ops 64 in let a := 0x7FC00000 in decode754 8 23 a = NaN /\ o_eq O a a = Some false /\
  o_ne O a a = Some true /\ test_inputs single_policy O [a] = Some true.
Proof. vm_compute. repeat split. Qed.

(** The library's own operators pass on every list of words of the type without NaN. For the FloPoCo type infinities of the
    same sign must be the same word (C11: the comparisons of infinities look at the stored exponent and fraction). *)
Theorem C65_flopoco_passes E F l : E <= 30 -> F <= 128 -> dual_ok_width E F -> (forall a, In a l -> wf (E + F + 3) a /\ decode E F a <> NaN) ->
  (forall a b s, In a l -> In b l -> decode E F a = Inf s -> decode E F b = Inf s -> a = b) ->
  test_inputs (flopoco_policy E F) (flopoco_ops E F) l = Some false.
Proof.
  intros HE HF HW Hl HI. assert (H := HW). destruct H.
  refine (decides_pass _ _ _ _ _ _ _ l (flopoco_decides E F _) Hl _); [split; lia|].
  intros a b Ha Hb. apply flopoco_right; [exact HW|apply Hl; exact Ha|apply Hl; exact Hb|intros s; apply HI; assumption].
Qed.
Print Assumptions C65_flopoco_passes.
Example C65_flopoco_passes_at := C65_flopoco_passes 8 23 [0x140490FDB; 0x13F800000; 0] ltac:(hyp) ltac:(hyp) ltac:(hyp) ltac:(hyp) ltac:(intros a b s; cbn [In]; intuition (subst; reflexivity || (match goal with H : decode _ _ _ = _ |- _ => vm_compute in H; discriminate H end))).
Theorem C65_ieee_passes E F l : E <= 30 -> F <= 128 -> dual_ok_width E F -> (forall a, In a l -> wf (E + F + 1) a /\ decode_ieee E F a <> NaN) ->
  test_inputs (ieee_policy E F) (ieee_ops E F) l = Some false.
Proof.
  intros HE HF HW Hl. assert (H := HW). destruct H.
  refine (decides_pass _ _ _ _ _ _ _ l (ieee_decides E F _) Hl _); [split; lia|].
  intros a b Ha Hb. apply ieee_right; [exact HW|apply Hl; exact Ha|apply Hl; exact Hb].
Qed.
Print Assumptions C65_ieee_passes.
Example C65_ieee_passes_at := C65_ieee_passes 8 23 [0x40490FDB; 0x3F800000; 0] ltac:(hyp) ltac:(hyp) ltac:(hyp) ltac:(hyp).
Theorem C65_single_passes U l : 32 <= U -> (forall a, In a l -> word32 a /\ decode754 8 23 a <> NaN) ->
  test_inputs single_policy (single_ops U) l = Some false.
Proof.
  intros HU Hl. refine (decides_pass _ _ _ _ _ _ _ l single_decides Hl _).
  intros a b Ha Hb. apply single_right; [exact HU|apply Hl; exact Ha|apply Hl; exact Hb].
Qed.
Print Assumptions C65_single_passes.
Example C65_single_passes_at := C65_single_passes 32 [0x40490FDB; 0x3F800000; 0] ltac:(hyp) ltac:(hyp).
Theorem C65_double_passes l : (forall a, In a l -> word64 a /\ decode754 11 52 a <> NaN) -> test_inputs double_policy double_ops l = Some false.
Proof.
  intros Hl. refine (decides_pass _ _ _ _ _ _ _ l double_decides Hl _).
  intros a b Ha Hb. apply double_right; [apply Hl; exact Ha|apply Hl; exact Hb].
Qed.
Print Assumptions C65_double_passes.
(** Two infinities of the same sign that differ in the stored fraction fail. *)
Example C65_passes_instance : dual_ok_width 5 10 /\ test_inputs (flopoco_policy 5 10) (flopoco_ops 5 10) [0x20000; 0x20001] = Some true.
Proof. split; [unfold dual_ok_width; vm_compute; intuition congruence|vm_compute; reflexivity]. Qed.

(** The whole test program with the library's operators: it builds its inputs without an exception and reports no failure,
    whatever the random numbers, when the number of inputs asked for is at most 136 + 4 F. The default is 100. *)
Theorem C66_flopoco_self_test_partial E F u n : 4 <= E <= 30 -> F <= 128 -> dual_ok_width E F -> Z.of_nat n <= 136 + 4 * F ->
  test_arithmetic (flopoco_policy E F) (flopoco_ops E F) u n = Some false.
Proof. exact (flopoco_self_test E F u n). Qed.
Print Assumptions C66_flopoco_self_test_partial.
Example C66_flopoco_self_test_partial_at := C66_flopoco_self_test_partial 8 23 (fun _ => 5) 200%nat ltac:(hyp) ltac:(hyp) ltac:(hyp) ltac:(hyp).
Theorem C66_ieee_self_test_partial E F u n : 4 <= E <= 30 -> F <= 128 -> dual_ok_width E F -> Z.of_nat n <= 136 + 4 * F ->
  test_arithmetic (ieee_policy E F) (ieee_ops E F) u n = Some false.
Proof. exact (ieee_self_test E F u n). Qed.
Print Assumptions C66_ieee_self_test_partial.
Example C66_ieee_self_test_partial_at := C66_ieee_self_test_partial 8 23 (fun _ => 5) 200%nat ltac:(hyp) ltac:(hyp) ltac:(hyp) ltac:(hyp).
Theorem C66_single_self_test_partial U u n : 32 <= U -> (n <= 228)%nat -> test_arithmetic single_policy (single_ops U) u n = Some false.
Proof. exact (single_self_test U u n). Qed.
Print Assumptions C66_single_self_test_partial.
Example C66_single_self_test_partial_at := C66_single_self_test_partial 32 (fun _ => 5) 200%nat ltac:(hyp) ltac:(hyp).
Theorem C66_double_self_test_partial u n : (n <= 344)%nat -> test_arithmetic double_policy double_ops u n = Some false.
Proof. exact (double_self_test u n). Qed.
Print Assumptions C66_double_self_test_partial.
Example C66_instance : 4 <= 5 <= 30 /\ 10 <= 128 /\ dual_ok_width 5 10 /\ Z.of_nat 100 <= 136 + 4 * 10.
Proof. split; [lia|]. split; [lia|]. split; [unfold dual_ok_width; vm_compute; intuition congruence|lia]. Qed.

(** The inputs are then always the same list, of 136 + 4 F words of the type, none of them NaN, and the random numbers
    are not used at all. *)
Theorem C66_flopoco_inputs E F : 4 <= E <= 30 -> 1 <= F <= 128 -> exists l, Z.of_nat (length l) = 136 + 4 * F /\
  (forall w, In w l -> wf (E + F + 3) w /\ decode E F w <> NaN) /\
  forall u n, (n <= length l)%nat -> make_input (flopoco_policy E F) u n = Some l.
Proof.
  intros HE HF. destruct (flopoco_input E F HE HF) as [l [L1 [L2 L3]]]. rewrite Forall_forall in L1. exists l. split; [rewrite L2; lia|]. split.
  - intros w Hw. destruct (L1 w Hw) as [X [Y _]]. split; assumption.
  - intros u n Hn. rewrite L3. apply random_unused. exact Hn.
Qed.
Print Assumptions C66_flopoco_inputs.
Example C66_flopoco_inputs_at := C66_flopoco_inputs 8 23 ltac:(hyp) ltac:(hyp).
Theorem C66_ieee_inputs E F : 4 <= E <= 30 -> 1 <= F <= 128 -> exists l, Z.of_nat (length l) = 136 + 4 * F /\
  (forall w, In w l -> wf (E + F + 1) w /\ decode_ieee E F w <> NaN) /\
  forall u n, (n <= length l)%nat -> make_input (ieee_policy E F) u n = Some l.
Proof.
  intros HE HF. destruct (ieee_input E F HE HF) as [l [L1 [L2 L3]]]. rewrite Forall_forall in L1. exists l. split; [rewrite L2; lia|]. split.
  - exact L1.
  - intros u n Hn. rewrite L3. apply random_unused. exact Hn.
Qed.
Print Assumptions C66_ieee_inputs.
Example C66_inputs_instance : (do l <- make_input (flopoco_policy 5 10) (fun _ => 0) 100; Some (firstn 8 l)) = (do l <- make_input (flopoco_policy 5 10) (fun k => Z.of_nat k) 100; Some (firstn 8 l)) /\
  (do l <- make_input (flopoco_policy 5 10) (fun _ => 0) 100; Some (length l)) = Some 176%nat.
Proof. split; vm_compute; reflexivity. Qed.

(** Asked for one input more than that, the program can draw 0/0 and then reports a failure of correct operators. *)
Theorem C66_flopoco_random_refuted E F : 4 <= E <= 30 -> F <= 128 -> dual_ok_width E F ->
  exists u, test_arithmetic (flopoco_policy E F) (flopoco_ops E F) u (Z.to_nat (137 + 4 * F)) = Some true.
Proof. intros HE HF HW. exists (fun _ => 0). exact (flopoco_self_test_nan E F HE HF HW). Qed.
Print Assumptions C66_flopoco_random_refuted.
Theorem C66_ieee_random_refuted E F : 4 <= E <= 30 -> F <= 128 -> dual_ok_width E F ->
  exists u, test_arithmetic (ieee_policy E F) (ieee_ops E F) u (Z.to_nat (137 + 4 * F)) = Some true.
Proof. intros HE HF HW. exists (fun _ => 0). exact (ieee_self_test_nan E F HE HF HW). Qed.
Print Assumptions C66_ieee_random_refuted.
Theorem C66_single_random_refuted U : 32 <= U -> exists u, test_arithmetic single_policy (single_ops U) u 229 = Some true.
Proof. intros HU. exists (fun _ => 0). exact (single_self_test_nan U HU). Qed.
Print Assumptions C66_single_random_refuted.
Theorem C66_double_random_refuted : exists u, test_arithmetic double_policy double_ops u 345 = Some true.
Proof. exists (fun _ => 0). exact double_self_test_nan. Qed.
Print Assumptions C66_double_random_refuted.
(** In narrow formats the program stops with an exception while it builds its inputs: 8 does not fit E = 2, and with
    E = 3, F = 1 neither do the larger ones. *)
Theorem C66_narrow_refuted : exists E F, 1 <= E /\ 1 <= F /\ forall O n, test_arithmetic (flopoco_policy E F) O (fun _ => 0) n = None.
Proof. exists 2, 4. split; [lia|]. split; [lia|]. intros O n. vm_compute. reflexivity. Qed.
Print Assumptions C66_narrow_refuted.
