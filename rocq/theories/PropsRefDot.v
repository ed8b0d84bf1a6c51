(** Properties of the reference functions and self-tests of the dot products (C70). *)
From Coq Require Import ZArith QArith List Lia.
From Verif Require Import Fw FwWord Spec SpecDot Flopoco MpfrProofs2 Dot Source SpecSource RefDot SpecRefDot RefDotProofs2 RefDotProofs3 RefDotProofs4 RefDotProofs8 RefDotProofs9 RefDotProofs10 Inst.
Import ListNotations.
Open Scope Z_scope.

(** The reference of the two-term dot product is the exact value rounded down once, although for fractions below twelve bits it
    computes in doubles, which round to nearest, before it rounds down. *)
Theorem C70_dot2_reference_partial E F a0 a1 b0 b1 : 1 <= E <= 29 -> 1 <= F <= 128 -> E <= 10 \/ 12 <= F ->
  wf (E + F + 3) a0 -> wf (E + F + 3) a1 -> wf (E + F + 3) b0 -> wf (E + F + 3) b1 ->
  pos_normal (decode E F a0) -> pos_normal (decode E F a1) -> pos_normal (decode E F b0) -> pos_normal (decode E F b1) ->
  exists r, dot2_ref E F a0 a1 b0 b1 = Some r /\ wf (E + F + 3) r /\ decode E F r = dot2_spec E F (decode E F a0) (decode E F a1) (decode E F b0) (decode E F b1).
Proof. exact (ref_ok E F a0 a1 b0 b1). Qed.
Print Assumptions C70_dot2_reference_partial.
(** 1.5*1.5 + 2^-60 * 1.5: the second product is lost in the double, and in the result. *)
Example C70_dot2_reference_ex : let one_and_half := 2 ^ 13 + 127 * 16 + 8 in let tiny := 2 ^ 13 + 67 * 16 in
  decode 8 4 one_and_half = Num false 24 (-4) /\ decode 8 4 tiny = Num false 16 (-64) /\
  option_map (decode 8 4) (dot2_ref 8 4 one_and_half tiny one_and_half one_and_half) = Some (Num false 18 (-3)).
Proof. vm_compute. repeat split. Qed.

(** In formats with more exponents than a double and a fraction below twelve bits it is infinite for a finite dot product. *)
Theorem C70_dot2_reference_refuted E F : 11 <= E <= 29 -> 1 <= F <= 11 -> exists a0 a1 b0 b1, wf (E + F + 3) a0 /\ wf (E + F + 3) a1 /\ wf (E + F + 3) b0 /\ wf (E + F + 3) b1 /\
  pos_normal (decode E F a0) /\ pos_normal (decode E F a1) /\ pos_normal (decode E F b0) /\ pos_normal (decode E F b1) /\
  (exists r, dot2_ref E F a0 a1 b0 b1 = Some r /\ wf (E + F + 3) r /\ decode E F r = Inf false) /\
  exists m e, dot2_spec E F (decode E F a0) (decode E F a1) (decode E F b0) (decode E F b1) = Num false m e.
Proof. exact (ref_wide E F). Qed.
Print Assumptions C70_dot2_reference_refuted.
Example C70_dot2_reference_refuted_ex : let big := 2 ^ 16 + 2047 * 16 in let one := 2 ^ 16 + 1023 * 16 in let half := 2 ^ 16 + 1022 * 16 in
  option_map (decode 11 4) (dot2_ref 11 4 big one half one) = Some (Inf false) /\
  option_map (decode 11 4) (dot2_pos_rndd 11 4 big one half one) = Some (Num false 16 (1023 - 4)).
Proof. vm_compute. split; reflexivity. Qed.

(** The random self-test passes, however many rounds it runs and whatever words the generator delivers, as long as the distribution
    never yields zero. *)
Theorem C70_dot2_test_passes_partial K draw E F n ws : 1 <= E <= 29 -> 1 <= F <= 128 -> E <= 10 \/ 12 <= F -> draws K draw -> words ws -> (n * (4 * words_per_value E F K) <= length ws)%nat ->
  test_dot2 draw E F n ws = Some true.
Proof. exact (test_passes K draw E F n ws). Qed.
Print Assumptions C70_dot2_test_passes_partial.
Definition draw_half (T : Z) (r : list Z) : option (Q * list Z) := Some (inject_Z T * (1 # 2), skipn 2 r)%Q.
Example C70_dot2_test_ex : draws 2 draw_half /\ words_per_value 5 4 2 = 4%nat /\ test_dot2 draw_half 5 4 2 (repeat (2 ^ 31) 32) = Some true.
Proof.
  split; [|vm_compute; split; reflexivity]. intros T r HT _. eexists. split; [reflexivity|]. unfold Qlt, Qle, Qmult, inject_Z. cbn [Qnum Qden]. lia.
Qed.
(** A zero from the distribution is a positive zero of the format, which the assertions of the dot product reject: the test aborts. *)
Theorem C70_dot2_test_passes_refuted draw E F n we wfr r1 r2 r3 a1 b0 b1 : 1 <= E <= 30 -> 1 <= F <= 128 -> enough E we -> enough F wfr -> draw 64 r1 = Some (0%Q, r2) ->
  source_args draw E F positive_source 3 r2 = Some ([a1; b0; b1], r3) -> test_dot2 draw E F (S n) (we ++ wfr ++ r1) = None.
Proof. exact (test_zero draw E F n we wfr r1 r2 r3 a1 b0 b1). Qed.
Print Assumptions C70_dot2_test_passes_refuted.
Definition draw_word (T : Z) (r : list Z) : option (Q * list Z) := match r with w :: r => Some (Qred (inject_Z T * (w # 4294967296)), r) | [] => None end.
Example C70_dot2_test_refuted_ex : enough 5 [7] /\ enough 4 [9] /\ draw_word 64 (0 :: repeat (2 ^ 31) 9) = Some (0%Q, repeat (2 ^ 31) 9) /\
  test_dot2 draw_word 5 4 1 ([7] ++ [9] ++ 0 :: repeat (2 ^ 31) 9) = None /\ test_dot2 draw_word 5 4 1 ([7] ++ [9] ++ 1 :: repeat (2 ^ 31) 9) = Some true.
Proof.
  assert (W : forall w, 0 <= w < 2 ^ 32 -> Forall (fun w => 0 <= w < 2 ^ 32) [w]) by (intros w H; constructor; [exact H|constructor]).
  split; [split; [reflexivity|apply W; lia]|]. split; [split; [reflexivity|apply W; lia]|]. vm_compute. split; [reflexivity|split; reflexivity].
Qed.

(** The exhaustive self-test walks through every positive normal word of the format once. *)
Theorem C70_exhaustive_walk E F : 1 <= E -> 1 <= F -> NoDup (positives E F) /\ forall x, In x (positives E F) <-> wf (E + F + 3) x /\ pos_normal (decode E F x).
Proof. exact (positives_all E F). Qed.
Print Assumptions C70_exhaustive_walk.
Example C70_exhaustive_walk_ex : positives 1 2 = [16; 17; 18; 19; 20; 21; 22; 23].
Proof. vm_compute. reflexivity. Qed.
(** But it compares the wrong way round: it reports an error and stops at its first combination, because the results agree. *)
Theorem C70_exhaustive_refuted E F : 1 <= E <= 29 -> 1 <= F <= 128 -> E <= 10 \/ 12 <= F ->
  exhaust_dot2 E F = Some (Some (lim_min E F, lim_min E F, lim_min E F, lim_min E F)) /\
  exists r g, dot2_ref E F (lim_min E F) (lim_min E F) (lim_min E F) (lim_min E F) = Some r /\ dot2_pos_rndd E F (lim_min E F) (lim_min E F) (lim_min E F) (lim_min E F) = Some g /\ decode E F r = decode E F g.
Proof. exact (exhaust_wrong E F). Qed.
Print Assumptions C70_exhaustive_refuted.
Example C70_exhaustive_ex : exhaust_dot2 3 3 = Some (Some (128, 128, 128, 128)) /\ decode 3 3 128 = Num false 8 (-6).
Proof. vm_compute. split; reflexivity. Qed.

(** The reference of the four-term dot product: what it returns is the exact value rounded down once, although for fractions below
    six bits it adds up the products in doubles, which round to nearest, four times over. From six bits on it returns when the
    exponents of the products differ by at most 10*(F+2). *)
Theorem C70_dot4_reference_partial E F a0 a1 a2 a3 b0 b1 b2 b3 : 1 <= E <= 11 -> 1 <= F <= 52 -> E <= 10 \/ 6 <= F ->
  wf (E + F + 3) a0 -> wf (E + F + 3) a1 -> wf (E + F + 3) a2 -> wf (E + F + 3) a3 -> wf (E + F + 3) b0 -> wf (E + F + 3) b1 -> wf (E + F + 3) b2 -> wf (E + F + 3) b3 ->
  pos_normal (decode E F a0) -> pos_normal (decode E F a1) -> pos_normal (decode E F a2) -> pos_normal (decode E F a3) -> pos_normal (decode E F b0) -> pos_normal (decode E F b1) -> pos_normal (decode E F b2) -> pos_normal (decode E F b3) ->
  let spec := dot4_spec E F (decode E F a0) (decode E F a1) (decode E F a2) (decode E F a3) (decode E F b0) (decode E F b1) (decode E F b2) (decode E F b3) in
  (forall r, dot4_ref E F a0 a1 a2 a3 b0 b1 b2 b3 = Some r -> wf (E + F + 3) r /\ decode E F r = spec) /\
  (F <= 5 \/ within (10 * (F + 2)) [dmul (decode E F a0) (decode E F b0); dmul (decode E F a1) (decode E F b1); dmul (decode E F a2) (decode E F b2); dmul (decode E F a3) (decode E F b3)] ->
   exists r, dot4_ref E F a0 a1 a2 a3 b0 b1 b2 b3 = Some r).
Proof. exact (ref4_all E F a0 a1 a2 a3 b0 b1 b2 b3). Qed.
Print Assumptions C70_dot4_reference_partial.
Example C70_dot4_reference_ex : let one := 2 ^ 15 + 127 * 64 in let x := 2 ^ 15 + 100 * 64 + 33 in
  option_map (decode 8 6) (dot4_ref 8 6 one one x x one one x one) = Some (Num false 64 (-5)) /\ dmul (decode 8 6 x) (decode 8 6 x) = (9409, -66) /\ dmul (decode 8 6 one) (decode 8 6 one) = (4096, -12).
Proof. vm_compute. repeat split. Qed.
(** Below six fraction bits the sum is taken in doubles: 3*3 + 0.5*0.5 and two tiny products in <8,4> is cut to 9. *)
Example C70_dot4_reference_small_ex : let three := 2 ^ 13 + 128 * 16 + 8 in let half := 2 ^ 13 + 126 * 16 in let tiny := 2 ^ 13 + 70 * 16 in
  decode 8 4 three = Num false 24 (-3) /\ decode 8 4 half = Num false 16 (-5) /\ decode 8 4 tiny = Num false 16 (-61) /\
  option_map (decode 8 4) (dot4_ref 8 4 three half tiny tiny three half tiny three) = Some (Num false 18 (-1)).
Proof. vm_compute. repeat split. Qed.
(** Its own assertion aborts on products further apart: 1 + 2^-120. *)
Theorem C70_dot4_reference_refuted : exists a0 a1 a2 a3 b0 b1 b2 b3, Forall (fun x => wf (8 + 6 + 3) x /\ pos_normal (decode 8 6 x)) [a0; a1; a2; a3; b0; b1; b2; b3] /\
  dot4_ref 8 6 a0 a1 a2 a3 b0 b1 b2 b3 = None.
Proof. exact ref4_aborts. Qed.
Print Assumptions C70_dot4_reference_refuted.
(** With eleven exponent bits and at most five fraction bits it is infinite for a finite dot product. *)
Theorem C70_dot4_reference_eleven_refuted F : 1 <= F <= 5 -> exists a0 a1 a2 a3 b0 b1 b2 b3, Forall (fun x => wf (11 + F + 3) x /\ pos_normal (decode 11 F x)) [a0; a1; a2; a3; b0; b1; b2; b3] /\
  (exists r, dot4_ref 11 F a0 a1 a2 a3 b0 b1 b2 b3 = Some r /\ decode 11 F r = Inf false) /\
  exists m e, dot4_spec 11 F (decode 11 F a0) (decode 11 F a1) (decode 11 F a2) (decode 11 F a3) (decode 11 F b0) (decode 11 F b1) (decode 11 F b2) (decode 11 F b3) = Num false m e.
Proof. exact (ref4_eleven F). Qed.
Print Assumptions C70_dot4_reference_eleven_refuted.
(** In formats wider than a double it does not compile, although the branch for wide fractions does not use doubles. *)
Theorem C70_dot4_reference_wide_refuted E F a0 a1 a2 a3 b0 b1 b2 b3 : 12 <= E \/ 53 <= F -> dot4_ref E F a0 a1 a2 a3 b0 b1 b2 b3 = None.
Proof. exact (ref4_wide E F a0 a1 a2 a3 b0 b1 b2 b3). Qed.
Print Assumptions C70_dot4_reference_wide_refuted.

(** The random self-test passes exactly when the dot product is right for the operands of each round. *)
Theorem C70_dot4_test_decides K draw E F n ws : dot4_covers E F -> draws K draw -> words ws -> (n * (8 * words_per_value E F K) <= length ws)%nat ->
  exists b, test_dot4 draw E F n ws = Some b /\
    (b = true <-> forall i, (i < n)%nat -> exists xs r, source_args draw E F positive_source 8 (skipn (i * (8 * words_per_value E F K)) ws) = Some (xs, r) /\ right4 E F xs).
Proof. exact (test4_decides K draw E F n ws). Qed.
Print Assumptions C70_dot4_test_decides.
Example C70_dot4_test_decides_ex : dot4_covers 4 3 /\ test_dot4 draw_half 4 3 2 (repeat (2 ^ 31 + 2 ^ 29) 64) = Some true.
Proof. split; [unfold dot4_covers; cbn; lia|vm_compute; reflexivity]. Qed.
(** Of the formats that the test program runs, six pass whatever the generator delivers; for the other eight there are words that
    make the test fail in its first round, because the dot product is wrong. *)
Theorem C70_dot4_test_passes_partial K draw E F n ws : In (E, F) [(1, 3); (2, 3); (3, 3); (3, 4); (4, 16); (5, 16)] -> draws K draw -> words ws -> (n * (8 * words_per_value E F K) <= length ws)%nat -> test_dot4 draw E F n ws = Some true.
Proof. exact (formats_pass K draw E F n ws). Qed.
Print Assumptions C70_dot4_test_passes_partial.
Example C70_dot4_test_passes_partial_at := C70_dot4_test_passes_partial 2 draw_half 4 16 2 (repeat (2 ^ 31) 96) ltac:(hyp) (proj1 C70_dot2_test_ex) ltac:(unfold words; cbn [repeat]; hyp) ltac:(vm_compute; lia).
Theorem C70_dot4_test_passes_refuted K E F n : In (E, F) [(4, 3); (4, 4); (5, 4); (6, 4); (4, 5); (5, 5); (6, 5); (6, 16)] ->
  exists ws, words ws /\ length ws = (8 * words_per_value E F K)%nat /\ forall draw rest, draws K draw -> test_dot4 draw E F (S n) (ws ++ rest) = Some false.
Proof. exact (formats_fail K E F n). Qed.
Print Assumptions C70_dot4_test_passes_refuted.
Example C70_dot4_test_formats_ex : forall E F, In (E, F) test_dot4_formats <-> In (E, F) [(1, 3); (2, 3); (3, 3); (3, 4); (4, 16); (5, 16)] \/ In (E, F) [(4, 3); (4, 4); (5, 4); (6, 4); (4, 5); (5, 5); (6, 5); (6, 16)].
Proof. intros E F. unfold test_dot4_formats. cbn [In]. tauto. Qed.
(** 32-bit words for the operands 1.25, 9/8, 15/8 and so on in <4,3>, and zeros for the class. *)
Example C70_dot4_test_refuted_ex : let w e m := [e * 2 ^ 28; (m - 8) * 2 ^ 29; 0; 0] in
  test_dot4 draw_half 4 3 1 (w 7 10 ++ w 0 9 ++ w 1 15 ++ w 4 9 ++ w 7 10 ++ w 0 14 ++ w 1 15 ++ w 5 14) = Some false.
Proof. vm_compute. reflexivity. Qed.
(** The exhaustive self-test, which the program does not call, decides whether the dot product is right in the format. *)
Theorem C70_dot4_exhaustive_decides E F : dot4_covers E F ->
  (exists q, exhaust_dot4 E F = Some q) /\
  (exhaust_dot4 E F = Some None <-> forall xs, length xs = 8%nat -> Forall (fun x => wf (E + F + 3) x /\ pos_normal (decode E F x)) xs -> right4 E F xs) /\
  (forall xs, exhaust_dot4 E F = Some (Some xs) -> length xs = 8%nat /\ Forall (fun x => wf (E + F + 3) x /\ pos_normal (decode E F x)) xs /\ ~ right4 E F xs).
Proof. exact (exhaust4_decides E F). Qed.
Print Assumptions C70_dot4_exhaustive_decides.
Example C70_dot4_exhaustive_ex : positives 1 1 = [8; 9; 10; 11] /\ right4 1 1 [8; 9; 10; 11; 8; 9; 10; 11] /\ dot4_covers 3 1.
Proof. split; [vm_compute; reflexivity|]. split; [eexists; split; vm_compute; reflexivity|unfold dot4_covers; cbn; lia]. Qed.
