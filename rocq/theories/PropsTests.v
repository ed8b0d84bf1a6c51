(** Properties of the test programs (C71), and two bounds on misroundings that their comparisons rely on (C03, C21). *)
From Coq Require Import ZArith List Lia.
From Verif Require Import Fw FwWord Spec SpecFma SpecTests Flopoco Mul AddSingle AddSingleAlt AddDual AddDualProofs Div Fma InvNr MpfrLib Mpfr MpfrProofs2 Policy Tests
  FmaProofs4 InvNrProofs4 TestsProofs TestsProofs2 TestsProofs4 TestsProofs5 TestsProofs6 TestsProofs7 Inst.
Import ListNotations.
Open Scope Z_scope.

(** The operands the programs make: whatever the generator draws, there are enough of them, all words of the format with nothing in the
    exponent field of zeros and infinities; without random ones there is no NaN, so no program tests NaN operands on purpose. *)
Theorem C71_operands E F u n : 4 <= E <= 30 -> 1 <= F <= 128 -> draws_ok F u ->
  exists l, make_args E F u n = Some l /\ Forall (plain E F) l /\
    Z.max (132 + 4 * F) (Z.of_nat n) <= Z.of_nat (length l) <= Z.max (132 + 4 * F) (Z.of_nat n + 1) /\
    (Z.of_nat n <= 132 + 4 * F -> Forall (fun w => decode E F w <> NaN) l).
Proof. exact (args_ok E F u n). Qed.
Print Assumptions C71_operands.
Example C71_operands_ex : draws_ok 2 (fun _ => 5) /\ option_map (@length Z) (make_args 4 2 (fun _ => 5) 0) = Some 140%nat /\
  option_map (fun l => map (decode 4 2) (skipn 140 l)) (make_args 4 2 (fun i => if Nat.even i then 7 else 4) 141) = Some [Num false 7 (-2); Num true 7 (-2)].
Proof. split; [intros i; change (2 ^ (2 + 1)) with 8; lia|]. vm_compute. split; reflexivity. Qed.

(** test_mul, test_div and the tests of add_dual accept an operation if and only if it is correctly rounded on every pair of the operands
    they make. *)
Theorem C71_mul_test_decides impl ER FR EA FA EB FB u v n : ok_ef ER FR -> fmt EA FA -> fmt EB FB -> draws_ok FA u -> draws_ok FB v -> total2 ER FR EA FA EB FB impl ->
  exists la lb b, make_args EA FA u n = Some la /\ make_args EB FB v n = Some lb /\ test_mul_impl impl ER FR EA FA EB FB u v n = Some b /\
    (b = true <-> forall x y, In x la -> In y lb -> result ER FR eq (impl x y) (mul_spec ER FR (decode EA FA x) (decode EB FB y))).
Proof. exact (mul_test impl ER FR EA FA EB FB u v n). Qed.
Print Assumptions C71_mul_test_decides.
Theorem C71_div_test_decides impl E F u n : fmt E F -> draws_ok F u -> total2 E F E F E F impl ->
  exists l b, make_args E F u n = Some l /\ test_div_impl impl E F u n = Some b /\
    (b = true <-> forall x y, In x l -> In y l -> result E F eq (impl x y) (div_spec E F (decode E F x) (decode E F y))).
Proof. exact (div_test impl E F u n). Qed.
Print Assumptions C71_div_test_decides.
Theorem C71_add_test_decides impl E F u n : fmt E F -> draws_ok F u -> total2 E F E F E F impl ->
  exists l b, make_args E F u n = Some l /\ test_add_impl impl E F u n = Some b /\
    (b = true <-> forall x y, In x l -> In y l -> result E F eq (impl x y) (add_spec E F (decode E F x) (decode E F y))).
Proof. exact (add_test impl E F u n). Qed.
Print Assumptions C71_add_test_decides.
(** A function that swaps nothing passes, one that returns its first operand does not. *)
Example C71_decides_ex : test_mul_impl (fun x _ => Some x) 4 2 4 2 4 2 (fun _ => 5) (fun _ => 3) 0 = Some false /\
  test_div_impl (fun x y => div 4 2 4 2 4 2 y x) 4 2 (fun _ => 5) 0 = Some false /\ test_add_impl (fun x _ => Some x) 4 2 (fun _ => 5) 0 = Some false /\
  total2 4 2 4 2 4 2 (fun x _ => Some x).
Proof. split; [vm_compute; reflexivity|]. split; [vm_compute; reflexivity|]. split; [vm_compute; reflexivity|]. intros a b Ha _. exists a. auto. Qed.

(** The tests of the single-path adders and of the conversion accept if and only if every result is NaN, or the wanted one is, or no
    number of the result precision separates the two. *)
Theorem C71_add_single_test_decides impl ER FR EA FA EB FB u v n : ok_ef ER FR -> fmt EA FA -> fmt EB FB -> draws_ok FA u -> draws_ok FB v -> total2 ER FR EA FA EB FB impl ->
  exists la lb b, make_args EA FA u n = Some la /\ make_args EB FB v n = Some lb /\ test_add_near impl ER FR EA FA EB FB u v n = Some b /\
    (b = true <-> forall x y, In x la -> In y lb -> result ER FR (near FR) (impl x y) (add_spec ER FR (decode EA FA x) (decode EB FB y))).
Proof. exact (near_test impl ER FR EA FA EB FB u v n). Qed.
Print Assumptions C71_add_single_test_decides.
Theorem C71_convert_test_decides impl ER FR EX FX u n : ok_ef ER FR -> fmt EX FX -> draws_ok FX u -> total1 ER FR EX FX impl ->
  exists l b, make_args EX FX u n = Some l /\ test_convert_impl impl ER FR EX FX u n = Some b /\
    (b = true <-> forall x, In x l -> result ER FR (near FR) (impl x) (convert_spec ER FR (decode EX FX x))).
Proof. exact (convert_test impl ER FR EX FX u n). Qed.
Print Assumptions C71_convert_test_decides.
Example C71_near_decides_ex : test_add_near (fun x _ => Some x) 4 2 4 2 4 2 (fun _ => 5) (fun _ => 3) 0 = Some false /\
  test_convert_impl (fun x => Some (2 * x)) 4 3 4 2 (fun _ => 5) 0 = Some true /\ test_convert_impl (fun x => Some (2 * x + 2)) 4 3 4 2 (fun _ => 5) 0 = Some false.
Proof. vm_compute. repeat split. Qed.

(** So they accept a function that always returns NaN. *)
Theorem C71_nan_rejected_refuted ER FR EA FA EB FB w u v n : ok_ef ER FR -> fmt EA FA -> fmt EB FB -> draws_ok FA u -> draws_ok FB v ->
  wf (ER + FR + 3) w -> decode ER FR w = NaN ->
  test_add_near (fun _ _ => Some w) ER FR EA FA EB FB u v n = Some true /\ test_convert_impl (fun _ => Some w) ER FR EA FA u n = Some true.
Proof. exact (near_accepts_nan ER FR EA FA EB FB w u v n). Qed.
Print Assumptions C71_nan_rejected_refuted.
Example C71_nan_rejected_ex : wf 9 384 /\ decode 4 2 384 = NaN /\ test_convert_impl (fun _ => Some 384) 4 2 4 2 (fun _ => 5) 0 = Some true.
Proof. unfold wf. vm_compute. intuition congruence. Qed.

(** The library's operations pass their tests, for every sequence of draws and every number of operands. *)
Theorem C71_mul_passes E FR FA FB u v n : ok_ef E FR -> fmt E FA -> fmt E FB -> FR < FA + FB + 1 -> draws_ok FA u -> draws_ok FB v ->
  test_mul_impl (mul E FR E FA FB) E FR E FA E FB u v n = Some true.
Proof. exact (mul_passes E FR FA FB u v n). Qed.
Print Assumptions C71_mul_passes.
Example C71_mul_passes_at := C71_mul_passes 8 23 23 23 (fun _ => 5) (fun _ => 77) 500%nat ltac:(hyp) ltac:(hyp) ltac:(hyp) ltac:(hyp) ltac:(hyp) ltac:(hyp).
Theorem C71_div_passes E F u n : fmt E F -> draws_ok F u -> test_div_impl (div E F E F E F) E F u n = Some true.
Proof. exact (div_passes E F u n). Qed.
Print Assumptions C71_div_passes.
Example C71_div_passes_at := C71_div_passes 8 23 (fun _ => 5) 500%nat ltac:(hyp) ltac:(hyp).
Theorem C71_add_dual_passes E F u n : fmt E F -> dual_ok_width E F -> draws_ok F u -> test_add_impl (add_dual E F E F E F) E F u n = Some true.
Proof. exact (add_dual_passes E F u n). Qed.
Print Assumptions C71_add_dual_passes.
Example C71_add_dual_passes_at := C71_add_dual_passes 8 23 (fun _ => 5) 500%nat ltac:(hyp) ltac:(hyp) ltac:(hyp).
Theorem C71_add_single_passes EA FA EB FB u v n : let E := Z.max EA EB in let F := Z.max FA FB in fmt EA FA -> fmt EB FB -> F + 3 < 2 ^ E -> 2 ^ E <> 2 * (F + 3) ->
  draws_ok FA u -> draws_ok FB v ->
  test_add_near (add_single E F EA FA EB FB) E F EA FA EB FB u v n = Some true /\ test_add_near (add_single_v5 E F EA FA EB FB) E F EA FA EB FB u v n = Some true.
Proof. exact (add_single_passes EA FA EB FB u v n). Qed.
Print Assumptions C71_add_single_passes.
Example C71_add_single_passes_at := C71_add_single_passes 8 23 5 10 (fun _ => 5) (fun _ => 77) 500%nat ltac:(hyp) ltac:(hyp) ltac:(hyp) ltac:(hyp) ltac:(hyp) ltac:(hyp).
Theorem C71_convert_passes ER FR EX FX u n : ok_ef ER FR -> fmt EX FX -> draws_ok FX u -> test_convert_impl (convert ER FR EX FX) ER FR EX FX u n = Some true.
Proof. exact (convert_passes ER FR EX FX u n). Qed.
Print Assumptions C71_convert_passes.
Example C71_passes_ex : fmt 8 23 /\ fmt 11 52 /\ ok_ef 8 23 /\ draws_ok 23 (fun i => Z.of_nat i mod 2 ^ 24) /\ dual_ok_width 8 23 /\ 23 + 3 < 2 ^ 8 /\ 2 ^ 8 <> 2 * (23 + 3).
Proof.
  unfold fmt, ok_ef. split; [lia|]. split; [lia|]. split; [lia|]. split; [intros i; apply Z.mod_pos_bound; lia|].
  split; [unfold dual_ok_width; vm_compute; intuition congruence|]. split; lia.
Qed.

(** The single-path adder passes although it misrounds (C03): what it returns then is still next to the right answer. *)
Theorem C03_add_single_next_to wEX wFX wEY wFY x y : let E := Z.max wEX wEY in let F := Z.max wFX wFY in 1 <= wEX -> 1 <= wFX -> 1 <= wEY -> 1 <= wFY ->
  F + 3 < 2 ^ E -> 2 ^ E <> 2 * (F + 3) -> E <= 30 -> F <= 128 -> wf (wEX + wFX + 3) x -> wf (wEY + wFY + 3) y ->
  exists r, add_single E F wEX wFX wEY wFY x y = Some r /\ wf (E + F + 3) r /\ near F (decode E F r) (add_spec E F (decode wEX wFX x) (decode wEY wFY y)).
Proof. exact (add_single_near wEX wFX wEY wFY x y). Qed.
Print Assumptions C03_add_single_next_to.
Example C03_add_single_next_to_ex : exists x y r, wf 34 x /\ wf 34 y /\ add_single 8 23 8 23 8 23 x y = Some r /\ decode 8 23 r = Num false (2 ^ 23) 103 /\
  add_spec 8 23 (decode 8 23 x) (decode 8 23 y) = Num false (2 ^ 24 - 1) 102.
Proof. exists (2 ^ 32 + 253 * 2 ^ 23), (2 ^ 32 + 2 ^ 31 + 228 * 2 ^ 23 + 1). eexists. unfold wf. split; [lia|]. split; [lia|]. split; [vm_compute; reflexivity|]. split; vm_compute; reflexivity. Qed.

(** fma rounds twice (C21), but the result is the right one or next to it: no datum of the result format lies between them. *)
Theorem C21_fma_next_to wER wFR wEX wFX wEY wFY wEZ wFZ x y z : 1 <= wEX -> 1 <= wFX -> 1 <= wEY -> 1 <= wFY -> 1 <= wEZ -> 1 <= wFZ ->
  let E := Z.max (Z.max wEX wEY + 2) (wEZ + 1) in let F := Z.max (wFX + wFY + 2) wFZ in dual_ok_width E F -> 1 <= wER < E -> 1 <= wFR <= F ->
  wf (wEX + wFX + 3) x -> wf (wEY + wFY + 3) y -> wf (wEZ + wFZ + 3) z ->
  exists r, fma wER wFR wEX wFX wEY wFY wEZ wFZ x y z = Some r /\ wf (wER + wFR + 3) r /\
    one_place wER wFR (decode wER wFR r) (fma_spec wER wFR (decode wEX wFX x) (decode wEY wFY y) (decode wEZ wFZ z)).
Proof. exact (fma_one_place wER wFR wEX wFX wEY wFY wEZ wFZ x y z). Qed.
Print Assumptions C21_fma_next_to.
Example C21_fma_next_to_ex : dual_ok_width 10 48 /\ 1 <= 8 < 10 /\ 1 <= 23 <= 48 /\
  let x := 2 ^ 32 + 255 * 2 ^ 23 + 2 ^ 22 in let y := 2 ^ 32 + 127 * 2 ^ 23 + 1 in let z := 2 ^ 32 + 2 ^ 31 in
  fma_spec 8 23 (decode 8 23 x) (decode 8 23 y) (decode 8 23 z) = Num false 12582913 105 /\
  option_map (decode 8 23) (fma 8 23 8 23 8 23 8 23 x y z) = Some (Num false 12582914 105).
Proof. split; [unfold dual_ok_width; vm_compute; intuition congruence|]. split; [lia|]. split; [lia|]. vm_compute. split; reflexivity. Qed.

(** test_fma accepts the library's fma if the second operand's fraction is not shorter than the first's. *)
Theorem C71_fma_passes_partial ER FR EA FA EB FB EC FC u v w n : ok_ef ER FR -> fmt EA FA -> fmt EB FB -> fmt EC FC ->
  let E := Z.max (Z.max EA EB + 2) (EC + 1) in let F := Z.max (FA + FB + 2) FC in dual_ok_width E F -> 1 <= ER < E -> 1 <= FR <= F ->
  draws_ok FA u -> draws_ok FB v -> draws_ok FC w -> FA <= FB -> Z.of_nat n < 132 + 4 * FA ->
  test_fma_impl (fma ER FR EA FA EB FB EC FC) ER FR EA FA EB FB EC FC u v w n = Some true.
Proof. intros R A B C E F D H1 H2 U V W. exact (proj1 (fma_test ER FR EA FA EB FB EC FC u v w n R A B C (conj D (conj H1 H2)) U V W)). Qed.
Print Assumptions C71_fma_passes_partial.
Example C71_fma_passes_partial_at := C71_fma_passes_partial 5 10 8 23 8 23 8 23 (fun _ => 5) (fun _ => 77) (fun _ => 99) 150%nat ltac:(hyp) ltac:(hyp) ltac:(hyp) ltac:(hyp) ltac:(hyp) ltac:(hyp) ltac:(hyp) ltac:(hyp) ltac:(hyp) ltac:(hyp) ltac:(hyp) ltac:(hyp).
(** If it is shorter, as in the second call of main, the program reads past the end of the second list. *)
Theorem C71_fma_passes_refuted ER FR EA FA EB FB EC FC u v w n : ok_ef ER FR -> fmt EA FA -> fmt EB FB -> fmt EC FC ->
  let E := Z.max (Z.max EA EB + 2) (EC + 1) in let F := Z.max (FA + FB + 2) FC in dual_ok_width E F -> 1 <= ER < E -> 1 <= FR <= F ->
  draws_ok FA u -> draws_ok FB v -> draws_ok FC w -> FB < FA -> Z.of_nat n < 132 + 4 * FB ->
  test_fma_impl (fma ER FR EA FA EB FB EC FC) ER FR EA FA EB FB EC FC u v w n = None.
Proof. intros R A B C E F D H1 H2 U V W. exact (proj2 (fma_test ER FR EA FA EB FB EC FC u v w n R A B C (conj D (conj H1 H2)) U V W)). Qed.
Print Assumptions C71_fma_passes_refuted.
(** The three calls of main. *)
Example C71_fma_ex : dual_ok_width 10 48 /\ dual_ok_width 10 49 /\ Z.max (Z.max 8 8 + 2) (8 + 1) = 10 /\ Z.max (23 + 23 + 2) 23 = 48 /\ Z.max (24 + 23 + 2) 23 = 49 /\
  Z.max (23 + 23 + 2) 26 = 48 /\ draws_ok 24 (fun _ => 5) /\
  (exists la lb, make_args 8 24 (fun _ => 5) 0 = Some la /\ make_args 8 23 (fun _ => 5) 0 = Some lb /\ (length lb < length la)%nat).
Proof.
  split; [unfold dual_ok_width; vm_compute; intuition congruence|]. split; [unfold dual_ok_width; vm_compute; intuition congruence|]. do 4 (split; [reflexivity|]). split; [intros i; lia|].
  eexists. eexists. split; [vm_compute; reflexivity|]. split; [vm_compute; reflexivity|]. cbn [length]. lia.
Qed.

(** The reciprocals pass their tests in the formats of test_inv_nr, again for every sequence of draws. *)
Theorem C71_inv_newton_passes F w u n : 7 <= F <= 62 -> 8 <= w <= 62 -> F <= w \/ 10 <= w -> draws_ok w u ->
  test_inv_faithful_impl (inv_table_newton 8 F 8 w) 8 F 8 w u n = Some true.
Proof. exact (inv_newton_passes' F w u n). Qed.
Print Assumptions C71_inv_newton_passes.
Example C71_inv_newton_passes_at := C71_inv_newton_passes 23 23 (fun _ => 5) 500%nat ltac:(hyp) ltac:(hyp) ltac:(hyp) ltac:(hyp).
Theorem C71_inv_direct_passes F u n : 4 <= F <= 25 -> draws_ok F u -> test_inv_impl (inv_direct 8 F 8 F) 8 F u n = Some true.
Proof. exact (inv_direct_passes F u n). Qed.
Print Assumptions C71_inv_direct_passes.
Example C71_inv_passes_ex : draws_ok 8 (fun _ => 5) /\ test_inv_impl (fun x => Some x) 8 8 (fun _ => 5) 0 = Some false /\ test_inv_faithful_impl (fun x => Some x) 8 8 8 8 (fun _ => 5) 0 = Some false.
Proof. split; [intros i; lia|]. vm_compute. repeat split. Qed.
(** Yet both are wrong by hundreds of binades on data the programs never make (C40): passing for every draw is no evidence. *)
Theorem C71_inv_tests_detect_refuted F : 8 <= F <= 25 ->
  exists y s m e, wf (8 + F + 3) y /\ decode 8 F y = Num s m e /\ div_spec 8 F (Num false 1 0) (Num s m e) = Zero s /\
    (exists r m' e', inv_direct 8 F 8 F y = Some r /\ decode 8 F r = Num s m' e' /\ e' + F = emax 8) /\
    (exists r m' e', inv_table_newton 8 F 8 F y = Some r /\ decode 8 F r = Num s m' e' /\ e' + F = emax 8) /\
    forall u n, draws_ok F u -> test_inv_impl (inv_direct 8 F 8 F) 8 F u n = Some true /\ test_inv_faithful_impl (inv_table_newton 8 F 8 F) 8 F 8 F u n = Some true.
Proof. exact (inv_tests_blind F). Qed.
Print Assumptions C71_inv_tests_detect_refuted.
Example C71_inv_tests_detect_ex : let y := 2 ^ 17 + 254 * 2 ^ 8 + 2 ^ 7 in decode 8 8 y = Num false 384 119 /\
  option_map (decode 8 8) (inv_direct 8 8 8 8 y) = Some (Num false 341 120) /\ option_map (decode 8 8) (inv_table_newton 8 8 8 8 y) = Some (Num false 341 120).
Proof. vm_compute. repeat split. Qed.
