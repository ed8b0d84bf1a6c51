(** The generated arithmetic cores (C80): which of them are right, for every format that the build generates. *)
From Coq Require Import ZArith List Bool.
From Verif Require Import Fw Spec Flopoco Mul AddSingle AddSingleAlt AddDual Div Ieee Cores SpecCores CoresProofs Inst.
Import ListNotations.
Open Scope Z_scope.

(** C80, multipliers and dividers: right in all generated formats and for all operands. *)
Theorem C80_mul_div_cores :
  forall E F, generated E F ->
  core_right E F F F (mul_spec E F) (core_mul E F) /\
  core_right E F F F (div_spec E F) (core_div E F) /\
  core_right E F F F (div_spec E F) (core_div_v2 E F) /\
  ieee_core_right E F (mul_ieee E F) (core_ieee_mul E F) /\
  ieee_core_right E F (div_ieee E F) (core_ieee_div E F).
Proof.
  exact (fun E F G => conj (core_mul_right E F G) (conj (core_div_right E F G) (conj (core_div_v2_right E F G)
    (conj (core_ieee_mul_right E F G) (core_ieee_div_right E F G))))).
Qed.
Print Assumptions C80_mul_div_cores.

(** 1.5 * 1.25 and 1.5 / 1.25 in the format (5, 10). *)
Example C80_mul_div_instance :
  generated 5 10 /\ decode 5 10 81408 = Num false 1536 (-10) /\ decode 5 10 81152 = Num false 1280 (-10) /\
  core_mul 5 10 81408 81152 = Some 81792 /\ decode 5 10 81792 = Num false 1920 (-10) /\
  core_div 5 10 81408 81152 = Some 81101 /\ core_div_v2 5 10 81408 81152 = Some 81101 /\ decode 5 10 81101 = Num false 1229 (-10).
Proof. unfold generated. repeat split; reflexivity || discriminate. Qed.

(** C80, multipliers with a second operand of another precision: right in all 47 generated formats. *)
Theorem C80_mul_ratio_cores :
  forall E F1 F2, In (E, F1, F2) ratio_instances -> core_right E F1 F1 F2 (mul_spec E F1) (core_mul_ratio E F1 F2).
Proof. exact core_mul_ratio_right. Qed.
Print Assumptions C80_mul_ratio_cores.

Example C80_mul_ratio_instance : length ratio_instances = 47%nat /\ In (8, 23, 11) ratio_instances /\ In (11, 52, 104) ratio_instances.
Proof.
  split; [reflexivity|]. split; unfold ratio_instances; apply in_or_app; [left|right]; apply in_map_iff;
    [exists 4%nat|exists 25%nat]; (split; [reflexivity|]); apply in_seq; repeat constructor.
Qed.

(** C80, the single-path adder and its version 2: right exactly in the formats with F + 3 < 2^E < 2F + 6. In all others some
    pair of operands is misrounded or aborts, and in particular there is no right core with 8 exponent bits or more. *)
Theorem C80_add_single_cores :
  forall E F, generated E F ->
  (core_right E F F F (add_spec E F) (core_add_single E F) <-> F + 3 < 2 ^ E < 2 * (F + 3)) /\
  (core_right E F F F (add_spec E F) (core_add_single_v2 E F) <-> F + 3 < 2 ^ E < 2 * (F + 3)).
Proof. exact (fun E F G => conj (core_add_single_iff E F G) (core_add_single_v2_iff E F G)). Qed.
Print Assumptions C80_add_single_cores.

Example C80_add_single_instance : generated 6 40 /\ 40 + 3 < 2 ^ 6 < 2 * (40 + 3) /\ generated 8 23 /\ ~ 2 ^ 8 < 2 * (23 + 3).
Proof. unfold generated. repeat split; reflexivity || discriminate. Qed.

(** C80, version 3 (whatever its uninitialised words hold): right only if, besides, 11 <= F <= 26. *)
Theorem C80_add_single_v3_cores :
  forall u E F, generated E F ->
  (core_right E F F F (add_spec E F) (core_add_single_v3 u E F) <-> 11 <= F <= 26 /\ F + 3 < 2 ^ E < 2 * (F + 3)).
Proof. exact core_add_single_v3_iff. Qed.
Print Assumptions C80_add_single_v3_cores.

Example C80_add_single_v3_instance : generated 5 20 /\ 11 <= 20 <= 26 /\ 20 + 3 < 2 ^ 5 < 2 * (20 + 3).
Proof. unfold generated. repeat split; reflexivity || discriminate. Qed.

(** C80, findings: version 4 of the single-path adder is right in no generated format, and neither is any of the 47
    single-path adders with a second operand of another precision. *)
Theorem C80_add_single_v4_cores_refuted :
  (forall E F, generated E F -> ~ core_right E F F F (add_spec E F) (core_add_single_v4 E F)) /\
  (forall E F1 F2, In (E, F1, F2) ratio_instances -> ~ core_right E F1 F1 F2 (add_spec E F1) (core_add_ratio E F1 F2)).
Proof. exact (conj core_add_single_v4_wrong core_add_ratio_wrong). Qed.
Print Assumptions C80_add_single_v4_cores_refuted.

(** C80, the dual-path adder: right in all generated formats but those with 61 fraction bits and 7 exponent bits or more, those
    with 4 exponent bits and 33 fraction bits or more, and those with 5 exponent bits and 65 fraction bits or more. *)
Theorem C80_add_dual_cores :
  forall E F, generated E F ->
  (core_right E F F F (add_spec E F) (core_add_dual E F) <-> ~ (F = 61 /\ 7 <= E \/ E = 4 /\ 33 <= F \/ E = 5 /\ 65 <= F)).
Proof. exact core_add_dual_iff. Qed.
Print Assumptions C80_add_dual_cores.
Example C80_add_dual_cores_at := C80_add_dual_cores 8 23 ltac:(hyp).

(** C80, the IEEE adder, which uses the dual-path adder but never gives it an operand with the smallest exponent: the bounds
    33 and 65 become 34 and 66. *)
Theorem C80_ieee_add_cores :
  forall E F, generated E F ->
  (ieee_core_right E F (add_ieee E F) (core_ieee_add E F) <-> ~ (F = 61 /\ 7 <= E \/ E = 4 /\ 34 <= F \/ E = 5 /\ 66 <= F)).
Proof. exact core_ieee_add_iff. Qed.
Print Assumptions C80_ieee_add_cores.

(** In the format (7, 61), adding zero to 2^63 aborts; in (4, 34) the difference of two normals below the range comes back as
    a number of the range. *)
Example C80_ieee_add_instance :
  generated 7 61 /\ generated 4 34 /\ generated 4 33 /\
  decode_ieee 7 61 (126 * 2 ^ 61) = Num false (2 ^ 61) 2 /\ decode_ieee 7 61 0 = Zero false /\ core_ieee_add 7 61 (126 * 2 ^ 61) 0 = None /\
  (exists r, core_ieee_add 4 34 (2 ^ 34 + 1) (2 ^ 38 + 2 ^ 34) = Some r /\ decode_ieee 4 34 r <> Zero false).
Proof.
  unfold generated. split; [repeat split; discriminate|]. split; [repeat split; discriminate|]. split; [repeat split; discriminate|].
  split; [vm_compute; reflexivity|]. split; [vm_compute; reflexivity|]. split; [vm_compute; reflexivity|].
  eexists. split; [vm_compute; reflexivity|]. vm_compute. discriminate.
Qed.
