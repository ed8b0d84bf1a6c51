(** C43: the constants of numeric_limits, against the C++ standard's definitions in SpecLimits.v. *)
From Coq Require Import ZArith Lia.
From Verif Require Import Fw Spec SpecLimits Flopoco Ieee Limits LimitsProofs.
Open Scope Z_scope.

(** digits is right in every format. *)
Theorem C43_digits E F : 1 <= F -> (1 <= E -> is_digits (data (E + F + 3) (decode E F)) (digits_const F)) /\
  (2 <= E -> is_digits (data (E + F + 1) (decode_ieee E F)) (digits_const F)).
Proof. intros HF. split; intros HE; [exact (flopoco_digits E F HE HF)|exact (ieee_digits E F HE HF)]. Qed.
Print Assumptions C43_digits.
Example C43_digits_ex : digits_const 23 = 24 /\ (exists x, wf 34 x /\ decode 8 23 x = Num false (2 ^ 24 - 1) (-23)).
Proof. split; [reflexivity|]. exists (2 ^ 32 + 128 * 2 ^ 23 - 1). unfold wf. split; [lia|vm_compute; reflexivity]. Qed.

(** min_exponent and max_exponent are one too small, in every FloPoCo format... *)
Theorem C43_flopoco_exponents_refuted E F : 1 <= E <= 31 -> 1 <= F -> let V := data (E + F + 3) (decode E F) in
  exists a b, flopoco_min_exponent E = Some a /\ flopoco_max_exponent E = Some b /\
    is_min_exponent V (a + 1) /\ ~ is_min_exponent V a /\ is_max_exponent V (b + 1) /\ ~ is_max_exponent V b.
Proof. exact (flopoco_exponents E F). Qed.
Print Assumptions C43_flopoco_exponents_refuted.
(** ... and in every IEEE format. The wrapper's and the SoftFloat type's min_exponent is two too small; their max_exponent is right. *)
Theorem C43_ieee_exponents_refuted E F : 2 <= E <= 31 -> 1 <= F -> let V := data (E + F + 1) (decode_ieee E F) in
  (exists a b, ieee_min_exponent E = Some a /\ ieee_max_exponent E = Some b /\
    is_min_exponent V (a + 1) /\ ~ is_min_exponent V a /\ is_max_exponent V (b + 1) /\ ~ is_max_exponent V b) /\
  (exists a b, flopoco_min_exponent E = Some a /\ flopoco_max_exponent E = Some b /\
    is_min_exponent V (a + 2) /\ ~ is_min_exponent V a /\ is_max_exponent V b).
Proof. exact (ieee_exponents E F). Qed.
Print Assumptions C43_ieee_exponents_refuted.
Example C43_exponents_ex : flopoco_min_exponent 8 = Some (-127) /\ flopoco_max_exponent 8 = Some 128 /\ ieee_min_exponent 8 = Some (-126) /\ ieee_max_exponent 8 = Some 127.
Proof. decide_example. Qed.

(** epsilon() and round_error() stop at assert(0). With NDEBUG round_error() is 1/2 and epsilon() half of what it should be. *)
Theorem C43_flopoco_epsilon_refuted E F : 1 <= E <= 31 -> 1 <= F <= bias E - 1 -> let V := data (E + F + 3) (decode E F) in
  lim_epsilon E F = None /\ lim_round_error E F = None /\
  (exists r, flopoco_epsilon_ndebug E F = Some r /\ wf (E + F + 3) r /\ ~ is_epsilon V (decode E F r) /\ veq (decode E F r) (Num false 1 (- F - 1))) /\
  (forall v, is_epsilon V v <-> veq v (Num false 1 (- F))) /\
  (exists r, flopoco_round_error_ndebug E F = Some r /\ wf (E + F + 3) r /\ veq (decode E F r) (Num false 1 (-1))).
Proof. exact (flopoco_eps E F). Qed.
Print Assumptions C43_flopoco_epsilon_refuted.
Theorem C43_ieee_epsilon_refuted E F : 2 <= E <= 31 -> 1 <= F <= bias E - 2 -> let V := data (E + F + 1) (decode_ieee E F) in
  ie_epsilon E F = None /\ ie_round_error E F = None /\
  (exists r, ieee_epsilon_ndebug E F = Some r /\ wf (E + F + 1) r /\ ~ is_epsilon V (decode_ieee E F r) /\ veq (decode_ieee E F r) (Num false 1 (- F - 1))) /\
  (forall v, is_epsilon V v <-> veq v (Num false 1 (- F))) /\
  (exists r, ieee_round_error_ndebug E F = Some r /\ wf (E + F + 1) r /\ veq (decode_ieee E F r) (Num false 1 (-1))).
Proof. exact (ieee_eps E F). Qed.
Print Assumptions C43_ieee_epsilon_refuted.
Example C43_epsilon_ex : 1 <= 23 <= bias 8 - 2 /\ option_map (decode 8 23) (flopoco_epsilon_ndebug 8 23) = Some (Num false (2 ^ 23) (-47)) /\
  option_map (decode_ieee 8 23) (ieee_round_error_ndebug 8 23) = Some (Num false (2 ^ 23) (-24)).
Proof. split; [unfold bias; lia|]. decide_example. Qed.
