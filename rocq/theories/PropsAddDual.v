(** Properties of the dual-path adder, which is operator add and add_fast (C04, C05, C10, C42). *)
From Coq Require Import ZArith Bool Lia.
From Verif Require Import Fw Spec Flopoco AddSingle AddSingleProofs4 AddDual AddDualProofs AddDualProofs5 AddDualProofs6 Inst.
Open Scope Z_scope.

(** C04: the sum of operands of any two formats, in the wider format, is the exact sum rounded
    once to nearest even with flush to zero and overflow to infinity; no assertion fails.
    Missing from the full property: the widths that C04_add_dual_refuted and
    C05_add_dual_asserts_refuted show to be wrong. Of the formats with E+F+3 <= 128 those are
    F=1, F=61 with E>=7, E=4 with F>=33 and E=5 with F>=65; for all others the hypotheses hold
    (C04_legal_widths). *)
Theorem C04_add_dual_correctly_rounded_partial :
  forall wEX wFX wEY wFY x y,
  let E := Z.max wEX wEY in let F := Z.max wFX wFY in
  1 <= wEX -> 1 <= wFX -> 1 <= wEY -> 1 <= wFY ->
  (3 < E /\ 1 <= F /\ F <= 2 ^ (E + 1) /\ 2 * F + 6 < 2 ^ 31 /\
   (F = 5 \/ F = 13 \/ F = 29 \/ 2 ^ E <= 2 * F + 4 \/ 2 ^ Z.log2 (F + 3) <> F + 3)) ->
  wf (wEX + wFX + 3) x -> wf (wEY + wFY + 3) y ->
  exists r, add_dual E F wEX wFX wEY wFY x y = Some r /\ wf (E + F + 3) r /\
    decode E F r = add_spec E F (decode wEX wFX x) (decode wEY wFY y).
Proof. exact add_dual_ok. Qed.
Print Assumptions C04_add_dual_correctly_rounded_partial.
Example C04_add_dual_correctly_rounded_partial_at := C04_add_dual_correctly_rounded_partial 8 10 8 23 0x9FC00 0x140490FDB ltac:(hyp) ltac:(hyp) ltac:(hyp) ltac:(hyp) ltac:(hyp) ltac:(hyp) ltac:(hyp).

(** Which formats of at most 128 bits the previous theorem covers. *)
Theorem C04_legal_widths :
  forall E F, 3 < E -> 1 <= F -> E + F + 3 <= 128 ->
  (dual_ok_width E F <-> ~ (F = 1 \/ F = 61 /\ 7 <= E \/ E = 4 /\ 33 <= F \/ E = 5 /\ 65 <= F)).
Proof. exact dual_legal_widths. Qed.
Print Assumptions C04_legal_widths.

(** 2.5 - 1.75*2^-3 = 2.28125 rounds to 2.5 at E=4, F=2; 2^104 - (1+2^-23)*2^79 is right in
    single precision (compare C03_add_single_refuted); the formats 8/23 and 11/52 are covered. *)
Example C04_instance :
  wf 9 161 /\ wf 9 211 /\ add_dual 4 2 4 2 4 2 161 211 = Some 161 /\
  add_spec 4 2 (decode 4 2 161) (decode 4 2 211) = Num false 5 (-1) /\
  dual_ok_width 4 2 /\ dual_ok_width 8 23 /\ dual_ok_width 11 52 /\
  (exists r, add_dual 8 23 8 23 8 23 (2 ^ 32 + 253 * 2 ^ 23) (2 ^ 32 + 2 ^ 31 + 228 * 2 ^ 23 + 1) = Some r /\
     decode 8 23 r = Num false (2 ^ 24 - 1) 102).
Proof.
  do 4 (split; [decide_example|]). do 3 (split; [unfold dual_ok_width; vm_compute; intuition congruence|]).
  eexists. split; [vm_compute; reflexivity|vm_compute; reflexivity].
Qed.

(** C04, the finding: for E=4, F >= 33 and E=5, F >= 65 (up to the 128-bit limit) there are
    operands whose exact sum is below half the smallest number, but the result is infinity or a
    non-zero number, if an assertion does not fail. *)
Theorem C04_add_dual_refuted :
  forall E F, E = 4 /\ 33 <= F \/ E = 5 /\ 65 <= F -> E + F + 3 <= 128 ->
  exists x y, wf (E + F + 3) x /\ wf (E + F + 3) y /\
    add_spec E F (decode E F x) (decode E F y) = Zero false /\
    forall r, add_dual E F E F E F x y = Some r -> decode E F r = Inf false \/ exists m e, decode E F r = Num false m e.
Proof. exact add_dual_overflows. Qed.
Print Assumptions C04_add_dual_refuted.

Example C04_refuted_instance :
  add_spec 4 40 (decode 4 40 (2 ^ 45 + 1)) (decode 4 40 (2 ^ 45 + 2 ^ 44)) = Zero false /\
  (exists r, add_dual 4 40 4 40 4 40 (2 ^ 45 + 1) (2 ^ 45 + 2 ^ 44) = Some r /\ decode 4 40 r = Inf false).
Proof. split; [vm_compute; reflexivity|]. eexists. split; [vm_compute; reflexivity|vm_compute; reflexivity]. Qed.

(** C05 for add_dual: F=1 with every E, and F=61 with E >= 7: an assertion fails for some operands. *)
Theorem C05_add_dual_asserts_refuted :
  forall E F, 3 < E -> F = 1 \/ F = 61 -> 2 * F + 4 < 2 ^ E ->
  exists x y, wf (E + F + 3) x /\ wf (E + F + 3) y /\ add_dual E F E F E F x y = None.
Proof. exact add_dual_asserts. Qed.
Print Assumptions C05_add_dual_asserts_refuted.

Example C05_dual_instance :
  add_dual 11 61 11 61 11 61 (2 ^ 73 + 200 * 2 ^ 61 + 1) (2 ^ 73 + (200 - 126) * 2 ^ 61) = None /\ 2 * 61 + 4 < 2 ^ 11 /\
  add_dual 4 1 4 1 4 1 (2 ^ 6 + 12) (2 ^ 6) = None.
Proof. decide_example. Qed.

(** C10 for add_dual. *)
Theorem C10_add_dual_commutative :
  forall E F x y, dual_ok_width E F -> wf (E + F + 3) x -> wf (E + F + 3) y ->
  exists r r', add_dual E F E F E F x y = Some r /\ add_dual E F E F E F y x = Some r' /\
    decode E F r = decode E F r'.
Proof. exact add_dual_comm. Qed.
Print Assumptions C10_add_dual_commutative.
Example C10_add_dual_commutative_at := C10_add_dual_commutative 8 23 0x13F800000 0x140490FDB ltac:(hyp) ltac:(hyp) ltac:(hyp).

Theorem C10_add_dual_self_cancels :
  forall E F x y, dual_ok_width E F -> wf (E + F + 3) x -> wf (E + F + 3) y ->
  finite_v (decode E F x) -> decode E F y = neg_spec (decode E F x) ->
  exists r, add_dual E F E F E F x y = Some r /\ decode E F r = Zero false.
Proof. exact add_dual_neg_self. Qed.
Print Assumptions C10_add_dual_self_cancels.
Example C10_add_dual_self_cancels_at := C10_add_dual_self_cancels 8 23 0x13F800000 0x1BF800000 ltac:(hyp) ltac:(hyp) ltac:(hyp) ltac:(hyp) ltac:(hyp).

Theorem C10_add_dual_mirror :
  forall E F x y nx ny, dual_ok_width E F ->
  wf (E + F + 3) x -> wf (E + F + 3) y -> wf (E + F + 3) nx -> wf (E + F + 3) ny ->
  decode E F nx = neg_spec (decode E F x) -> decode E F ny = neg_spec (decode E F y) ->
  exists r nr, add_dual E F E F E F x y = Some r /\ add_dual E F E F E F nx ny = Some nr /\
    (decode E F nr = neg_spec (decode E F r) \/ decode E F nr = Zero false /\ decode E F r = Zero false).
Proof. exact add_dual_mirror. Qed.
Print Assumptions C10_add_dual_mirror.

Example C10_dual_instance :
  dual_ok_width 4 2 /\
  (exists r, add_dual 4 2 4 2 4 2 161 225 = Some r /\ decode 4 2 r = Zero false) /\ decode 4 2 225 = neg_spec (decode 4 2 161) /\
  add_dual 4 2 4 2 4 2 211 161 = add_dual 4 2 4 2 4 2 161 211.
Proof.
  split; [unfold dual_ok_width; vm_compute; intuition congruence|].
  split; [eexists; split; [vm_compute; reflexivity|vm_compute; reflexivity]|]. decide_example.
Qed.

(** C42, add_dual against add_single: the same value except on the operand pairs of [absorbed]. *)
Theorem C42_adders_agree_partial :
  forall E F x y, dual_ok_width E F -> add_ok_width E F -> wf (E + F + 3) x -> wf (E + F + 3) y ->
  (2 ^ E < 2 * (F + 3) \/ ~ absorbed F (decode E F x) (decode E F y) /\ ~ absorbed F (decode E F y) (decode E F x)) ->
  exists r r', add_dual E F E F E F x y = Some r /\ add_single E F E F E F x y = Some r' /\ decode E F r = decode E F r'.
Proof. exact add_dual_agrees. Qed.
Print Assumptions C42_adders_agree_partial.
Example C42_adders_agree_partial_at := C42_adders_agree_partial 8 23 0x13F800000 0x140490FDB ltac:(hyp) ltac:(hyp) ltac:(hyp) ltac:(hyp) ltac:(right; split; intros (s & m & e & n & f & p & A & B & _); vm_compute in A, B; inversion A; subst; discriminate B).

Theorem C42_adders_agree_refuted :
  exists x y r r', wf 34 x /\ wf 34 y /\ add_dual 8 23 8 23 8 23 x y = Some r /\ add_single 8 23 8 23 8 23 x y = Some r' /\
    decode 8 23 r = Num false (2 ^ 24 - 1) 102 /\ decode 8 23 r' = Num false (2 ^ 23) 103.
Proof.
  exists (2 ^ 32 + 253 * 2 ^ 23), (2 ^ 32 + 2 ^ 31 + 228 * 2 ^ 23 + 1). do 2 eexists.
  split; [decide_example|]. split; [decide_example|]. split; [vm_compute; reflexivity|]. split; [vm_compute; reflexivity|]. split; vm_compute; reflexivity.
Qed.
Print Assumptions C42_adders_agree_refuted.
