(** The alternative single-path adders against the single-path adder (C42). *)
From Coq Require Import ZArith Bool Lia.
From Verif Require Import Fw Spec SpecV4 Flopoco AddSingle AddSingleProofs4 AddSingleAlt AddAltProofs AddAltProofs2 AddAltProofs4 Inst.
Open Scope Z_scope.

(** C42, version 2: the same result, or the same failure to compile or assert, at every width
    and for every operand bit pattern. *)
Theorem C42_v2_agrees :
  forall wER wFR wEX wFX wEY wFY x y,
  add_single_v2 wER wFR wEX wFX wEY wFY x y = add_single wER wFR wEX wFX wEY wFY x y.
Proof. exact add_single_v2_eq. Qed.
Print Assumptions C42_v2_agrees.

Example C42_v2_instance :
  exists r, add_single_v2 8 23 8 23 8 23 (2 ^ 32 + 127 * 2 ^ 23) (2 ^ 32 + 126 * 2 ^ 23 + 5) = Some r /\
    decode 8 23 r = Num false (2 ^ 23 + 2 ^ 22 + 2) (-23).
Proof. eexists; split; [vm_compute; reflexivity|vm_compute; reflexivity]. Qed.

(** C42, version 3: the same result when the wider fraction has 11 to 26 bits, whatever the
    undefined __builtin_clz(0) returns ... *)
Theorem C42_v3_agrees_partial :
  forall u wER wFR wEX wFX wEY wFY x y,
  11 <= Z.max wFX wFY <= 26 ->
  add_single_v3 u wER wFR wEX wFX wEY wFY x y = add_single wER wFR wEX wFX wEY wFY x y.
Proof. exact add_single_v3_eq. Qed.
Print Assumptions C42_v3_agrees_partial.
Example C42_v3_agrees_partial_at := C42_v3_agrees_partial (1,2,3,4) 8 23 8 23 8 23 0x13F800000 0x140490FDB ltac:(hyp).

(** ... and at all other widths version 3 does not compile. *)
Theorem C42_v3_other_widths_refuted :
  forall u wER wFR wEX wFX wEY wFY x y,
  1 <= wFX -> 1 <= wFY -> ~ 11 <= Z.max wFX wFY <= 26 ->
  add_single_v3 u wER wFR wEX wFX wEY wFY x y = None.
Proof. exact add_single_v3_none. Qed.
Print Assumptions C42_v3_other_widths_refuted.

Example C42_v3_instance :
  (exists r, add_single_v3 (31, 7, 0, -1) 8 23 8 23 8 23 (2 ^ 32 + 127 * 2 ^ 23) (2 ^ 32 + 2 ^ 31 + 126 * 2 ^ 23 + 5) = Some r /\
     decode 8 23 r = Num false (2 ^ 24 - 10) (-25)) /\
  add_single_v3 (0, 0, 0, 0) 8 10 8 10 8 10 0 0 = None /\
  (exists r, add_single 8 10 8 10 8 10 0 0 = Some r).
Proof.
  split; [eexists; split; [vm_compute; reflexivity|vm_compute; reflexivity]|]. split; [vm_compute; reflexivity|]. eexists; vm_compute; reflexivity.
Qed.

(** C42, version 5: at every pair of operand widths it is version 1 with the operands exchanged
    when the second has the wider fraction ... *)
Theorem C42_v5_is_v1_swapped :
  forall wER wFR wEX wFX wEY wFY x y,
  1 <= wEX -> 1 <= wFX -> 1 <= wEY -> 1 <= wFY -> wf (wEX + wFX + 3) x -> wf (wEY + wFY + 3) y ->
  add_single_v5 wER wFR wEX wFX wEY wFY x y =
    (if wFX <? wFY then add_single wER wFR wEY wFY wEX wFX y x else add_single wER wFR wEX wFX wEY wFY x y).
Proof. exact add_single_v5_eq. Qed.
Print Assumptions C42_v5_is_v1_swapped.
Example C42_v5_is_v1_swapped_at := C42_v5_is_v1_swapped 8 23 8 10 8 23 0x9FC00 0x140490FDB ltac:(hyp) ltac:(hyp) ltac:(hyp) ltac:(hyp) ltac:(hyp) ltac:(hyp).

(** ... so both give the same value where version 1 rounds correctly. *)
Theorem C42_v5_agrees_partial :
  forall wEX wFX wEY wFY x y,
  let E := Z.max wEX wEY in let F := Z.max wFX wFY in
  1 <= wEX -> 1 <= wFX -> 1 <= wEY -> 1 <= wFY -> F + 3 < 2 ^ E -> 2 ^ E <> 2 * (F + 3) -> 2 * F + 4 < 2 ^ 31 ->
  wf (wEX + wFX + 3) x -> wf (wEY + wFY + 3) y ->
  exists r r', add_single_v5 E F wEX wFX wEY wFY x y = Some r /\ add_single E F wEX wFX wEY wFY x y = Some r' /\
    wf (E + F + 3) r /\ decode E F r = decode E F r'.
Proof. exact add_single_v5_agrees. Qed.
Print Assumptions C42_v5_agrees_partial.

Example C42_v5_instance :
  (exists r, add_single_v5 8 23 8 23 5 10 (2 ^ 32 + 127 * 2 ^ 23) (2 ^ 16 + 14 * 2 ^ 10 + 5) = Some r /\
    decode 8 23 r = Num false 12603392 (-23)) /\
  (exists r, add_single_v5 8 23 5 10 8 23 (2 ^ 16 + 14 * 2 ^ 10 + 5) (2 ^ 32 + 127 * 2 ^ 23) = Some r /\
    decode 8 23 r = Num false 12603392 (-23)).
Proof. split; (eexists; split; [vm_compute; reflexivity|vm_compute; reflexivity]). Qed.

(** C42, version 4 does not agree: 1 + 0.75 ulp is the next float above 1 for version 1 (and IEEE)
    but 1 for version 4; and at narrow exponents version 4 fails an assertion on adding zero. *)
Theorem C42_v4_refuted :
  (exists x y r r', wf 34 x /\ wf 34 y /\ add_single_v4 8 23 8 23 8 23 x y = Some r /\ add_single 8 23 8 23 8 23 x y = Some r' /\
    decode 8 23 r = Num false (2 ^ 23) (-23) /\ decode 8 23 r' = Num false (2 ^ 23 + 1) (-23)) /\
  (exists x r, wf 13 x /\ wf 13 0 /\ add_single_v4 4 6 4 6 4 6 x 0 = None /\ add_single 4 6 4 6 4 6 x 0 = Some r /\
    decode 4 6 r = decode 4 6 x).
Proof.
  split.
  - exists (2 ^ 32 + 127 * 2 ^ 23), (2 ^ 32 + 103 * 2 ^ 23 + 2 ^ 22). do 2 eexists.
    split; [decide_example|]. split; [decide_example|]. split; [vm_compute; reflexivity|]. split; [vm_compute; reflexivity|]. split; vm_compute; reflexivity.
  - exists (2 ^ 11 + 15 * 2 ^ 6). eexists.
    split; [decide_example|]. split; [decide_example|]. split; [vm_compute; reflexivity|]. split; vm_compute; reflexivity.
Qed.
Print Assumptions C42_v4_refuted.

(** What version 4 computes instead, for every operand pair when the exponent is wide enough: the
    exact sum truncated towards zero, except that a tie whose truncation is even goes up. *)
Theorem C42_v4_rounds_skewed :
  forall E F x y, 1 <= E -> 1 <= F -> 2 * (F + 3) < 2 ^ E -> 2 * F + 4 < 2 ^ 31 ->
  wf (E + F + 3) x -> wf (E + F + 3) y ->
  exists r, add_single_v4 E F E F E F x y = Some r /\ wf (E + F + 3) r /\
    decode E F r = add_skew E F (decode E F x) (decode E F y).
Proof. exact add_single_v4_ok. Qed.
Print Assumptions C42_v4_rounds_skewed.

Example C42_v4_instance :
  2 * (23 + 3) < 2 ^ 8 /\
  (exists r, add_single_v4 8 23 8 23 8 23 (2 ^ 32 + 127 * 2 ^ 23) (2 ^ 32 + 103 * 2 ^ 23) = Some r /\
    decode 8 23 r = Num false (2 ^ 23 + 1) (-23)).
Proof. split; [decide_example|]. eexists; split; [vm_compute; reflexivity|vm_compute; reflexivity]. Qed.
