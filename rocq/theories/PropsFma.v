(** Properties of the fused multiply-add (C21). *)
From Coq Require Import ZArith Bool.
From Verif Require Import Fw Spec SpecFma AddDualProofs Fma FmaProofs FmaProofs2 FmaProofs3 FmaProofs5 Inst.
Open Scope Z_scope.

(** C21, what fma computes: no assertion fails, NaNs, infinities and zeros follow the IEEE
    rules, and a number is the exact x*y + z rounded first to the wide format
    (max(wEX,wEY)+2 or wEZ+1 exponent bits, wFX+wFY+2 or wFZ fraction bits) and then to the
    result. Missing from the full property: one rounding instead of two; and the widths the
    adder gets wrong (C04_legal_widths lists those it gets right). *)
Theorem C21_fma_two_roundings_partial :
  forall wER wFR wEX wFX wEY wFY wEZ wFZ x y z,
    1 <= wER -> 1 <= wFR -> 1 <= wEX -> 1 <= wFX -> 1 <= wEY -> 1 <= wFY -> 1 <= wEZ -> 1 <= wFZ ->
    let E := Z.max (Z.max wEX wEY + 2) (wEZ + 1) in let F := Z.max (wFX + wFY + 2) wFZ in
    dual_ok_width E F -> wER <> E \/ F <= wFR ->
    wf (wEX + wFX + 3) x -> wf (wEY + wFY + 3) y -> wf (wEZ + wFZ + 3) z ->
    exists r, fma wER wFR wEX wFX wEY wFY wEZ wFZ x y z = Some r /\ wf (wER + wFR + 3) r /\
      decode wER wFR r =
      convert_spec wER wFR (add_spec E F (prod_exact (decode wEX wFX x) (decode wEY wFY y)) (decode wEZ wFZ z)).
Proof. exact fma_two_roundings. Qed.
Print Assumptions C21_fma_two_roundings_partial.
Example C21_fma_two_roundings_partial_at := C21_fma_two_roundings_partial 8 23 8 23 8 23 8 23 0x13F800000 0x140490FDB 0x1BF800000 ltac:(hyp) ltac:(hyp) ltac:(hyp) ltac:(hyp) ltac:(hyp) ltac:(hyp) ltac:(hyp) ltac:(hyp) ltac:(hyp) ltac:(hyp) ltac:(hyp) ltac:(hyp) ltac:(hyp).

(** C21 holds, in every case but one: it fails only if the exact x*y + z, rounded to the wide
    format, is inexact and lands exactly half way between two neighbours of the result format. *)
Theorem C21_fma_rounds_once_partial :
  forall wER wFR wEX wFX wEY wFY wEZ wFZ x y z,
    1 <= wFR -> 1 <= wEX -> 1 <= wFX -> 1 <= wEY -> 1 <= wFY -> 1 <= wEZ -> 1 <= wFZ ->
    let E := Z.max (Z.max wEX wEY + 2) (wEZ + 1) in let F := Z.max (wFX + wFY + 2) wFZ in
    let p := prod_exact (decode wEX wFX x) (decode wEY wFY y) in let dz := decode wEZ wFZ z in
    dual_ok_width E F -> 1 <= wER < E -> wFR < F ->
    wf (wEX + wFX + 3) x -> wf (wEY + wFY + 3) y -> wf (wEZ + wFZ + 3) z ->
    (forall s m e, add_spec E F p dz = Num s m e ->
       m mod 2 ^ (F - wFR) <> 2 ^ (F - wFR - 1) \/ veq (sum_exact p dz) (Num s m e)) ->
    exists r, fma wER wFR wEX wFX wEY wFY wEZ wFZ x y z = Some r /\ wf (wER + wFR + 3) r /\
      decode wER wFR r = fma_spec wER wFR (decode wEX wFX x) (decode wEY wFY y) (decode wEZ wFZ z).
Proof. exact fma_rounds_once. Qed.
Print Assumptions C21_fma_rounds_once_partial.

(** 1.75 * 1.25 + 3.5 = 5.6875 in E=3, F=2 gives 6; the format used for the sum is E=5, F=6;
    single precision uses 10/48 and is covered. *)
Example C21_instance :
  wf 8 79 /\ wf 8 77 /\ wf 8 83 /\ decode 3 2 79 = Num false 7 (-2) /\ decode 3 2 77 = Num false 5 (-2) /\ decode 3 2 83 = Num false 7 (-1) /\
  sum_exact (prod_exact (decode 3 2 79) (decode 3 2 77)) (decode 3 2 83) = Num false 91 (-4) /\
  add_spec 5 6 (prod_exact (decode 3 2 79) (decode 3 2 77)) (decode 3 2 83) = Num false 91 (-4) /\ 91 mod 2 ^ 4 = 11 /\
  option_map (decode 3 2) (fma 3 2 3 2 3 2 3 2 79 77 83) = Some (Num false 6 0) /\
  dual_ok_width 5 6 /\ dual_ok_width 10 48.
Proof. do 10 (split; [decide_example|]). split; unfold dual_ok_width; vm_compute; intuition congruence. Qed.

(** C21, the finding: in every format with F >= 3 and 2F+6 <= 2^E the two roundings give the
    number above the right one for some operands. *)
Theorem C21_fma_rounds_once_refuted :
  forall E F, 3 <= F < 2 ^ 28 -> 2 * F + 6 <= 2 ^ E ->
  exists x y z r m e, wf (E + F + 3) x /\ wf (E + F + 3) y /\ wf (E + F + 3) z /\
    fma E F E F E F E F x y z = Some r /\
    fma_spec E F (decode E F x) (decode E F y) (decode E F z) = Num false m e /\ decode E F r = Num false (m + 1) e.
Proof. exact fma_double_rounds. Qed.
Print Assumptions C21_fma_rounds_once_refuted.

(** Single precision: 1.5 * 2^128 * (1 + 2^-23) - 2^-127. *)
Example C21_refuted_instance :
  3 <= 23 < 2 ^ 28 /\ 2 * 23 + 6 <= 2 ^ 8 /\
  let x := 2 ^ 32 + 255 * 2 ^ 23 + 2 ^ 22 in let y := 2 ^ 32 + 127 * 2 ^ 23 + 1 in let z := 2 ^ 32 + 2 ^ 31 in
  fma_spec 8 23 (decode 8 23 x) (decode 8 23 y) (decode 8 23 z) = Num false 12582913 105 /\
  option_map (decode 8 23) (fma 8 23 8 23 8 23 8 23 x y z) = Some (Num false 12582914 105).
Proof. decide_example. Qed.

(** C21, the same in every format at all in which the wide adder is right, the small ones
    included: one unit in the last place is lost for some operands. *)
Theorem C21_fma_never_fused_refuted :
  forall E F, 1 <= F -> dual_ok_width (E + 2) (2 * F + 2) ->
  exists x y z r m m' e, wf (E + F + 3) x /\ wf (E + F + 3) y /\ wf (E + F + 3) z /\
    fma E F E F E F E F x y z = Some r /\
    fma_spec E F (decode E F x) (decode E F y) (decode E F z) = Num false m e /\
    decode E F r = Num false m' e /\ Z.abs (m' - m) = 1.
Proof. exact fma_never_fused. Qed.
Print Assumptions C21_fma_never_fused_refuted.

(** E=2, F=1: 1.5 * 2^-1 * 1.5 * 2^-1 + 2 = 41 * 2^-4 is nearer to 3 than to 2, and 2 is returned. *)
Example C21_never_fused_instance :
  dual_ok_width 4 4 /\
  let x := 2 ^ 4 + 1 in let z := 2 ^ 4 + 2 * 2 in
  decode 2 1 x = Num false 3 (-2) /\ decode 2 1 z = Num false 2 0 /\
  fma_spec 2 1 (decode 2 1 x) (decode 2 1 x) (decode 2 1 z) = Num false 3 0 /\
  option_map (decode 2 1) (fma 2 1 2 1 2 1 2 1 x x z) = Some (Num false 2 0).
Proof. split; [unfold dual_ok_width; vm_compute; intuition congruence|decide_example]. Qed.
