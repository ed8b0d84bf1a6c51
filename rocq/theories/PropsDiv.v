(** Properties of division and reciprocal (C06, C07, C42). *)
From Coq Require Import ZArith Bool.
From Verif Require Import Fw Spec Div DivProofs3 DivV2Proofs.
Open Scope Z_scope.

(** C06: div returns the quotient rounded once to nearest even, with flush to zero and
    overflow to infinity, and the IEEE rules for zeros, infinities and NaNs; no assertion
    fails. The operands may have different formats, none wider than the result's; the
    library's static assertion asks for the result's widths to be the larger ones. *)
Theorem C06_div_correctly_rounded :
  forall wER wFR wEX wFX wEY wFY x y,
    1 <= wEX <= wER -> 1 <= wEY <= wER -> 2 <= wER -> 1 <= wFX <= wFR -> 1 <= wFY <= wFR ->
    wf (wEX + wFX + 3) x -> wf (wEY + wFY + 3) y ->
    exists r, div wER wFR wEX wFX wEY wFY x y = Some r /\ wf (wER + wFR + 3) r /\
      decode wER wFR r = div_spec wER wFR (decode wEX wFX x) (decode wEY wFY y).
Proof. exact div_v1_correct. Qed.
Print Assumptions C06_div_correctly_rounded.

(** 1.25 / 1.75 = 0.714285... with operands of 2 and 3 fraction bits gives 11/16. *)
Example C06_instance :
  wf 8 77 /\ wf 9 158 /\ decode 3 2 77 = Num false 5 (-2) /\ decode 3 3 158 = Num false 14 (-3) /\
  div 3 3 3 2 3 3 77 158 = Some 147 /\ decode 3 3 147 = Num false 11 (-4).
Proof. decide_example. Qed.

(** C42 (dividers): div_v2 returns exactly the bits of div_v1, or both are rejected, on
    every input, at the result widths div_v2 accepts. *)
Theorem C42_dividers_agree :
  forall wEX wFX wEY wFY x y,
    1 <= wFX -> 1 <= wFY ->
    div_v2 (Z.max wEX wEY) (Z.max wFX wFY) wEX wFX wEY wFY x y =
    div_v1 (Z.max wEX wEY) (Z.max wFX wFY) wEX wFX wEY wFY x y.
Proof. exact div_v2_agrees. Qed.
Print Assumptions C42_dividers_agree.

Example C42_dividers_instance : div_v2 3 3 3 2 3 3 77 158 = Some 147 /\ div_v1 3 3 3 2 3 3 77 158 = Some 147.
Proof. decide_example. Qed.

(** C07, the finding: inv aborts on every input at every width, because the literal meant as
    the bits 0100 is read as octal 64 and does not fit the four-bit constructor. *)
Theorem C07_inv_always_aborts_refuted :
  forall wER wFR wEY wFY y, inv wER wFR wEY wFY y = None.
Proof. exact inv_aborts. Qed.
Print Assumptions C07_inv_always_aborts_refuted.

(** C07, what holds of the rest of the function: with the literal 4 in place of 64 it would
    return 1/y correctly rounded. Missing from the full property: the literal in the code. *)
Theorem C07_inv_with_intended_literal_partial :
  forall wE wF y, 2 <= wE -> 1 <= wF -> wf (wE + wF + 3) y ->
    exists r, inv_v1_lit 4 wE wF wE wF y = Some r /\ wf (wE + wF + 3) r /\
      decode wE wF r = div_spec wE wF (Num false 1 0) (decode wE wF y).
Proof. exact inv_intended. Qed.
Print Assumptions C07_inv_with_intended_literal_partial.

Example C07_instance :
  wf 8 78 /\ decode 3 2 78 = Num false 6 (-2) /\ inv 3 2 3 2 78 = None /\
  inv_v1_lit 4 3 2 3 2 78 = Some 73 /\ decode 3 2 73 = Num false 5 (-3).
Proof. decide_example. Qed.
