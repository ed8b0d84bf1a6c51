(** C04 and C20: the formats of at most 128 bits in which an adder is right for all operands, all of them. *)
From Coq Require Import ZArith Bool.
From Verif Require Import Fw Spec AddDual Ieee SpecCores WidthProofs Inst.
Open Scope Z_scope.

(** C04: the dual-path adder ([core_right]: for all operands a word comes back, with the exact sum rounded once in it). *)
Theorem C04_add_dual_right_widths :
  forall E F, 1 <= E -> 1 <= F -> E + F + 3 <= 128 ->
  (core_right E F F F (add_spec E F) (add_dual E F E F E F) <->
   3 < E /\ ~ (F = 1 \/ F = 61 /\ 7 <= E \/ E = 4 /\ 33 <= F \/ E = 5 /\ 65 <= F)).
Proof. exact add_dual_right_iff. Qed.
Print Assumptions C04_add_dual_right_widths.
Example C04_add_dual_right_widths_at := C04_add_dual_right_widths 8 23 ltac:(hyp) ltac:(hyp) ltac:(hyp).

(** C20: the addition of the IEEE type. *)
Theorem C20_wrapper_add_right_widths :
  forall E F, 1 <= E -> 1 <= F -> E + F + 3 <= 128 ->
  (ieee_core_right E F (add_ieee E F) (w_add E F) <->
   3 < E /\ ~ (F = 1 \/ F = 61 /\ 7 <= E \/ E = 4 /\ 34 <= F \/ E = 5 /\ 66 <= F)).
Proof. exact w_add_right_iff. Qed.
Print Assumptions C20_wrapper_add_right_widths.

(** Quadruple precision (15, 112) is 130 bits in flopoco form and outside; (15, 110) is inside and right. (4, 33) is wrong
    as a flopoco adder only: the smallest exponent, which IEEE numbers do not use, is what it takes. *)
Example C20_widths_instance :
  15 + 110 + 3 <= 128 /\ 4 + 33 + 3 <= 128 /\
  let x := 2 ^ 38 + 1 in let y := 2 ^ 38 + 2 ^ 37 in
  decode 4 33 x = Num false (2 ^ 33 + 1) (-40) /\ decode 4 33 y = Num true (2 ^ 33) (-40) /\
  add_spec 4 33 (decode 4 33 x) (decode 4 33 y) = Zero false /\
  option_map (decode 4 33) (add_dual 4 33 4 33 4 33 x y) <> Some (Zero false).
Proof. repeat split; vm_compute; intros; congruence. Qed.
