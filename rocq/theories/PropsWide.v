(** C82: computing in a wider format and converting the result back. *)
From Coq Require Import ZArith Bool.
From Verif Require Import Fw Spec Flopoco Mul Div AddDual SpecCores WideProofs2 Inst.
Open Scope Z_scope.

(** Operands of the format E, F are converted to a format D, G with a larger exponent and more than twice the fraction,
    multiplied there, and the product is converted back: the datum is the one the multiplication of the narrow format
    returns, rounded twice or not, overflow, underflow and special values included. *)
Theorem C82_mul_through_wider :
  forall E F D G x y, 2 <= E < D -> 1 <= F -> 2 * F + 1 <= G -> wf (E + F + 3) x -> wf (E + F + 3) y ->
  exists x' y' p r d, convert D G E F x = Some x' /\ convert D G E F y = Some y' /\ mul D G D G G x' y' = Some p /\ convert E F D G p = Some r /\
    mul E F E F F x y = Some d /\ wf (E + F + 3) r /\ decode E F r = decode E F d.
Proof. exact wide_mul. Qed.
Print Assumptions C82_mul_through_wider.
Example C82_mul_through_wider_at := C82_mul_through_wider 8 23 11 52 0x13F800000 0x140490FDB ltac:(hyp) ltac:(hyp) ltac:(hyp) ltac:(hyp) ltac:(hyp).

Theorem C82_div_through_wider :
  forall E F D G x y, 2 <= E < D -> 1 <= F -> 2 * F + 1 <= G -> wf (E + F + 3) x -> wf (E + F + 3) y ->
  exists x' y' p r d, convert D G E F x = Some x' /\ convert D G E F y = Some y' /\ div D G D G D G x' y' = Some p /\ convert E F D G p = Some r /\
    div E F E F E F x y = Some d /\ wf (E + F + 3) r /\ decode E F r = decode E F d.
Proof. exact wide_div. Qed.
Print Assumptions C82_div_through_wider.
Example C82_div_through_wider_at := C82_div_through_wider 8 23 11 52 0x13F800000 0x140490FDB ltac:(hyp) ltac:(hyp) ltac:(hyp) ltac:(hyp) ltac:(hyp).

(** The sum, for any adders that are right in their formats ... *)
Theorem C82_add_through_wider :
  forall E F D G add_n add_w x y, 1 <= E < D -> 1 <= F -> 2 * F + 2 <= G ->
  core_right E F F F (add_spec E F) add_n -> core_right D G G G (add_spec D G) add_w -> wf (E + F + 3) x -> wf (E + F + 3) y ->
  exists x' y' p r d, convert D G E F x = Some x' /\ convert D G E F y = Some y' /\ add_w x' y' = Some p /\ convert E F D G p = Some r /\
    add_n x y = Some d /\ wf (E + F + 3) r /\ decode E F r = decode E F d.
Proof. exact wide_add. Qed.
Print Assumptions C82_add_through_wider.

(** ... and for the dual-path adder in the formats in which it is right (C04). *)
Theorem C82_add_dual_through_wider :
  forall E F D G x y, 3 < E < D -> 1 <= F -> 2 * F + 2 <= G -> D + G + 3 <= 128 ->
  ~ (F = 1 \/ F = 61 /\ 7 <= E \/ E = 4 /\ 33 <= F \/ E = 5 /\ 65 <= F) -> ~ (G = 61 /\ 7 <= D \/ D = 5 /\ 65 <= G) ->
  wf (E + F + 3) x -> wf (E + F + 3) y ->
  exists x' y' p r d, convert D G E F x = Some x' /\ convert D G E F y = Some y' /\ add_dual D G D G D G x' y' = Some p /\ convert E F D G p = Some r /\
    add_dual E F E F E F x y = Some d /\ wf (E + F + 3) r /\ decode E F r = decode E F d.
Proof. exact wide_add_dual. Qed.
Print Assumptions C82_add_dual_through_wider.
Example C82_add_dual_through_wider_at := C82_add_dual_through_wider 8 23 11 52 0x13F800000 0x140490FDB ltac:(hyp) ltac:(hyp) ltac:(hyp) ltac:(hyp) ltac:(hyp) ltac:(hyp) ltac:(hyp) ltac:(hyp).

(** With one bit less the sum is wrong by a unit in the last place for some operands, in every format that has an exponent
    range of F+3 or more: the bound 2F+2 cannot be lowered. *)
Theorem C82_add_one_bit_short_refuted :
  forall E F D, 3 < E < D -> 1 < F -> D + (2 * F + 1) + 3 <= 128 -> ~ (E = 4 /\ 14 <= F \/ E = 5 /\ 30 <= F \/ D = 5 /\ 32 <= F) -> F <> 30 \/ D < 7 ->
  exists x y x' y' p r d m e, wf (E + F + 3) x /\ wf (E + F + 3) y /\
    convert D (2 * F + 1) E F x = Some x' /\ convert D (2 * F + 1) E F y = Some y' /\ add_dual D (2 * F + 1) D (2 * F + 1) D (2 * F + 1) x' y' = Some p /\
    convert E F D (2 * F + 1) p = Some r /\ add_dual E F E F E F x y = Some d /\ decode E F d = Num false m e /\ decode E F r = Num false (m + 1) e.
Proof. exact short_add. Qed.
Print Assumptions C82_add_one_bit_short_refuted.

(** Half precision in single, single in double: the widths are inside. In the format 5, 2: 1.25 + 1.75/16 computed in
    6, 6 and back is 1.25; computed in 6, 5 it becomes 1.5. 1.25 / 1.75 in 6, 5 and back is 0.75. *)
Example C82_instance :
  (3 < 5 < 8 /\ 2 * 10 + 2 <= 23 /\ 3 < 8 < 11 /\ 2 * 23 + 2 <= 52) /\
  let x := 2 ^ 8 + 15 * 4 + 1 in let y := 2 ^ 8 + 11 * 4 + 3 in let z := 2 ^ 8 + 15 * 4 + 3 in
  decode 5 2 x = Num false 5 (-2) /\ decode 5 2 y = Num false 7 (-6) /\ decode 5 2 z = Num false 7 (-2) /\
  option_map (decode 5 2) (add_dual 5 2 5 2 5 2 x y) = Some (Num false 5 (-2)) /\
  (do a <- convert 6 6 5 2 x; do b <- convert 6 6 5 2 y; do p <- add_dual 6 6 6 6 6 6 a b; do r <- convert 5 2 6 6 p; Some (decode 5 2 r)) = Some (Num false 5 (-2)) /\
  (do a <- convert 6 5 5 2 x; do b <- convert 6 5 5 2 y; do p <- add_dual 6 5 6 5 6 5 a b; do r <- convert 5 2 6 5 p; Some (decode 5 2 r)) = Some (Num false 6 (-2)) /\
  option_map (decode 5 2) (div 5 2 5 2 5 2 x z) = Some (Num false 6 (-3)) /\
  (do a <- convert 6 5 5 2 x; do b <- convert 6 5 5 2 z; do p <- div 6 5 6 5 6 5 a b; do r <- convert 5 2 6 5 p; Some (decode 5 2 r)) = Some (Num false 6 (-3)).
Proof. vm_compute. repeat split; congruence. Qed.
