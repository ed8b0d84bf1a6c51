(** Properties of the single-path adder (C03, C05, C10). *)
From Coq Require Import ZArith Bool.
From Verif Require Import Fw Spec Flopoco Mul AddSingle AddSingleProofs3 AddSingleProofs4 Inst.
Open Scope Z_scope.

(** C03: the sum of operands of any two formats, in the wider format, is the exact sum rounded
    once to nearest even with flush to zero and overflow to infinity; no assertion fails.
    Missing from the full property: the operand pairs of [absorbed] (an exact power of two
    minus a non-power of two whose leading bit is F+2 places below), which the code
    misrounds when 2*(F+3) < 2^E; and the widths of C05. *)
Theorem C03_add_single_correctly_rounded_partial :
  forall wEX wFX wEY wFY x y,
  let E := Z.max wEX wEY in let F := Z.max wFX wFY in
  1 <= wEX -> 1 <= wFX -> 1 <= wEY -> 1 <= wFY -> F + 3 < 2 ^ E -> 2 ^ E <> 2 * (F + 3) -> 2 * F + 4 < 2 ^ 31 ->
  wf (wEX + wFX + 3) x -> wf (wEY + wFY + 3) y ->
  exists r, add_single E F wEX wFX wEY wFY x y = Some r /\ wf (E + F + 3) r /\
    let vx := decode wEX wFX x in let vy := decode wEY wFY y in
    ((2 ^ E < 2 * (F + 3) \/ ~ absorbed F vx vy /\ ~ absorbed F vy vx) -> decode E F r = add_spec E F vx vy) /\
    (2 * (F + 3) < 2 ^ E -> absorbed F vx vy -> veq (decode E F r) vx) /\
    (2 * (F + 3) < 2 ^ E -> absorbed F vy vx -> veq (decode E F r) vy).
Proof. exact add_single_char. Qed.
Print Assumptions C03_add_single_correctly_rounded_partial.

(** 2.5 - 0.21875 = 2.28125 rounds to 2.5 at E=4, F=2. *)
Example C03_instance :
  wf 9 161 /\ wf 9 211 /\ decode 4 2 161 = Num false 5 (-1) /\ decode 4 2 211 = Num true 7 (-5) /\
  add_single 4 2 4 2 4 2 161 211 = Some 161 /\
  add_spec 4 2 (decode 4 2 161) (decode 4 2 211) = Num false 5 (-1).
Proof. decide_example. Qed.

(** C03, the finding, in single precision: 2^126 - (1+2^-23)*2^101 is misrounded to 2^126. *)
Theorem C03_add_single_refuted :
  exists x y r, wf 34 x /\ wf 34 y /\ add_single 8 23 8 23 8 23 x y = Some r /\
    decode 8 23 r = Num false (2 ^ 23) 103 /\
    add_spec 8 23 (decode 8 23 x) (decode 8 23 y) = Num false (2 ^ 24 - 1) 102.
Proof.
  exists (2 ^ 32 + 253 * 2 ^ 23), (2 ^ 32 + 2 ^ 31 + 228 * 2 ^ 23 + 1). eexists.
  split; [decide_example|]. split; [decide_example|]. split; [vm_compute; reflexivity|]. split; vm_compute; reflexivity.
Qed.
Print Assumptions C03_add_single_refuted.

(** C05 for add_single: an assertion fails on every call when 2^E <= F+3, and on some
    call when 2^E = 2*(F+3) (for example E=3, F=1). The other widths never fail one
    (C03_add_single_correctly_rounded_partial). *)
Theorem C05_add_single_asserts_refuted :
  forall E F x y, 1 <= E -> 1 <= F -> 2 ^ E <= F + 3 -> add_single E F E F E F x y = None.
Proof. exact add_single_asserts. Qed.
Print Assumptions C05_add_single_asserts_refuted.

Example C05_narrow_instance : 1 <= 4 /\ 1 <= 23 /\ 2 ^ 4 <= 23 + 3 /\ add_single 4 23 4 23 4 23 0 0 = None.
Proof. decide_example. Qed.

Theorem C05_add_single_power_of_two_refuted :
  exists E F x y, 2 ^ E = 2 * (F + 3) /\ wf (E + F + 3) x /\ wf (E + F + 3) y /\ add_single E F E F E F x y = None.
Proof. exists 3, 1, (2 ^ 5 + 7 * 2), (2 ^ 5). decide_example. Qed.
Print Assumptions C05_add_single_power_of_two_refuted.

(** C10 for add_single. *)
Theorem C10_add_single_commutative :
  forall E F x y, add_ok_width E F -> wf (E + F + 3) x -> wf (E + F + 3) y ->
  exists r r', add_single E F E F E F x y = Some r /\ add_single E F E F E F y x = Some r' /\
    decode E F r = decode E F r'.
Proof. exact add_single_comm. Qed.
Print Assumptions C10_add_single_commutative.
Example C10_add_single_commutative_at := C10_add_single_commutative 8 23 0x13F800000 0x140490FDB ltac:(hyp) ltac:(hyp) ltac:(hyp).

Theorem C10_add_single_self_cancels :
  forall E F x y, add_ok_width E F -> wf (E + F + 3) x -> wf (E + F + 3) y ->
  finite_v (decode E F x) -> decode E F y = neg_spec (decode E F x) ->
  exists r, add_single E F E F E F x y = Some r /\ decode E F r = Zero false.
Proof. exact add_single_neg_self. Qed.
Print Assumptions C10_add_single_self_cancels.
Example C10_add_single_self_cancels_at := C10_add_single_self_cancels 8 23 0x13F800000 0x1BF800000 ltac:(hyp) ltac:(hyp) ltac:(hyp) ltac:(hyp) ltac:(hyp).

Theorem C10_add_single_mirror :
  forall E F x y nx ny, add_ok_width E F ->
  wf (E + F + 3) x -> wf (E + F + 3) y -> wf (E + F + 3) nx -> wf (E + F + 3) ny ->
  decode E F nx = neg_spec (decode E F x) -> decode E F ny = neg_spec (decode E F y) ->
  exists r nr, add_single E F E F E F x y = Some r /\ add_single E F E F E F nx ny = Some nr /\
    (decode E F nr = neg_spec (decode E F r) \/ decode E F nr = Zero false /\ decode E F r = Zero false).
Proof. exact add_single_mirror. Qed.
Print Assumptions C10_add_single_mirror.

Example C10_instance :
  add_ok_width 4 2 /\
  add_single 4 2 4 2 4 2 161 225 = Some 8 /\ decode 4 2 8 = Zero false /\ decode 4 2 225 = neg_spec (decode 4 2 161) /\
  add_single 4 2 4 2 4 2 211 161 = add_single 4 2 4 2 4 2 161 211.
Proof. split; [unfold add_ok_width|]; decide_example. Qed.

(** C10 for mul: both the rounding and the exact branch, mixed fraction widths. *)
Theorem C10_mul_commutative :
  forall wE wFR wFX wFY x y,
  2 <= wE -> 1 <= wFX -> 1 <= wFY -> 1 <= wFR -> wf (wE + wFX + 3) x -> wf (wE + wFY + 3) y ->
  exists r r', mul wE wFR wE wFX wFY x y = Some r /\ mul wE wFR wE wFY wFX y x = Some r' /\
    decode wE wFR r = decode wE wFR r'.
Proof. exact mul_comm. Qed.
Print Assumptions C10_mul_commutative.

Example C10_mul_instance : mul 3 2 3 2 2 79 78 = Some 81 /\ mul 3 2 3 2 2 78 79 = Some 81.
Proof. decide_example. Qed.
