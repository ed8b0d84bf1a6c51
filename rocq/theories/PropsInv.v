(** Table and Newton reciprocals (fp_flopoco_inv_nr.hpp): the rounding helper (C39), the exponent extremes (C40),
    faithful and correct rounding (C53). *)
From Coq Require Import ZArith Bool QArith.
From Verif Require Import Fw Spec SpecFix SpecInv Flopoco InvNr InvNrProofs InvNrProofs2 InvNrProofs3 InvNrProofs4 Inst.
Open Scope Z_scope.

(** ** C39. round_frac<wR>(x) of a wX-bit x: the rounded fraction and the bit that overflowed. *)
Theorem C39_exact_when_wide_enough wR wX x : 0 <= wX <= wR -> round_frac wR wX x = Some (x * 2 ^ (wR - wX), 0).
Proof. exact (round_frac0 wR wX x). Qed.
Print Assumptions C39_exact_when_wide_enough.
Example C39_exact_when_wide_enough_at := C39_exact_when_wide_enough 8 5 21 ltac:(hyp).
Theorem C39_one_bit_nearest_even wR x : 1 <= wR -> 0 <= x < 2 ^ (wR + 1) ->
  round_frac wR (wR + 1) x = Some (rne_div x 2 mod 2 ^ wR, rne_div x 2 / 2 ^ wR).
Proof. exact (round_frac1 wR x). Qed.
Print Assumptions C39_one_bit_nearest_even.
Example C39_one_bit_nearest_even_at := C39_one_bit_nearest_even 4 27 ltac:(hyp) ltac:(hyp).
(** Two or more dropped bits: the second dropped bit is ignored, so 3/4 above an even number stays down, at every width. *)
Theorem C39_nearest_even_refuted wR wX : 1 <= wR -> wR + 2 <= wX ->
  exists x r o, 0 <= x < 2 ^ wX /\ round_frac wR wX x = Some (r, o) /\ o * 2 ^ wR + r <> rne_div x (2 ^ (wX - wR)).
Proof. exact (round_frac_wrong wR wX). Qed.
Print Assumptions C39_nearest_even_refuted.
(** Missing from the full property: values whose second dropped bit is set above an even number. *)
Theorem C39_nearest_even_partial wR wX x : 1 <= wR -> wR + 2 <= wX -> 0 <= x < 2 ^ wX ->
  (x / 2 ^ (wX - wR - 2)) mod 2 = 0 \/ Z.odd (x / 2 ^ (wX - wR)) = true ->
  exists r o, round_frac wR wX x = Some (r, o) /\ o * 2 ^ wR + r = rne_div x (2 ^ (wX - wR)).
Proof. exact (round_frac_right wR wX x). Qed.
Print Assumptions C39_nearest_even_partial.
Example C39_nearest_even_partial_at := C39_nearest_even_partial 4 8 183 ltac:(hyp) ltac:(hyp) ltac:(hyp) ltac:(hyp).
(** For all values the result is at most 3/4 below and 1/2 above. *)
Theorem C39_error_partial wR wX x : 1 <= wR -> wR + 2 <= wX -> 0 <= x < 2 ^ wX ->
  exists r o, round_frac wR wX x = Some (r, o) /\ 0 <= r < 2 ^ wR /\ 0 <= o <= 1 /\
    - (3 * 2 ^ (wX - wR)) <= 4 * ((o * 2 ^ wR + r) * 2 ^ (wX - wR) - x) <= 2 * 2 ^ (wX - wR).
Proof. exact (round_frac_err wR wX x). Qed.
Print Assumptions C39_error_partial.
Example C39_example : round_frac 3 6 46 = Some (6, 0) /\ round_frac 3 4 15 = Some (0, 1) /\ round_frac 3 6 38 = Some (4, 0).
Proof. vm_compute. auto. Qed.
(* 38/8 = 4.75 *)

(** ** C40. Special values; and the reciprocal of a number with the largest exponent is zero. *)
Theorem C40_newton_special E F w y : 2 <= E -> 7 <= F <= 62 -> 8 <= w -> index_bits (F + 1) <= w -> wf (E + w + 3) y ->
  exists r, inv_table_newton E F E w y = Some r /\ wf (E + F + 3) r /\
    match decode E w y with
    | NaN => decode E F r = NaN
    | Inf s => decode E F r = Zero s
    | Zero s => decode E F r = Inf s
    | Num s m e => (e + w = emax E -> decode E F r = Zero s)
    end.
Proof. exact (newton_special E F w y). Qed.
Print Assumptions C40_newton_special.
Example C40_newton_special_at := C40_newton_special 8 23 23 0x140490FDB ltac:(hyp) ltac:(hyp) ltac:(hyp) ltac:(hyp) ltac:(hyp).
Theorem C40_direct_special E F w y : 2 <= E -> 1 <= F <= 50 -> 1 <= w <= 30 -> w <= F + 1 -> wf (E + w + 3) y ->
  exists r, inv_direct E F E w y = Some r /\ wf (E + F + 3) r /\
    match decode E w y with
    | NaN => decode E F r = NaN
    | Inf s => decode E F r = Zero s
    | Zero s => decode E F r = Inf s
    | Num s m e => (e + w = emax E -> decode E F r = Zero s)
    end.
Proof. exact (direct_special E F w y). Qed.
Print Assumptions C40_direct_special.
Example C40_direct_special_at := C40_direct_special 8 23 10 0xA0248 ltac:(hyp) ltac:(hyp) ltac:(hyp) ltac:(hyp) ltac:(hyp).
(** One exponent lower the reciprocal is below the smallest normal too, but the result is in the top binade: it is at
    least 2^emax. *)
Theorem C40_newton_underflow_refuted E F w y s m e : 2 <= E -> 7 <= F <= 62 -> 8 <= w -> index_bits (F + 1) <= w -> wf (E + w + 3) y -> decode E w y = Num s m e ->
  e + w = emax E - 1 -> 2 ^ w + 2 ^ (w - 1) <= m ->
  exists r m' e', inv_table_newton E F E w y = Some r /\ decode E F r = Num s m' e' /\ e' + F = emax E.
Proof. exact (newton_wraps E F w y s m e). Qed.
Print Assumptions C40_newton_underflow_refuted.
Theorem C40_direct_underflow_refuted E F w y s m e : 2 <= E -> 1 <= F <= 50 -> 1 <= w <= 30 -> w <= F + 1 -> wf (E + w + 3) y -> decode E w y = Num s m e ->
  e + w = emax E - 1 -> 2 ^ w + 2 ^ (w - 1) <= m ->
  exists r m' e', inv_direct E F E w y = Some r /\ decode E F r = Num s m' e' /\ e' + F = emax E.
Proof. exact (direct_wraps E F w y s m e). Qed.
Print Assumptions C40_direct_underflow_refuted.
(** 1.5*2^7 with 4 exponent bits: the reciprocal is 1/192, the smallest normal 1/128; the result is 1.33*2^8. *)
Example C40_example : exists y r, decode 4 8 y = Num false 384 (-1) /\ inv_table_newton 4 8 4 8 y = Some r /\ decode 4 8 r = Num false 341 0 /\
  inv_direct 4 8 4 8 y = Some r.
Proof. exists (2 ^ 13 + 14 * 2 ^ 8 + 128). eexists. split; [vm_compute; reflexivity|]. split; [vm_compute; reflexivity|]. vm_compute. auto. Qed.

(** ** C53. The reciprocal of a number in range: no number of the format lies strictly between the result and the
    true reciprocal (inv_faithful is inv_table_newton). *)
Theorem C53_newton_faithful E F w y s m e : 2 <= E -> 7 <= F <= 62 -> 8 <= w -> index_bits (F + 1) <= w -> wf (E + w + 3) y -> decode E w y = Num s m e ->
  e + w <= emax E - 2 \/ (e + w = emax E - 1 /\ m = 2 ^ w) ->
  exists r m' e', inv_table_newton E F E w y = Some r /\ wf (E + F + 3) r /\ decode E F r = Num s m' e' /\
    faithful E F (/ qval (decode E w y)) (qval (decode E F r)).
Proof. exact (newton_faithful E F w y s m e). Qed.
Print Assumptions C53_newton_faithful.
Example C53_newton_faithful_at := C53_newton_faithful 8 23 23 0x140490FDB false 0xC90FDB (-22) ltac:(hyp) ltac:(hyp) ltac:(hyp) ltac:(hyp) ltac:(hyp) ltac:(hyp) ltac:(hyp).
Theorem C53_direct_faithful E F w y s m e : 2 <= E -> 1 <= F <= 50 -> 1 <= w <= 30 -> w <= F + 1 -> wf (E + w + 3) y -> decode E w y = Num s m e ->
  e + w <= emax E - 2 \/ (e + w = emax E - 1 /\ m = 2 ^ w) ->
  exists r m' e', inv_direct E F E w y = Some r /\ wf (E + F + 3) r /\ decode E F r = Num s m' e' /\
    faithful E F (/ qval (decode E w y)) (qval (decode E F r)).
Proof. exact (direct_faithful E F w y s m e). Qed.
Print Assumptions C53_direct_faithful.
Example C53_direct_faithful_at := C53_direct_faithful 8 23 10 0xA0248 false 1608 (-9) ltac:(hyp) ltac:(hyp) ltac:(hyp) ltac:(hyp) ltac:(hyp) ltac:(hyp) ltac:(hyp).
(** inv_direct is the correctly rounded reciprocal, for every bit pattern except those of the wrap of C40. *)
Theorem C53_direct_correctly_rounded E F w y : 2 <= E -> 1 <= F -> 1 <= w <= 30 -> w <= F + 1 -> w + F <= 51 -> wf (E + w + 3) y ->
  (forall s m e, decode E w y = Num s m e -> e + w = emax E - 1 -> m = 2 ^ w) ->
  exists r, inv_direct E F E w y = Some r /\ wf (E + F + 3) r /\ decode E F r = div_spec E F (Num false 1 0) (decode E w y).
Proof. exact (direct_correct E F w y). Qed.
Print Assumptions C53_direct_correctly_rounded.
Example C53_direct_correctly_rounded_at := C53_direct_correctly_rounded 8 23 10 0xA0248 ltac:(hyp) ltac:(hyp) ltac:(hyp) ltac:(hyp) ltac:(hyp) ltac:(hyp) ltac:(intros s m e H; vm_compute in H; inversion H; subst; vm_compute; discriminate).
(** With an input fraction longer than that, 1/(1+2^-w) comes out as 1/2 instead of 1. *)
Theorem C53_direct_long_input_refuted E F w : 2 <= E -> 1 <= F -> F + 2 <= w <= 30 -> w + F <= 51 ->
  exists y r, wf (E + w + 3) y /\ decode E w y = Num false (2 ^ w + 1) (- w) /\ inv_direct E F E w y = Some r /\
    decode E F r = Num false (2 ^ F) (- F - 1) /\ div_spec E F (Num false 1 0) (decode E w y) = Num false (2 ^ F) (- F).
Proof. exact (direct_long E F w). Qed.
Print Assumptions C53_direct_long_input_refuted.
(** inv_table_newton does not compile with a result fraction under 7 bits or an input fraction under 8 bits. *)
Theorem C53_newton_narrow_refuted E F w y : w <= 7 \/ F <= 6 -> inv_table_newton E F E w y = None.
Proof. exact (newton_narrow E F w y). Qed.
Print Assumptions C53_newton_narrow_refuted.
(** 1/3 at 23 fraction bits and 8 exponent bits: 11184811 * 2^-25; and 1/1.5 at 4 fraction bits. *)
Example C53_example : exists y r, decode 8 23 y = Num false (3 * 2 ^ 22) (-22) /\ inv_table_newton 8 23 8 23 y = Some r /\ decode 8 23 r = Num false 11184811 (-25).
Proof. exists (2 ^ 32 + 128 * 2 ^ 23 + 2 ^ 22). eexists. split; [vm_compute; reflexivity|]. split; [vm_compute; reflexivity|]. vm_compute. auto. Qed.
Example C53_example_direct : exists y r, decode 4 4 y = Num true 24 (-4) /\ inv_direct 4 4 4 4 y = Some r /\ decode 4 4 r = Num true 21 (-5).
Proof. exists (2 ^ 9 + 2 ^ 8 + 7 * 2 ^ 4 + 8). eexists. split; [vm_compute; reflexivity|]. split; [vm_compute; reflexivity|]. vm_compute. auto. Qed.
