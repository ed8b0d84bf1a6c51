(** Conversions between fp_flopoco, fw_uint and double (fp_flopoco.hpp, fw_uint.hpp): to_double (C41), to_double_approx
    (C56), the constructor from double (C55). *)
From Coq Require Import ZArith Bool.
From Verif Require Import Fw Spec SpecDbl Flopoco FlopocoLemmas Mpfr Dbl DblProofs DblProofs2 DblProofs3 Inst.
Open Scope Z_scope.

(** ** C41. to_double: the exact value, except for negative numbers and for the ends of the range of eleven exponent bits. *)
Theorem C41_exact_partial E F x : 1 <= E <= 11 -> 1 <= F <= 52 -> wf (E + F + 3) x ->
  (forall s m e, decode E F x = Num s m e -> s = false /\ -1022 <= e + F <= 1023) ->
  exists v, to_double E F x = Some v /\ dbl v /\ veq v (decode E F x).
Proof. exact (to_double_right E F x). Qed.
Print Assumptions C41_exact_partial.
Example C41_exact_partial_at := C41_exact_partial 8 23 0x140490FDB ltac:(hyp) ltac:(hyp) ltac:(hyp) ltac:(intros s m e H; vm_compute in H; inversion H; subst; vm_compute; intuition discriminate).
(** Every negative number, in every format, comes out with the wrong sign. *)
Theorem C41_negative_refuted E F x m e : 1 <= E <= 11 -> 1 <= F <= 52 -> wf (E + F + 3) x -> decode E F x = Num true m e ->
  exists v, to_double E F x = Some v /\ ((exists m' e', v = Num false m' e') \/ v = Inf false \/ v = Zero false) /\ ~ veq v (decode E F x).
Proof. exact (to_double_negative E F x m e). Qed.
Print Assumptions C41_negative_refuted.
(** With eleven exponent bits the largest binade becomes infinite, *)
Theorem C41_largest_refuted F : 1 <= F <= 52 -> exists x m e, wf (11 + F + 3) x /\ decode 11 F x = Num false m e /\ to_double 11 F x = Some (Inf false).
Proof. exact (to_double_largest F). Qed.
Print Assumptions C41_largest_refuted.
(** and the smallest loses a bit. *)
Theorem C41_smallest_refuted : exists x m e v, wf (11 + 52 + 3) x /\ decode 11 52 x = Num false m e /\ to_double 11 52 x = Some v /\ ~ veq v (decode 11 52 x).
Proof. exact to_double_smallest. Qed.
Print Assumptions C41_smallest_refuted.
Example C41_example : (* 1.5; -1.5 gives 2^61 *)
  to_double 4 3 (mk 4 3 1 0 7 4) = Some (Num false (3 * 2 ^ 51) (-52)) /\ to_double 4 3 (mk 4 3 1 1 7 4) = Some (Num false (2 ^ 52) 9) /\ to_double 4 3 (mk 4 3 2 1 0 0) = Some (Inf true).
Proof. vm_compute. auto. Qed.

(** ** C55. The constructor from double, up to 31 fraction bits: a normal double is truncated to F+1 significant bits and
    becomes zero or infinity of its sign out of range. *)
Theorem C55_normal_partial E F s m e : 1 <= E <= 31 -> 1 <= F <= 31 -> 2 ^ 52 <= m < 2 ^ 53 ->
  exists r, fl_of_double E F (Num s m e) = Some r /\ wf (E + F + 3) r /\ decode E F r = finish (emin E) (emax E) F s (m / 2 ^ (52 - F), e + 52 - F).
Proof. exact (of_double_normal E F s m e). Qed.
Print Assumptions C55_normal_partial.
Example C55_normal_partial_at := C55_normal_partial 8 23 true (2 ^ 52 + 12345) (-50) ltac:(hyp) ltac:(hyp) ltac:(hyp).
(** So a double whose value is in the format gives that value. *)
Theorem C55_exact_partial E F s m e v : 1 <= E <= 31 -> 1 <= F <= 31 -> 2 ^ F <= m < 2 ^ (F + 1) -> emin E <= e + F <= emax E -> -1022 <= e + F ->
  dbl v -> veq v (Num s m e) -> exists r, fl_of_double E F v = Some r /\ wf (E + F + 3) r /\ decode E F r = Num s m e.
Proof. exact (of_double_exact E F s m e v). Qed.
Print Assumptions C55_exact_partial.
Example C55_exact_partial_at := C55_exact_partial 8 23 true 0xC90FDB (-22) (Num true (0xC90FDB * 2 ^ 29) (-51)) ltac:(hyp) ltac:(hyp) ltac:(hyp) ltac:(hyp) ltac:(hyp) ltac:(hyp) ltac:(hyp).
(** NaN stays; zero loses its sign, infinities become NaN, subnormals become zero (also where the format has their value). *)
Theorem C55_special E F x : 1 <= E <= 31 -> 1 <= F -> match x with Num _ m _ => 0 < m < 2 ^ 52 | _ => True end ->
  exists r, fl_of_double E F x = Some r /\ wf (E + F + 3) r /\
    decode E F r = match x with NaN => NaN | Inf s => NaN | Zero s => Zero false | Num s _ _ => Zero s end.
Proof. exact (of_double_special E F x). Qed.
Print Assumptions C55_special.
Example C55_special_at := C55_special 8 23 (Num true 12345 (-1074)) ltac:(hyp) ltac:(hyp) ltac:(hyp).
Theorem C55_infinity_refuted E F s : 1 <= E <= 31 -> 1 <= F -> ~ exists r, fl_of_double E F (Inf s) = Some r /\ decode E F r = Inf s.
Proof. exact (of_double_inf E F s). Qed.
Print Assumptions C55_infinity_refuted.
Theorem C55_negative_zero_refuted E F : 1 <= E <= 31 -> 1 <= F -> ~ exists r, fl_of_double E F (Zero true) = Some r /\ decode E F r = Zero true.
Proof. exact (of_double_negzero E F). Qed.
Print Assumptions C55_negative_zero_refuted.
(** From 32 fraction bits on the constructor is wrong: 1.5 is an exception, undefined behaviour or 1.0. *)
Theorem C55_wide_refuted E F : 2 <= E <= 31 -> 32 <= F <= 128 ->
  fl_of_double E F (Num false (3 * 2 ^ 51) (-52)) = None \/
  exists r, fl_of_double E F (Num false (3 * 2 ^ 51) (-52)) = Some r /\ decode E F r = Num false (2 ^ F) (- F).
Proof. exact (of_double_bad E F). Qed.
Print Assumptions C55_wide_refuted.
(** Out to double and back. *)
Theorem C55_round_trip_partial E F x : 1 <= E <= 10 -> 1 <= F <= 31 -> wf (E + F + 3) x ->
  match decode E F x with Inf _ => False | Zero s => s = false | _ => True end ->
  exists v r, to_double_approx E F x = Some v /\ fl_of_double E F v = Some r /\ wf (E + F + 3) r /\ decode E F r = decode E F x.
Proof. exact (double_round_trip E F x). Qed.
Print Assumptions C55_round_trip_partial.
Example C55_example : (* -1.75 to 1 and 2 fraction bits; 1.5 to 52 bits is 1.0 *)
  fl_of_double 4 1 (Num true (7 * 2 ^ 50) (-52)) = Some (mk 4 1 1 1 7 1) /\ fl_of_double 4 2 (Num true (7 * 2 ^ 50) (-52)) = Some (mk 4 2 1 1 7 3) /\
  fl_of_double 11 52 (Num false (3 * 2 ^ 51) (-52)) = Some (mk 11 52 1 0 1023 0) /\ fl_of_double 11 32 (Num false (3 * 2 ^ 51) (-52)) = None.
Proof. vm_compute. auto. Qed.

(** ** C56. to_double_approx is the nearest double (against Flocq: C56_nearest_real in PropsReal.v), and exact when the format fits. *)
Theorem C56_nearest E F x : 1 <= E <= 30 -> 1 <= F <= 128 -> wf (E + F + 3) x -> to_double_approx E F x = Some (to_dbl (decode E F x)).
Proof. exact (to_double_approx_ok E F x). Qed.
Print Assumptions C56_nearest.
Example C56_nearest_at := C56_nearest 8 23 0x140490FDB ltac:(hyp) ltac:(hyp) ltac:(hyp).
Theorem C56_exact E F x : 1 <= E <= 10 -> 1 <= F <= 52 -> wf (E + F + 3) x -> exists v, to_double_approx E F x = Some v /\ dbl v /\ veq v (decode E F x).
Proof. exact (to_double_approx_exact E F x). Qed.
Print Assumptions C56_exact.
Example C56_exact_at := C56_exact 8 23 0x140490FDB ltac:(hyp) ltac:(hyp) ltac:(hyp).
(** Of a fw_uint: exact to 52 bits, nearest to 64 bits; *)
Theorem C56_word_exact W x : 0 <= W <= 52 -> wf W x ->
  exists v, fw_to_double_approx W x = Some v /\ match v with Zero s => s = false /\ x = 0 | Num s m e => veq v (Num false x 0) | _ => False end.
Proof. exact (fw_dbl_small W x). Qed.
Print Assumptions C56_word_exact.
Example C56_word_exact_at := C56_word_exact 40 123456789 ltac:(hyp) ltac:(hyp).
Theorem C56_word_nearest W x : 53 <= W <= 64 -> 0 < x < 2 ^ W -> fw_to_double_approx W x = Some (dbl_round false x 0).
Proof. exact (fw_dbl_64 W x). Qed.
Print Assumptions C56_word_nearest.
Example C56_word_nearest_at := C56_word_nearest 64 (2 ^ 63 + 12345) ltac:(hyp) ltac:(hyp).
(** at every larger width it rounds twice and can miss the nearest. *)
Theorem C56_word_nearest_refuted W : 65 <= W <= 128 -> exists x v, wf W x /\ fw_to_double_approx W x = Some v /\ v <> dbl_round false x 0.
Proof. exact (fw_dbl_bad W). Qed.
Print Assumptions C56_word_nearest_refuted.
Example C56_example : to_double_approx 11 52 (mk 11 52 1 1 0 1) = Some (Num true (2 ^ 51) (-1074)) /\ to_double_approx 4 3 (mk 4 3 1 1 7 4) = Some (Num true (3 * 2 ^ 51) (-52)) /\
  fw_to_double_approx 64 (2 ^ 64 - 1) = Some (Num false (2 ^ 52) 12) /\ fw_to_double_approx 20 5 = Some (Num false (5 * 2 ^ 50) (-50)) /\ fw_to_double_approx 100 0 = Some (Zero false).
Proof. vm_compute. auto 6. Qed.
