(** C85: the boolean members of numeric_limits describe the type. *)
From Coq Require Import ZArith Bool Lia.
From Verif Require Import Fw Spec Spec754 SpecLimits SpecNan Traits SpecTraits TraitsProofs SoftFloat Inst.
Open Scope Z_scope.

Theorem C85_flopoco_flags E F : 1 <= E -> 1 <= F -> describes flopoco_traits (data (E + F + 3) (decode E F)) (F + 1).
Proof. exact (flopoco_traits_ok E F). Qed.
Print Assumptions C85_flopoco_flags.
Example C85_flopoco_flags_at := C85_flopoco_flags 8 23 ltac:(hyp) ltac:(hyp).
Theorem C85_ieee_flags E F : 2 <= E -> 1 <= F -> describes ieee_traits (data (E + F + 1) (decode_ieee E F)) (F + 1).
Proof. exact (ieee_traits_ok E F). Qed.
Print Assumptions C85_ieee_flags.
Example C85_ieee_flags_at := C85_ieee_flags 8 23 ltac:(hyp) ltac:(hyp).
(** float32_t is E=8, F=23, float64_t E=11, F=52. *)
Theorem C85_softfloat_flags E F : 2 <= E -> 1 <= F -> describes softfloat_traits (data (E + F + 1) (decode754 E F)) (F + 1).
Proof. exact (softfloat_traits_ok E F). Qed.
Print Assumptions C85_softfloat_flags.
(** A small format in full: the numbers 1, 3/2, 2, 3 of E=1, F=1. 3/2 is no integer, 1 + 3/2 < 3 is not representable. *)
Example C85_instance :
  decode 1 1 9 = Num false 3 (-1) /\ wf 5 9 /\ decode 1 1 8 = Num false 2 (-1) /\ decode 1 1 11 = Num false 3 0 /\
  sum 2 (-1) 3 (-1) = (5, -1) /\ cmp_num 5 (-1) 3 0 = Lt /\ decode 1 1 12 = Num true 2 (-1).
Proof. unfold wf. vm_compute. repeat split; congruence. Qed.

(** The standard's rule for is_iec559 holds of the FloPoCo and IEEE types, which do not claim it. The SoftFloat types claim it and
    deny signalling NaNs, which they have: words which are NaN and not quiet, and which the functions treat differently. *)
Theorem C85_iec559_refuted : iec559_consistent flopoco_traits /\ iec559_consistent ieee_traits /\ ~ iec559_consistent softfloat_traits /\
  exists x, 0 <= x < 2 ^ 32 /\ is_nan 8 23 x = true /\ is_quiet 8 23 x = false /\
    f32_add 32 x 0 = Some (quieted 8 23 x) /\ quieted 8 23 x <> x.
Proof. exact iec559_flags. Qed.
Print Assumptions C85_iec559_refuted.
