(** Model of the boolean members of the numeric_limits specialisations. has_denorm is declared bool and initialised with an
    enumerator: denorm_absent is false, denorm_present true. Left out: is_specialized, has_denorm_loss, round_style, is_modulo,
    traps and tinyness_before, which say nothing about the set of values (rounding to nearest is C03, C04, C20, C58, C60). *)
From Coq Require Import Bool.

Record traits : Type := Traits {
  is_signed : bool; is_integer : bool; is_exact : bool; has_infinity : bool; has_quiet_NaN : bool; has_signaling_NaN : bool;
  has_denorm : bool; is_iec559 : bool; is_bounded : bool }.

(** fp_flopoco.hpp:266-276, the same in policy_flopoco.hpp:95-105. *)
Definition flopoco_traits : traits := Traits true false false true true false false false true.
(** fp_ieee.hpp:153-163, the same in policy_ieee_on_flopoco.hpp:98-108. *)
Definition ieee_traits : traits := Traits true false false true true false false false true.
(** fp_softfloat.hpp:91-101, the same in policy_softfloat.hpp:31-41 (float32_t) and 112-122 (float64_t). *)
Definition softfloat_traits : traits := Traits true false false true true false true true true.
