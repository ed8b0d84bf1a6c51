(** Model of the integral constants of the numeric_limits specialisations, and of epsilon() and round_error() in a build with
    NDEBUG (they start with assert(0)). The flags (is_signed, has_infinity, ...) are in Traits.v. *)
From Coq Require Import ZArith Bool.
From Verif Require Import Fw Flopoco Ieee.
Open Scope Z_scope.

(** bias = (1<<(ExpBits-1))-1, an int: defined up to 31 exponent bits. fp_flopoco.hpp:286, fp_ieee.hpp:173,
    policy_flopoco.hpp:115, policy_ieee_on_flopoco.hpp:118, fp_softfloat.hpp:111. *)
Definition bias_const (E : Z) : option Z := if (1 <=? E) && (E <=? 31) then Some (2 ^ (E - 1) - 1) else None.
(** digits: fp_flopoco.hpp:278, fp_ieee.hpp:165, policy_flopoco.hpp:107, policy_ieee_on_flopoco.hpp:110; fp_softfloat.hpp:103
    writes 24. *)
Definition digits_const (F : Z) : Z := F + 1.
(** fp_flopoco.hpp:288-289; policy_flopoco.hpp:117-118; also policy_ieee_on_flopoco.hpp:120-121, for an IEEE format, and
    fp_softfloat.hpp:113-114, for E=8. *)
Definition flopoco_min_exponent (E : Z) : option Z := do b <- bias_const E; Some (0 - b).
Definition flopoco_max_exponent (E : Z) : option Z := do b <- bias_const E; Some (0 + b + 1).
(** fp_ieee.hpp:175-176. *)
Definition ieee_min_exponent (E : Z) : option Z := do b <- bias_const E; Some (0 - b + 1).
Definition ieee_max_exponent (E : Z) : option Z := do b <- bias_const E; Some (0 + b).
(** fp_flopoco.hpp:329-340 and fp_ieee.hpp:216-228 without the assertions; the constructor from an out-of-range integer has an
    assertion of its own, gone as well: such arguments are left undefined here. *)
Definition flopoco_epsilon_ndebug (E F : Z) : option Z := do b <- bias_const E; do e <- of_int E (b - F - 1); Some (lim E F 2 e (zg F)).
Definition flopoco_round_error_ndebug (E F : Z) : option Z := do b <- bias_const E; do e <- of_int E (b - 1); Some (lim E F 2 e (zg F)).
Definition ieee_epsilon_ndebug (E F : Z) : option Z := do b <- bias_const E; do e <- of_int E (b - F - 1); Some (ie_mk E F (zg 1) e (zg F)).
Definition ieee_round_error_ndebug (E F : Z) : option Z := do b <- bias_const E; do e <- of_int E (b - 1); Some (ie_mk E F (zg 1) e (zg F)).
