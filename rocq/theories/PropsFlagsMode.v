(** C94: the exception flags of C92 in every rounding mode: overflow and underflow are requested exactly when IEEE 754 signals
    them for that mode, invalid and division by zero do not depend on it. The word returned is that of C88. signalsm is in
    SpecFlagsMode.v. These theorems depend on the axioms of the standard library's real numbers, and on no others;
    the two C94_*_near depend on none. *)
From Coq Require Import ZArith Bool Lia Reals Lra.
From Flocq Require Import Core.
From Verif Require Import Spec Spec754 Spec754Mode SpecFlocq SpecFlocq754Mode SoftFloat SoftFloatMode SpecSfMode SoftFloatFlags SpecFlags SoftFloatFlagsMode SpecFlagsMode FlagmProofs3 FlagmProofs4 FlagmProofs5 FlagmNear Inst InstR.
Open Scope Z_scope.

(** The flags of the binary32 sum. *)
Theorem C94_f32_add md odd U a b : 32 <= U -> 0 <= a < 2 ^ 32 -> 0 <= b < 2 ^ 32 ->
  exists r fl, f32_addFM (enum_of md) odd U a b = Some (r, fl) /\ f32_addM (enum_of md) odd U a b = Some r /\
    signalsm md 8 23 (add_invalid 8 23 a b) False (finite 8 23 a /\ finite 8 23 b) (value 8 23 a + value 8 23 b) fl.
Proof. intros HU Ha Hb. exact (okopm_word _ _ _ _ _ _ _ _ _ (f32_addFM_ok md odd U a b HU Ha Hb) (sf_addFM_fst _ _ _ _ _ _ _ _ _)). Qed.
Print Assumptions C94_f32_add.
Example C94_f32_add_at := C94_f32_add Min true 32 0x7F7FFFFF 0x7F7FFFFF ltac:(hyp) ltac:(hyp) ltac:(hyp).

(** The flags of the binary32 product. *)
Theorem C94_f32_mul md odd U a b : 32 <= U -> 0 <= a < 2 ^ 32 -> 0 <= b < 2 ^ 32 ->
  exists r fl, f32_mulFM (enum_of md) odd U a b = Some (r, fl) /\ f32_mulM (enum_of md) odd U a b = Some r /\
    signalsm md 8 23 (mul_invalid 8 23 a b) False (finite 8 23 a /\ finite 8 23 b) (value 8 23 a * value 8 23 b) fl.
Proof. intros HU Ha Hb. exact (okopm_word _ _ _ _ _ _ _ _ _ (f32_mulFM_ok md odd U a b HU Ha Hb) (sf_mulFM_fst _ _ _ _ _ _ _ _ _)). Qed.
Print Assumptions C94_f32_mul.
Example C94_f32_mul_at := C94_f32_mul Max true 32 0x00000001 0x3F000000 ltac:(hyp) ltac:(hyp) ltac:(hyp).

(** The flags of the binary32 quotient. *)
Theorem C94_f32_div md odd U a b : 32 <= U -> 0 <= a < 2 ^ 32 -> 0 <= b < 2 ^ 32 ->
  exists r fl, f32_divFM (enum_of md) odd U a b = Some (r, fl) /\ f32_divM (enum_of md) odd U a b = Some r /\
    signalsm md 8 23 (div_invalid 8 23 a b) (div_by_zero 8 23 a b) (finite 8 23 a /\ finite 8 23 b /\ value 8 23 b <> 0%R) (value 8 23 a / value 8 23 b) fl.
Proof. intros HU Ha Hb. exact (okopm_word _ _ _ _ _ _ _ _ _ (f32_divFM_ok md odd U a b HU Ha Hb) (sf_divFM_fst _ _ _ _ _ _ _ _ _)). Qed.
Print Assumptions C94_f32_div.
Example C94_f32_div_at := C94_f32_div Odd true 32 0x3F800000 0x40400000 ltac:(hyp) ltac:(hyp) ltac:(hyp).

(** No binary32 sum underflows, in any mode. *)
Theorem C94_f32_add_no_underflow md odd U a b r fl : 32 <= U -> 0 <= a < 2 ^ 32 -> 0 <= b < 2 ^ 32 ->
  f32_addFM (enum_of md) odd U a b = Some (r, fl) -> ~ raised fl softfloat_flag_underflow.
Proof.
  intros HU Ha Hb Q R. destruct (C94_f32_add md odd U a b HU Ha Hb) as (r' & fl' & Q' & _ & (_ & _ & _ & S)). rewrite Q in Q'. injection Q' as <- <-.
  destruct (proj1 S R) as [_ K]. revert K. apply (add_no_underflow_m md 8 23 32); try assumption; lia.
Qed.
Print Assumptions C94_f32_add_no_underflow.
Example C94_f32_add_no_underflow_at := C94_f32_add_no_underflow Min true 32 1 0x80000002 0x80000001 0 ltac:(hyp) ltac:(hyp) ltac:(hyp) ltac:(vm_compute; reflexivity).

(** The flags of the binary64 sum. *)
Theorem C94_f64_add md odd a b : 0 <= a < 2 ^ 64 -> 0 <= b < 2 ^ 64 ->
  exists r fl, f64_addFM (enum_of md) odd a b = Some (r, fl) /\ f64_addM (enum_of md) odd a b = Some r /\
    signalsm md 11 52 (add_invalid 11 52 a b) False (finite 11 52 a /\ finite 11 52 b) (value 11 52 a + value 11 52 b) fl.
Proof. intros Ha Hb. exact (okopm_word _ _ _ _ _ _ _ _ _ (f64_addFM_ok md odd a b Ha Hb) (sf_addFM_fst _ _ _ _ _ _ _ _ _)). Qed.
Print Assumptions C94_f64_add.
Example C94_f64_add_at := C94_f64_add MinMag true 0x7FEFFFFFFFFFFFFF 0x7FEFFFFFFFFFFFFF ltac:(hyp) ltac:(hyp).

(** The flags of the binary64 product. *)
Theorem C94_f64_mul md odd a b : 0 <= a < 2 ^ 64 -> 0 <= b < 2 ^ 64 ->
  exists r fl, f64_mulFM (enum_of md) odd a b = Some (r, fl) /\ f64_mulM (enum_of md) odd a b = Some r /\
    signalsm md 11 52 (mul_invalid 11 52 a b) False (finite 11 52 a /\ finite 11 52 b) (value 11 52 a * value 11 52 b) fl.
Proof. intros Ha Hb. exact (okopm_word _ _ _ _ _ _ _ _ _ (f64_mulFM_ok md odd a b Ha Hb) (sf_mulFM_fst _ _ _ _ _ _ _ _ _)). Qed.
Print Assumptions C94_f64_mul.
Example C94_f64_mul_at := C94_f64_mul Max true 0x0000000000000001 0x3FE0000000000000 ltac:(hyp) ltac:(hyp).

(** The flags of the binary64 quotient. *)
Theorem C94_f64_div md odd a b : 0 <= a < 2 ^ 64 -> 0 <= b < 2 ^ 64 ->
  exists r fl, f64_divFM (enum_of md) odd a b = Some (r, fl) /\ f64_divM (enum_of md) odd a b = Some r /\
    signalsm md 11 52 (div_invalid 11 52 a b) (div_by_zero 11 52 a b) (finite 11 52 a /\ finite 11 52 b /\ value 11 52 b <> 0%R) (value 11 52 a / value 11 52 b) fl.
Proof. intros Ha Hb. exact (okopm_word _ _ _ _ _ _ _ _ _ (f64_divFM_ok md odd a b Ha Hb) (sf_divFM_fst _ _ _ _ _ _ _ _ _)). Qed.
Print Assumptions C94_f64_div.
Example C94_f64_div_at := C94_f64_div NearMaxMag true 0x3FF0000000000000 0x8000000000000000 ltac:(hyp) ltac:(hyp).

(** No binary64 sum underflows, in any mode. *)
Theorem C94_f64_add_no_underflow md odd a b r fl : 0 <= a < 2 ^ 64 -> 0 <= b < 2 ^ 64 ->
  f64_addFM (enum_of md) odd a b = Some (r, fl) -> ~ raised fl softfloat_flag_underflow.
Proof.
  intros Ha Hb Q R. destruct (C94_f64_add md odd a b Ha Hb) as (r' & fl' & Q' & _ & (_ & _ & _ & S)). rewrite Q in Q'. injection Q' as <- <-.
  destruct (proj1 S R) as [_ K]. revert K. apply (add_no_underflow_m md 11 52 64); try assumption; lia.
Qed.
Print Assumptions C94_f64_add_no_underflow.
Example C94_f64_add_no_underflow_at := C94_f64_add_no_underflow Min true 1 0x8000000000000002 0x8000000000000001 0 ltac:(hyp) ltac:(hyp) ltac:(vm_compute; reflexivity).

(** Inexact is requested together with overflow and never otherwise, in any mode: short of IEEE 754, as C92_inexact_refuted shows. *)
Theorem C94_f32_inexact md odd U a b r fl : 32 <= U -> 0 <= a < 2 ^ 32 -> 0 <= b < 2 ^ 32 ->
  f32_addFM (enum_of md) odd U a b = Some (r, fl) \/ f32_mulFM (enum_of md) odd U a b = Some (r, fl) \/ f32_divFM (enum_of md) odd U a b = Some (r, fl) ->
  (raised fl softfloat_flag_inexact <-> raised fl softfloat_flag_overflow).
Proof.
  intros HU Ha Hb [Q|[Q|Q]]; revert Q; eapply okopm_inexact; [apply f32_addFM_ok|apply f32_mulFM_ok|apply f32_divFM_ok]; assumption.
Qed.
Print Assumptions C94_f32_inexact.
Example C94_f32_inexact_at := C94_f32_inexact Min true 32 0x7F7FFFFF 0x40000000 0x7F7FFFFF 5 ltac:(hyp) ltac:(hyp) ltac:(hyp) ltac:(right; left; vm_compute; reflexivity).

(** Inexact is requested together with overflow and never otherwise, in any mode: short of IEEE 754, as C92_inexact_refuted shows. *)
Theorem C94_f64_inexact md odd a b r fl : 0 <= a < 2 ^ 64 -> 0 <= b < 2 ^ 64 ->
  f64_addFM (enum_of md) odd a b = Some (r, fl) \/ f64_mulFM (enum_of md) odd a b = Some (r, fl) \/ f64_divFM (enum_of md) odd a b = Some (r, fl) ->
  (raised fl softfloat_flag_inexact <-> raised fl softfloat_flag_overflow).
Proof.
  intros Ha Hb [Q|[Q|Q]]; revert Q; eapply okopm_inexact; [apply f64_addFM_ok|apply f64_mulFM_ok|apply f64_divFM_ok]; assumption.
Qed.
Print Assumptions C94_f64_inexact.
Example C94_f64_inexact_at := C94_f64_inexact Min true 0x7FEFFFFFFFFFFFFF 0x4000000000000000 0x7FEFFFFFFFFFFFFF 5 ltac:(hyp) ltac:(hyp) ltac:(right; left; vm_compute; reflexivity).

(** The same overflow in four modes, a product that is tiny in every mode, and one that is tiny only when rounded down. *)
Example C94_instance :
  f32_mulFM (enum_of Min) true 32 0x7F7FFFFF 0x40000000 = Some (0x7F7FFFFF, 5) /\ f32_mulFM (enum_of Max) true 32 0x7F7FFFFF 0x40000000 = Some (0x7F800000, 5) /\
  f32_mulFM (enum_of MinMag) true 32 0xFF7FFFFF 0x40000000 = Some (0xFF7FFFFF, 5) /\ f32_mulFM (enum_of NearMaxMag) true 32 0xFF7FFFFF 0x40000000 = Some (0xFF800000, 5) /\
  f32_mulFM (enum_of Max) true 32 0x00000001 0x3F000000 = Some (1, 2) /\ f32_mulFM (enum_of Odd) true 32 0x00000002 0x3E800000 = Some (1, 2) /\
  f32_mulFM (enum_of Max) true 32 0x00800001 0x3F7FFFFE = Some (0x00800000, 0) /\ f32_mulFM (enum_of Min) true 32 0x00800001 0x3F7FFFFE = Some (0x007FFFFF, 2).
Proof. vm_compute. repeat split; reflexivity. Qed.

(** In the mode the library starts in, results and flags are those of C92. *)
Theorem C94_f32_near odd U a b : 32 <= U ->
  f32_addFM softfloat_round_near_even odd U a b = f32_addF U a b /\ f32_mulFM softfloat_round_near_even odd U a b = f32_mulF U a b /\
  f32_divFM softfloat_round_near_even odd U a b = f32_divF U a b.
Proof.
  intros HU. pose proof (fun s => pk32 U s HU) as PK. split; [|split].
  - apply sf_addFM_near; [lia|exact PK].
  - apply sf_mulFM_near; [lia|exact PK].
  - apply sf_divFM_near; [lia|exact PK].
Qed.
Print Assumptions C94_f32_near.
Example C94_f32_near_at := C94_f32_near true 32 0x7F7FFFFF 0x40000000 ltac:(hyp).

Theorem C94_f64_near odd a b :
  f64_addFM softfloat_round_near_even odd a b = f64_addF a b /\ f64_mulFM softfloat_round_near_even odd a b = f64_mulF a b /\
  f64_divFM softfloat_round_near_even odd a b = f64_divF a b.
Proof.
  split; [|split].
  - apply sf_addFM_near; [lia|exact pk64].
  - apply sf_mulFM_near; [lia|exact pk64].
  - apply sf_divFM_near; [lia|exact pk64].
Qed.
Print Assumptions C94_f64_near.
Example C94_f64_near_at := C94_f64_near true 0x7FEFFFFFFFFFFFFF 0x4000000000000000.
