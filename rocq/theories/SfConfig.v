(** The branches of the SoftFloat sources that other settings select: SOFTFLOAT_FAST_INT64, SOFTFLOAT_FAST_DIV64TO32 (commented
    out in platform.h:55), the portable softfloat_mul64To128M, and the product f32_mul.c had before its "small optimisation". The
    parts around them are those of SoftFloat.v. Widths and undefined shifts as there; dividing by zero is undefined, None. *)
From Coq Require Import ZArith Bool.
From Verif Require Import Fw SoftFloat SfPrim.
Open Scope Z_scope.

(** f32_mul.c:106-108, switched off there by #if 0. *)
Definition f32_mulsig_before (U sigA sigB : Z) : option Z :=
  do sigA <- ushl U sigA 7;
  do sigB <- ushl U sigB 8;
  Some (uw U (shortShiftRightJam64 (uw 64 (sigA * sigB)) 32)).
Definition f32_mul_before (U : Z) : Z -> Z -> option Z := sf_mul 8 23 U 32 (f32_mulsig_before U).

(** f32_div.c:119-127, SOFTFLOAT_FAST_DIV64TO32. *)
Definition f32_divsig_div64 (U sigA sigB : Z) : option Z :=
  do sig64A <- ushl 64 sigA (if sigA <? sigB then 31 else 30);
  do _ <- assert_ (negb (sigB =? 0));
  let sigZ := uw U (sig64A / sigB) in
  Some (if Z.land sigZ 0x3F =? 0 then Z.lor sigZ (Z.b2z (negb (uw 64 (sigB * sigZ) =? sig64A))) else sigZ).
Definition f32_div_div64 (U : Z) : Z -> Z -> option Z := sf_div 8 23 U 32 (f32_divsig_div64 U).

(** f32_div.c:129-152 with SOFTFLOAT_FAST_INT64 and without SOFTFLOAT_FAST_DIV64TO32. *)
Definition f32_divsig_int64 (U sigA sigB : Z) : option Z :=
  do sigA' <- ushl U sigA (if sigA <? sigB then 8 else 7);
  do sigB <- ushl U sigB 8;
  let sigA := sigA' in
  let sigZ := uw U (Z.shiftr (uw 64 (sigA * approxRecip32_1 U (uw 32 sigB))) 32) in
  let sigZ := uw U (sigZ + 2) in
  Some
    (if Z.land sigZ 0x3F <? 2 then
       let sigZ := Z.land sigZ (Z.lnot 3) in
       let rem := uw 64 (uw 64 (Z.shiftl sigA 31) - uw 64 (sigZ * sigB)) in
       if Z.testbit rem 63 then uw U (sigZ - 4)
       else if negb (rem =? 0) then Z.lor sigZ 1 else sigZ
     else sigZ).
Definition f32_div_int64 (U : Z) : Z -> Z -> option Z := sf_div 8 23 U 32 (f32_divsig_int64 U).

(** f64_mul.c:110-114, SOFTFLOAT_FAST_INT64. softfloat_mul64To128 is declared (primitives.h:592) and not in the copy, so it is a
    parameter. *)
Definition f64_mulsig_int64 (mul64To128 : Z -> Z -> Z * Z) (sigA sigB : Z) : option Z :=
  do sigA <- ushl 64 sigA 10;
  do sigB <- ushl 64 sigB 11;
  let sig128Z := mul64To128 sigA sigB in
  Some (Z.lor (fst sig128Z) (Z.b2z (negb (snd sig128Z =? 0)))).
Definition f64_mul_int64 (mul64To128 : Z -> Z -> Z * Z) : Z -> Z -> option Z := sf_mul 11 52 64 16 (f64_mulsig_int64 mul64To128).
(** f64_mul.c:110-111, 116-120 with the portable s_mul64To128M.c. *)
Definition f64_mulsig_portable (sigA sigB : Z) : option Z :=
  do sigA <- ushl 64 sigA 10;
  do sigB <- ushl 64 sigB 11;
  let '(w0, w1, w2, w3) := mul64To128M_portable sigA sigB in
  let sigZ := Z.lor (uw 64 (Z.shiftl w3 32)) w2 in
  Some (if negb (w1 =? 0) || negb (w0 =? 0) then Z.lor sigZ 1 else sigZ).
Definition f64_mul_portable : Z -> Z -> option Z := sf_mul 11 52 64 16 f64_mulsig_portable.

(** softfloat_approxRecip32_1 with SOFTFLOAT_FAST_DIV64TO32: primitives.h:198. *)
Definition recip_div64 (a : Z) : Z := uw 32 (0x7FFFFFFFFFFFFFFF / uw 32 a).
(** f64_div with any softfloat_approxRecip32_1. *)
Definition f64_div_with (recip : Z -> Z) : Z -> Z -> option Z := sf_div 11 52 64 16 (f64_divsig_with recip).
