(** The SoftFloat sources of include/thls/tops/softfloat, as configured there (INLINE_LEVEL 5, round to nearest even,
    tininess after rounding, no exception flags, neither SOFTFLOAT_FAST_INT64 nor SOFTFLOAT_FAST_DIV64TO32).
    The files for F32 and F64 are the same text up to constants, except where noted, so the functions here are
    parameterised: E exponent bits, F fraction bits; the word has W = E+F+1 bits and there are G = E-1 bits below the last
    place in a significand (7 and 10). U is the width of uint_fast32_t or uint_fast64_t (for F32 either 32 or 64, which
    depends on the platform); C the width of the unsigned type exp is compared in (32 in s_roundPackToF32.c:70, 16 in
    s_roundPackToF64.c:73).
    int_fast16_t values are integers checked to fit 16 bits. A shift by an amount not below the width of its operand is
    undefined, None. softfloat_raiseFlags does nothing (softfloat_raiseFlags.c:46-51) and is left out here; SoftFloatFlags.v
    models the calls. *)
From Coq Require Import ZArith Bool.
From Verif Require Import Fw.
Open Scope Z_scope.

Definition uw (U x : Z) : Z := x mod 2 ^ U.
Definition i16 (x : Z) : option Z := do _ <- assert_ ((- 2 ^ 15 <=? x) && (x <? 2 ^ 15)); Some x.
Definition ushl (U x k : Z) : option Z := do _ <- assert_ ((0 <=? k) && (k <? U)); Some (uw U (Z.shiftl x k)).

Section Format.
Context (E F U C : Z).
Let W := E + F + 1.
Let G := E - 1.
Let EXP := 2 ^ E - 1.

(** signF32UI, expF32UI, fracF32UI, packToF32UI, isNaNF32UI: internals.h:104-109 (125-130 for F64). The sum in packToF32UI is
    stored in a word of W bits. *)
Definition signUI (a : Z) : bool := negb (Z.shiftr (uw W a) (W - 1) =? 0).
Definition expUI (a : Z) : Z := Z.land (Z.shiftr a F) EXP.
Definition fracUI (a : Z) : Z := Z.land a (2 ^ F - 1).
Definition packUI (sign : bool) (exp sig : Z) : Z := uw W (Z.shiftl (Z.b2z sign) (W - 1) + Z.shiftl exp F + sig).
Definition isNaNUI (a : Z) : bool :=
  (Z.land (Z.lnot a) (EXP * 2 ^ F) =? 0) && negb (Z.land a (2 ^ F - 1) =? 0).
(** softfloat_isSigNaNF32UI, defaultNaNF32UI: specialize.h:129, 122 (164, 157). *)
Definition isSigNaNUI (a : Z) : bool :=
  (Z.land a ((2 ^ (E + 1) - 1) * 2 ^ (F - 1)) =? EXP * 2 ^ F) && negb (Z.land a (2 ^ (F - 1) - 1) =? 0).
Definition defaultNaN : Z := (2 ^ (E + 2) - 1) * 2 ^ (F - 1).

(** softfloat_countLeadingZeros32, softfloat_countLeadingZeros64: softfloat_inline.hpp:9-28. *)
Definition clzW (a : Z) : Z := let a := uw W a in if a =? 0 then W else W - 1 - Z.log2 a.
(** softfloat_shiftRightJam32, softfloat_shiftRightJam64: primitives.h:71-75, 92-96. *)
Definition shiftRightJam (a dist : Z) : Z :=
  let a := uw W a in
  if dist <? W - 1 then
    Z.lor (Z.shiftr a dist) (Z.b2z (negb (uw W (Z.shiftl a (Z.land (- dist) (W - 1))) =? 0)))
  else Z.b2z (negb (a =? 0)).

(** softfloat_propagateNaNF32UI: s_propagateNaNF32UI.c:50-82 (F64 the same). *)
Definition propagateNaN (uiA uiB : Z) : Z :=
  let isSigNaNA := isSigNaNUI uiA in
  let isSigNaNB := isSigNaNUI uiB in
  let uiNonsigA := Z.lor uiA (2 ^ (F - 1)) in
  let uiNonsigB := Z.lor uiB (2 ^ (F - 1)) in
  let returnLargerMag :=
    let uiMagA := Z.land uiNonsigA (2 ^ (W - 1) - 1) in
    let uiMagB := Z.land uiNonsigB (2 ^ (W - 1) - 1) in
    if uiMagA <? uiMagB then uiNonsigB
    else if uiMagB <? uiMagA then uiNonsigA
    else if uiNonsigA <? uiNonsigB then uiNonsigA else uiNonsigB in
  if isSigNaNA || isSigNaNB then
    if isSigNaNA then
      if isSigNaNB then returnLargerMag
      else if isNaNUI uiB then uiNonsigB else uiNonsigA
    else if isNaNUI uiA then uiNonsigA else uiNonsigB
  else returnLargerMag.

(** softfloat_roundPackToF32: s_roundPackToF32.c:43-111; softfloat_roundPackToF64: s_roundPackToF64.c:44-116, at
    softfloat_round_near_even (roundIncrement is half, isTiny only feeds the flags). *)
Definition roundPack (sign : bool) (exp sig : Z) : option Z :=
  let half := 2 ^ (G - 1) in
  let mask := 2 ^ G - 1 in
  let finishRound exp sig :=
    let roundBits := Z.land sig mask in
    let sig := Z.shiftr (uw U (sig + half)) G in
    let sig := Z.land sig (Z.lnot (Z.b2z (roundBits =? half))) in
    let exp := if sig =? 0 then 0 else exp in
    Some (packUI sign exp sig) in
  if EXP - 2 <=? exp mod 2 ^ C then
    if exp <? 0 then
      let sig := shiftRightJam sig (- exp) in
      finishRound 0 sig
    else if (EXP - 2 <? exp) || (2 ^ (W - 1) <=? uw U (sig + half)) then
      Some (packUI sign EXP 0)
    else finishRound exp sig
  else finishRound exp sig.

(** softfloat_normRoundPackToF32: s_normRoundPackToF32.c:42-58 (F64 the same). *)
Definition normRoundPack (sign : bool) (exp sig : Z) : option Z :=
  let shiftDist := clzW sig - 1 in
  do exp <- i16 (exp - shiftDist);
  if (G <=? shiftDist) && (exp mod 2 ^ 32 <? EXP - 2) then
    do s <- ushl U sig (shiftDist - G);
    Some (packUI sign (if sig =? 0 then 0 else exp) s)
  else
    do s <- ushl U sig shiftDist;
    roundPack sign exp s.

(** softfloat_normSubnormalF32Sig: s_normSubnormalF32Sig.c:41-52 (F64 the same): exponent and significand. *)
Definition normSubnormalSig (sig : Z) : option (Z * Z) :=
  let shiftDist := clzW sig - E in
  do s <- ushl U sig shiftDist;
  Some (1 - shiftDist, s).

(** softfloat_addMagsF32: s_addMagsF32.c:43-126; softfloat_addMagsF64: s_addMagsF64.c:43-128. quick: the exit for sums that
    need no rounding, lines 80-83, in the F32 version only. In the F64 version the caller passes signZ, the sign of A. *)
Definition addMags (quick : bool) (uiA uiB : Z) : option Z :=
  let expA := expUI uiA in
  let sigA := fracUI uiA in
  let expB := expUI uiB in
  let sigB := fracUI uiB in
  let expDiff := expA - expB in
  let signZ := signUI uiA in
  if expDiff =? 0 then
    if expA =? 0 then Some (uw W (uw U (uiA + sigB)))
    else if expA =? EXP then
      if negb (Z.lor sigA sigB =? 0) then Some (propagateNaN uiA uiB) else Some uiA
    else
      let sigZ := uw U (2 ^ (F + 1) + sigA + sigB) in
      if quick && (Z.land sigZ 1 =? 0) && (expA <? EXP - 1) then Some (packUI signZ expA (Z.shiftr sigZ 1))
      else
        do sigZ <- ushl U sigZ (G - 1);
        roundPack signZ expA sigZ
  else
    do sigA6 <- ushl U sigA (G - 1);
    do sigB6 <- ushl U sigB (G - 1);
    let final expZ sigA sigB :=
      let sigZ := uw U (2 ^ (W - 3) + sigA + sigB) in
      if sigZ <? 2 ^ (W - 2) then
        do sigZ <- ushl U sigZ 1;
        roundPack signZ (expZ - 1) sigZ
      else roundPack signZ expZ sigZ in
    if expDiff <? 0 then
      if expB =? EXP then
        if negb (sigB6 =? 0) then Some (propagateNaN uiA uiB) else Some (packUI signZ EXP 0)
      else
        let sigA := uw U (sigA6 + (if negb (expA =? 0) then 2 ^ (W - 3) else sigA6)) in
        final expB (shiftRightJam sigA (- expDiff)) sigB6
    else
      if expA =? EXP then
        if negb (sigA6 =? 0) then Some (propagateNaN uiA uiB) else Some uiA
      else
        let sigB := uw U (sigB6 + (if negb (expB =? 0) then 2 ^ (W - 3) else sigB6)) in
        final expA sigA6 (shiftRightJam sigB expDiff).

(** softfloat_subMagsF32: s_subMagsF32.c:44-143; softfloat_subMagsF64: s_subMagsF64.c:44-141 (the statements in another
    order). sigDiff is signed. *)
Definition subMags (uiA uiB : Z) : option Z :=
  let expA := expUI uiA in
  let sigA := fracUI uiA in
  let expB := expUI uiB in
  let sigB := fracUI uiB in
  let expDiff := expA - expB in
  let signZ := signUI uiA in
  if expDiff =? 0 then
    if expA =? EXP then
      if negb (Z.lor sigA sigB =? 0) then Some (propagateNaN uiA uiB) else Some defaultNaN
    else
      let sigDiff := sigA - sigB in
      if sigDiff =? 0 then Some (packUI false 0 0)
      else
        let expA := if negb (expA =? 0) then expA - 1 else expA in
        let signZ := if sigDiff <? 0 then negb signZ else signZ in
        let sigDiff := if sigDiff <? 0 then - sigDiff else sigDiff in
        let shiftDist := clzW sigDiff - E in
        let expZ := expA - shiftDist in
        let shiftDist := if expZ <? 0 then expA else shiftDist in
        let expZ := if expZ <? 0 then 0 else expZ in
        do s <- ushl U sigDiff shiftDist;
        Some (packUI signZ expZ s)
  else
    do sigA7 <- ushl U sigA G;
    do sigB7 <- ushl U sigB G;
    if expDiff <? 0 then
      let signZ := negb signZ in
      if expB =? EXP then
        if negb (sigB7 =? 0) then Some (propagateNaN uiA uiB) else Some (packUI signZ EXP 0)
      else
        let sigX := Z.lor sigB7 (2 ^ (W - 2)) in
        let sigY := uw U (sigA7 + (if negb (expA =? 0) then 2 ^ (W - 2) else sigA7)) in
        normRoundPack signZ (expB - 1) (uw U (sigX - shiftRightJam sigY (- expDiff)))
    else
      if expA =? EXP then
        if negb (sigA7 =? 0) then Some (propagateNaN uiA uiB) else Some uiA
      else
        let sigX := Z.lor sigA7 (2 ^ (W - 2)) in
        let sigY := uw U (sigB7 + (if negb (expB =? 0) then 2 ^ (W - 2) else sigB7)) in
        normRoundPack signZ (expA - 1) (uw U (sigX - shiftRightJam sigY expDiff)).

(** f32_add: f32_add.c:42-70; f64_add: f64_add.c:42-74. *)
Definition sf_add (quick : bool) (uiA uiB : Z) : option Z :=
  if signUI (Z.lxor uiA uiB) then subMags uiA uiB else addMags quick uiA uiB.

(** f32_mul: f32_mul.c:44-146; f64_mul: f64_mul.c:44-150. mulsig: the significand of the product (f32_mulsig, f64_mulsig). *)
Definition sf_mul (mulsig : Z -> Z -> option Z) (uiA uiB : Z) : option Z :=
  let signA := signUI uiA in
  let expA := expUI uiA in
  let sigA := fracUI uiA in
  let signB := signUI uiB in
  let expB := expUI uiB in
  let sigB := fracUI uiB in
  let signZ := xorb signA signB in
  let infArg magBits := if magBits =? 0 then Some defaultNaN else Some (packUI signZ EXP 0) in
  let zero := Some (packUI signZ 0 0) in
  if expA =? EXP then
    if negb (sigA =? 0) || ((expB =? EXP) && negb (sigB =? 0)) then Some (propagateNaN uiA uiB)
    else infArg (Z.lor expB sigB)
  else if expB =? EXP then
    if negb (sigB =? 0) then Some (propagateNaN uiA uiB) else infArg (Z.lor expA sigA)
  else if (expA =? 0) && (sigA =? 0) then zero
  else
    do nA <- (if expA =? 0 then normSubnormalSig sigA else Some (expA, sigA));
    if (expB =? 0) && (sigB =? 0) then zero
    else
      do nB <- (if expB =? 0 then normSubnormalSig sigB else Some (expB, sigB));
      do expZ <- i16 (fst nA + fst nB - (2 ^ (E - 1) - 1));
      do sigZ <- mulsig (Z.lor (snd nA) (2 ^ F)) (Z.lor (snd nB) (2 ^ F));
      if sigZ <? 2 ^ (W - 2) then
        do sigZ <- ushl U sigZ 1;
        roundPack signZ (expZ - 1) sigZ
      else roundPack signZ expZ sigZ.

(** f32_div: f32_div.c:44-180; f64_div: f64_div.c:44-172. divsig: from the significands, whether the first is smaller taken
    into account, the significand of the quotient (f32_divsig, f64_divsig). *)
Definition sf_div (divsig : Z -> Z -> option Z) (uiA uiB : Z) : option Z :=
  let signA := signUI uiA in
  let expA := expUI uiA in
  let sigA := fracUI uiA in
  let signB := signUI uiB in
  let expB := expUI uiB in
  let sigB := fracUI uiB in
  let signZ := xorb signA signB in
  let infinity := Some (packUI signZ EXP 0) in
  let zero := Some (packUI signZ 0 0) in
  if expA =? EXP then
    if negb (sigA =? 0) then Some (propagateNaN uiA uiB)
    else if expB =? EXP then
      if negb (sigB =? 0) then Some (propagateNaN uiA uiB) else Some defaultNaN
    else infinity
  else if expB =? EXP then
    if negb (sigB =? 0) then Some (propagateNaN uiA uiB) else zero
  else if (expB =? 0) && (sigB =? 0) then
    if Z.lor expA sigA =? 0 then Some defaultNaN else infinity
  else
    do nB <- (if expB =? 0 then normSubnormalSig sigB else Some (expB, sigB));
    if (expA =? 0) && (sigA =? 0) then zero
    else
      do nA <- (if expA =? 0 then normSubnormalSig sigA else Some (expA, sigA));
      do expZ <- i16 (fst nA - fst nB + (2 ^ (E - 1) - 2));
      let sigA := Z.lor (snd nA) (2 ^ F) in
      let sigB := Z.lor (snd nB) (2 ^ F) in
      let expZ := if sigA <? sigB then expZ - 1 else expZ in
      do sigZ <- divsig sigA sigB;
      roundPack signZ expZ sigZ.

(** f32_eq, f32_lt, f32_le: f32_eq.c:44-66, f32_lt.c:43-66, f32_le.c:43-66 (F64: 44-66, 43-67, 43-67, which mask the sign bit
    instead of shifting it out). *)
Definition magOr (uiA uiB : Z) : Z := uw W (Z.shiftl (Z.lor uiA uiB) 1).
Definition sf_eq (uiA uiB : Z) : bool :=
  if isNaNUI uiA || isNaNUI uiB then false
  else (uiA =? uiB) || (magOr uiA uiB =? 0).
Definition sf_lt (uiA uiB : Z) : bool :=
  if isNaNUI uiA || isNaNUI uiB then false
  else
    let signA := signUI uiA in
    let signB := signUI uiB in
    if negb (Bool.eqb signA signB) then signA && negb (magOr uiA uiB =? 0)
    else negb (uiA =? uiB) && xorb signA (uiA <? uiB).
Definition sf_le (uiA uiB : Z) : bool :=
  if isNaNUI uiA || isNaNUI uiB then false
  else
    let signA := signUI uiA in
    let signB := signUI uiB in
    if negb (Bool.eqb signA signB) then signA || (magOr uiA uiB =? 0)
    else (uiA =? uiB) || xorb signA (uiA <? uiB).
End Format.

(** softfloat_shortShiftRightJam64: primitives.h:52-54. *)
Definition shortShiftRightJam64 (a dist : Z) : Z :=
  Z.lor (Z.shiftr a dist) (Z.b2z (negb (Z.land a (2 ^ dist - 1) =? 0))).
(** f32_mul.c:104-108 (the #else branch). *)
Definition f32_mulsig (U sigA sigB : Z) : option Z :=
  do _ <- assert_ (sigA <? 2 ^ 24);
  do _ <- assert_ (sigB <? 2 ^ 24);
  do p <- ushl 64 (uw 64 (sigA * sigB)) 15;
  Some (uw U (shortShiftRightJam64 p 32)).
(** f64_mul.c:103-112 and softfloat_mul64To128M, softfloat_inline.hpp:31-39. *)
Definition f64_mulsig (sigA sigB : Z) : option Z :=
  do a <- ushl 64 sigA 10;
  do b <- ushl 64 sigB 11;
  let ab := uw 128 (a * b) in
  let z n := uw 32 (Z.shiftr ab (32 * n)) in
  let sigZ := Z.lor (Z.shiftl (z 3) 32) (z 2) in
  Some (if negb (z 1 =? 0) || negb (z 0 =? 0) then Z.lor sigZ 1 else sigZ).

(** softfloat_approxRecip32_1: s_approxRecip32_1.c:42-71. *)
Definition recip_k0s (i : Z) : Z :=
  match i with
  | 0 => 0xFFC4 | 1 => 0xF0BE | 2 => 0xE363 | 3 => 0xD76F | 4 => 0xCCAD | 5 => 0xC2F0 | 6 => 0xBA16 | 7 => 0xB201
  | 8 => 0xAA97 | 9 => 0xA3C6 | 10 => 0x9D7A | 11 => 0x97A6 | 12 => 0x923C | 13 => 0x8D32 | 14 => 0x887E | _ => 0x8417
  end.
Definition recip_k1s (i : Z) : Z :=
  match i with
  | 0 => 0xF0F1 | 1 => 0xD62C | 2 => 0xBFA1 | 3 => 0xAC77 | 4 => 0x9C0A | 5 => 0x8DDB | 6 => 0x8185 | 7 => 0x76BA
  | 8 => 0x6D3B | 9 => 0x64D4 | 10 => 0x5D5C | 11 => 0x56B1 | 12 => 0x50B6 | 13 => 0x4B55 | 14 => 0x4679 | _ => 0x4211
  end.
Definition approxRecip32_1 (U a : Z) : Z :=
  let index := Z.land (Z.shiftr a 27) 15 in
  let eps := uw 16 (Z.shiftr a 11) in
  let r0 := uw 16 (recip_k0s index - Z.shiftr (uw U (recip_k1s index * eps)) 20) in
  let sigma0 := uw 32 (Z.lnot (uw U (Z.shiftr (uw 64 (r0 * a)) 7))) in
  let r := uw U (Z.shiftl r0 16 + Z.shiftr (uw 64 (r0 * sigma0)) 24) in
  let sqrSigma0 := uw 32 (Z.shiftr (uw 64 (sigma0 * sigma0)) 32) in
  uw 32 (r + Z.shiftr (uw 64 (uw 32 r * sqrSigma0)) 48).

(** f32_div.c:121-147 (the #else branches). *)
Definition f32_divsig (U sigA sigB : Z) : option Z :=
  do sigA' <- ushl U sigA (if sigA <? sigB then 8 else 7);
  do sigB <- ushl U sigB 8;
  let sigA := sigA' in
  let sigZ := uw U (Z.shiftr (uw 64 (sigA * approxRecip32_1 U (uw 32 sigB))) 32) in
  let sigZ := uw U (sigZ + 2) in
  Some
    (if Z.land sigZ 0x3F <? 2 then
       let sigZ := Z.land sigZ (Z.lnot 3) in
       let rem := uw 64 (Z.shiftl sigA 32 - uw 64 (uw U (Z.shiftl sigZ 1) * sigB)) in
       if Z.testbit rem 63 then uw U (sigZ - 4)
       else if negb (rem =? 0) then Z.lor sigZ 1 else sigZ
     else sigZ).
(** f64_div.c:117-147; recip is softfloat_approxRecip32_1. *)
Definition f64_divsig_with (recip : Z -> Z) (sigA sigB : Z) : option Z :=
  do sigA' <- ushl 64 sigA (if sigA <? sigB then 11 else 10);
  do sigB <- ushl 64 sigB 11;
  let sigA := sigA' in
  let recip32 := uw 32 (recip (uw 32 (Z.shiftr sigB 32)) - 2) in
  let sig32Z := uw 32 (Z.shiftr (uw 64 (uw 32 (Z.shiftr sigA 32) * recip32)) 32) in
  let doubleTerm := uw 32 (Z.shiftl sig32Z 1) in
  let bhi := uw 32 (Z.shiftr sigB 32) in
  let blo := Z.shiftr (uw 32 sigB) 4 in
  let step x d := uw 64 (uw 64 (Z.shiftl (uw 64 (x - uw 64 (d * bhi))) 28) - uw 64 (d * blo)) in
  let rem := step sigA doubleTerm in
  let q := uw 32 (Z.shiftr (uw 64 (uw 32 (Z.shiftr rem 32) * recip32)) 32 + 4) in
  let sigZ := uw 64 (Z.shiftl sig32Z 32 + Z.shiftl q 4) in
  Some
    (if Z.land sigZ 0x1FF <? 64 then
       let q := Z.land q (Z.lnot 7) in
       let sigZ := Z.land sigZ (Z.lnot 0x7F) in
       let doubleTerm := uw 32 (Z.shiftl q 1) in
       let rem := step rem doubleTerm in
       if Z.testbit rem 63 then uw 64 (sigZ - 128)
       else if negb (rem =? 0) then Z.lor sigZ 1 else sigZ
     else sigZ).
Definition f64_divsig : Z -> Z -> option Z := f64_divsig_with (approxRecip32_1 64).

(** The functions, as used by the operators of policy_softfloat.hpp:178-234 and by fp_softfloat.hpp:219-238. U is the
    width of uint_fast32_t. *)
Definition f32_add (U : Z) := sf_add 8 23 U 32 true.
Definition f32_mul (U : Z) := sf_mul 8 23 U 32 (f32_mulsig U).
Definition f32_div (U : Z) := sf_div 8 23 U 32 (f32_divsig U).
Definition f32_eq := sf_eq 8 23.
Definition f32_lt := sf_lt 8 23.
Definition f32_le := sf_le 8 23.
Definition f64_add := sf_add 11 52 64 16 false.
Definition f64_mul := sf_mul 11 52 64 16 f64_mulsig.
Definition f64_div := sf_div 11 52 64 16 f64_divsig.
Definition f64_eq := sf_eq 11 52.
Definition f64_lt := sf_lt 11 52.
Definition f64_le := sf_le 11 52.

(** The operators of policy_softfloat.hpp:195-205 and 220-231 that are not one call: !=, >, >=. *)
Definition f32_ne (a b : Z) : bool := negb (f32_eq a b).
Definition f32_gt (a b : Z) : bool := f32_lt b a.
Definition f32_ge (a b : Z) : bool := f32_le b a.
Definition f64_ne (a b : Z) : bool := negb (f64_eq a b).
Definition f64_gt (a b : Z) : bool := f64_lt b a.
Definition f64_ge (a b : Z) : bool := f64_le b a.

(** numeric_limits<fp_softfloat32>: fp_softfloat.hpp:126-182, with NDEBUG (otherwise each of these stops at assert(0)). *)
Definition sf32_min : Z := 0x00800000.
Definition sf32_max : Z := 0x7F000000.
Definition sf32_lowest : Z := 0xFF000000.
Definition sf32_epsilon : Z := 0x3F800001.
Definition sf32_round_error : Z := 0x3F000000.
Definition sf32_infinity : Z := 0x7F800000.
Definition sf32_quiet_NaN : Z := 0x7F800001.
Definition sf32_denorm_min : Z := 0x00000001.
