(** The flags the SoftFloat functions pass to softfloat_raiseFlags. As delivered that function does nothing
    (softfloat_raiseFlags.c:46-51, softfloat_exceptionFlags is the constant 0, softfloat.h:95), so the operations of SoftFloat.v
    leave the calls out; a build that puts the one statement back would collect what is modelled here. Each function is the one
    of SoftFloat.v with the same parameters, and gives the result and the bitwise or of the arguments of the calls made.
    Round to nearest even and tininess after rounding, as configured (softfloat.h:66, 84). *)
From Coq Require Import ZArith Bool.
From Verif Require Import Fw SoftFloat.
Open Scope Z_scope.

(** softfloat.h:88-94. *)
Definition softfloat_flag_inexact : Z := 1.
Definition softfloat_flag_underflow : Z := 2.
Definition softfloat_flag_overflow : Z := 4.
Definition softfloat_flag_infinite : Z := 8.
Definition softfloat_flag_invalid : Z := 16.

Section Format.
Context (E F U C : Z).
Let W := E + F + 1.
Let G := E - 1.
Let EXP := 2 ^ E - 1.

(** s_propagateNaNF32UI.c:50-82, the call at line 68 (F64 the same). *)
Definition propagateNaNF (uiA uiB : Z) : Z * Z :=
  (propagateNaN E F uiA uiB,
   if isSigNaNUI E F uiA || isSigNaNUI E F uiB then softfloat_flag_invalid else 0).

(** s_roundPackToF32.c:43-111, the calls at lines 79 and 84; s_roundPackToF64.c:44-116, lines 80 and 88. The statement that
    would set inexact for every rounded result is commented out in both (lines 94, 99). *)
Definition roundPackF (sign : bool) (exp sig : Z) : option (Z * Z) :=
  let half := 2 ^ (G - 1) in
  let mask := 2 ^ G - 1 in
  let finishRound exp sig flags :=
    let roundBits := Z.land sig mask in
    let sig := Z.shiftr (uw U (sig + half)) G in
    let sig := Z.land sig (Z.lnot (Z.b2z (roundBits =? half))) in
    let exp := if sig =? 0 then 0 else exp in
    Some (packUI E F sign exp sig, flags) in
  if EXP - 2 <=? exp mod 2 ^ C then
    if exp <? 0 then
      let isTiny := (exp <? -1) || (uw U (sig + half) <? 2 ^ (W - 1)) in
      let sig := shiftRightJam E F sig (- exp) in
      let roundBits := Z.land sig mask in
      finishRound 0 sig (if isTiny && negb (roundBits =? 0) then softfloat_flag_underflow else 0)
    else if (EXP - 2 <? exp) || (2 ^ (W - 1) <=? uw U (sig + half)) then
      Some (packUI E F sign EXP 0, Z.lor softfloat_flag_overflow softfloat_flag_inexact)
    else finishRound exp sig 0
  else finishRound exp sig 0.

(** s_normRoundPackToF32.c:42-58 (F64 the same): no call of its own. *)
Definition normRoundPackF (sign : bool) (exp sig : Z) : option (Z * Z) :=
  let shiftDist := clzW E F sig - 1 in
  do exp <- i16 (exp - shiftDist);
  if (G <=? shiftDist) && (exp mod 2 ^ 32 <? EXP - 2) then
    do s <- ushl U sig (shiftDist - G);
    Some (packUI E F sign (if sig =? 0 then 0 else exp) s, 0)
  else
    do s <- ushl U sig shiftDist;
    roundPackF sign exp s.

(** s_addMagsF32.c:43-126, s_addMagsF64.c:43-128: no call of its own. *)
Definition addMagsF (quick : bool) (uiA uiB : Z) : option (Z * Z) :=
  let expA := expUI E F uiA in
  let sigA := fracUI F uiA in
  let expB := expUI E F uiB in
  let sigB := fracUI F uiB in
  let expDiff := expA - expB in
  let signZ := signUI E F uiA in
  if expDiff =? 0 then
    if expA =? 0 then Some (uw W (uw U (uiA + sigB)), 0)
    else if expA =? EXP then
      if negb (Z.lor sigA sigB =? 0) then Some (propagateNaNF uiA uiB) else Some (uiA, 0)
    else
      let sigZ := uw U (2 ^ (F + 1) + sigA + sigB) in
      if quick && (Z.land sigZ 1 =? 0) && (expA <? EXP - 1) then Some (packUI E F signZ expA (Z.shiftr sigZ 1), 0)
      else
        do sigZ <- ushl U sigZ (G - 1);
        roundPackF signZ expA sigZ
  else
    do sigA6 <- ushl U sigA (G - 1);
    do sigB6 <- ushl U sigB (G - 1);
    let final expZ sigA sigB :=
      let sigZ := uw U (2 ^ (W - 3) + sigA + sigB) in
      if sigZ <? 2 ^ (W - 2) then
        do sigZ <- ushl U sigZ 1;
        roundPackF signZ (expZ - 1) sigZ
      else roundPackF signZ expZ sigZ in
    if expDiff <? 0 then
      if expB =? EXP then
        if negb (sigB6 =? 0) then Some (propagateNaNF uiA uiB) else Some (packUI E F signZ EXP 0, 0)
      else
        let sigA := uw U (sigA6 + (if negb (expA =? 0) then 2 ^ (W - 3) else sigA6)) in
        final expB (shiftRightJam E F sigA (- expDiff)) sigB6
    else
      if expA =? EXP then
        if negb (sigA6 =? 0) then Some (propagateNaNF uiA uiB) else Some (uiA, 0)
      else
        let sigB := uw U (sigB6 + (if negb (expB =? 0) then 2 ^ (W - 3) else sigB6)) in
        final expA sigA6 (shiftRightJam E F sigB expDiff).

(** s_subMagsF32.c:44-143, s_subMagsF64.c:44-141: the call at line 73, for infinities. *)
Definition subMagsF (uiA uiB : Z) : option (Z * Z) :=
  let expA := expUI E F uiA in
  let sigA := fracUI F uiA in
  let expB := expUI E F uiB in
  let sigB := fracUI F uiB in
  let expDiff := expA - expB in
  let signZ := signUI E F uiA in
  if expDiff =? 0 then
    if expA =? EXP then
      if negb (Z.lor sigA sigB =? 0) then Some (propagateNaNF uiA uiB) else Some (defaultNaN E F, softfloat_flag_invalid)
    else
      let sigDiff := sigA - sigB in
      if sigDiff =? 0 then Some (packUI E F false 0 0, 0)
      else
        let expA := if negb (expA =? 0) then expA - 1 else expA in
        let signZ := if sigDiff <? 0 then negb signZ else signZ in
        let sigDiff := if sigDiff <? 0 then - sigDiff else sigDiff in
        let shiftDist := clzW E F sigDiff - E in
        let expZ := expA - shiftDist in
        let shiftDist := if expZ <? 0 then expA else shiftDist in
        let expZ := if expZ <? 0 then 0 else expZ in
        do s <- ushl U sigDiff shiftDist;
        Some (packUI E F signZ expZ s, 0)
  else
    do sigA7 <- ushl U sigA G;
    do sigB7 <- ushl U sigB G;
    if expDiff <? 0 then
      let signZ := negb signZ in
      if expB =? EXP then
        if negb (sigB7 =? 0) then Some (propagateNaNF uiA uiB) else Some (packUI E F signZ EXP 0, 0)
      else
        let sigX := Z.lor sigB7 (2 ^ (W - 2)) in
        let sigY := uw U (sigA7 + (if negb (expA =? 0) then 2 ^ (W - 2) else sigA7)) in
        normRoundPackF signZ (expB - 1) (uw U (sigX - shiftRightJam E F sigY (- expDiff)))
    else
      if expA =? EXP then
        if negb (sigA7 =? 0) then Some (propagateNaNF uiA uiB) else Some (uiA, 0)
      else
        let sigX := Z.lor sigA7 (2 ^ (W - 2)) in
        let sigY := uw U (sigB7 + (if negb (expB =? 0) then 2 ^ (W - 2) else sigB7)) in
        normRoundPackF signZ (expA - 1) (uw U (sigX - shiftRightJam E F sigY expDiff)).

(** f32_add.c:42-70; f64_add.c:42-74. *)
Definition sf_addF (quick : bool) (uiA uiB : Z) : option (Z * Z) :=
  if signUI E F (Z.lxor uiA uiB) then subMagsF uiA uiB else addMagsF quick uiA uiB.

(** f32_mul.c:44-146, the call at line 131; f64_mul.c:44-150, line 135: zero times infinity. *)
Definition sf_mulF (mulsig : Z -> Z -> option Z) (uiA uiB : Z) : option (Z * Z) :=
  let signA := signUI E F uiA in
  let expA := expUI E F uiA in
  let sigA := fracUI F uiA in
  let signB := signUI E F uiB in
  let expB := expUI E F uiB in
  let sigB := fracUI F uiB in
  let signZ := xorb signA signB in
  let infArg magBits := if magBits =? 0 then Some (defaultNaN E F, softfloat_flag_invalid) else Some (packUI E F signZ EXP 0, 0) in
  let zero := Some (packUI E F signZ 0 0, 0) in
  if expA =? EXP then
    if negb (sigA =? 0) || ((expB =? EXP) && negb (sigB =? 0)) then Some (propagateNaNF uiA uiB)
    else infArg (Z.lor expB sigB)
  else if expB =? EXP then
    if negb (sigB =? 0) then Some (propagateNaNF uiA uiB) else infArg (Z.lor expA sigA)
  else if (expA =? 0) && (sigA =? 0) then zero
  else
    do nA <- (if expA =? 0 then normSubnormalSig E F U sigA else Some (expA, sigA));
    if (expB =? 0) && (sigB =? 0) then zero
    else
      do nB <- (if expB =? 0 then normSubnormalSig E F U sigB else Some (expB, sigB));
      do expZ <- i16 (fst nA + fst nB - (2 ^ (E - 1) - 1));
      do sigZ <- mulsig (Z.lor (snd nA) (2 ^ F)) (Z.lor (snd nB) (2 ^ F));
      if sigZ <? 2 ^ (W - 2) then
        do sigZ <- ushl U sigZ 1;
        roundPackF signZ (expZ - 1) sigZ
      else roundPackF signZ expZ sigZ.

(** f32_div.c:44-180, the calls at lines 101 and 163; f64_div.c:44-172, lines 98 and 155: a finite number that is not
    zero over zero; zero over zero and infinity over infinity. *)
Definition sf_divF (divsig : Z -> Z -> option Z) (uiA uiB : Z) : option (Z * Z) :=
  let signA := signUI E F uiA in
  let expA := expUI E F uiA in
  let sigA := fracUI F uiA in
  let signB := signUI E F uiB in
  let expB := expUI E F uiB in
  let sigB := fracUI F uiB in
  let signZ := xorb signA signB in
  let infinity := Some (packUI E F signZ EXP 0, 0) in
  let zero := Some (packUI E F signZ 0 0, 0) in
  if expA =? EXP then
    if negb (sigA =? 0) then Some (propagateNaNF uiA uiB)
    else if expB =? EXP then
      if negb (sigB =? 0) then Some (propagateNaNF uiA uiB) else Some (defaultNaN E F, softfloat_flag_invalid)
    else infinity
  else if expB =? EXP then
    if negb (sigB =? 0) then Some (propagateNaNF uiA uiB) else zero
  else if (expB =? 0) && (sigB =? 0) then
    if Z.lor expA sigA =? 0 then Some (defaultNaN E F, softfloat_flag_invalid) else Some (packUI E F signZ EXP 0, softfloat_flag_infinite)
  else
    do nB <- (if expB =? 0 then normSubnormalSig E F U sigB else Some (expB, sigB));
    if (expA =? 0) && (sigA =? 0) then zero
    else
      do nA <- (if expA =? 0 then normSubnormalSig E F U sigA else Some (expA, sigA));
      do expZ <- i16 (fst nA - fst nB + (2 ^ (E - 1) - 2));
      let sigA := Z.lor (snd nA) (2 ^ F) in
      let sigB := Z.lor (snd nB) (2 ^ F) in
      let expZ := if sigA <? sigB then expZ - 1 else expZ in
      do sigZ <- divsig sigA sigB;
      roundPackF signZ expZ sigZ.

(** f32_eq.c:44-66, the call at line 59; f32_lt.c:43-66 and f32_le.c:43-66, line 56 (F64 the same): the flags only, the
    results are those of sf_eq, sf_lt, sf_le. *)
Definition sf_eq_flags (uiA uiB : Z) : Z :=
  if isNaNUI E F uiA || isNaNUI E F uiB then
    if isSigNaNUI E F uiA || isSigNaNUI E F uiB then softfloat_flag_invalid else 0
  else 0.
Definition sf_lt_flags (uiA uiB : Z) : Z :=
  if isNaNUI E F uiA || isNaNUI E F uiB then softfloat_flag_invalid else 0.
Definition sf_le_flags (uiA uiB : Z) : Z :=
  if isNaNUI E F uiA || isNaNUI E F uiB then softfloat_flag_invalid else 0.
End Format.

(** The functions with their flags, as f32_add and the others of SoftFloat.v. *)
Definition f32_addF (U : Z) := sf_addF 8 23 U 32 true.
Definition f32_mulF (U : Z) := sf_mulF 8 23 U 32 (f32_mulsig U).
Definition f32_divF (U : Z) := sf_divF 8 23 U 32 (f32_divsig U).
Definition f32_eq_flags := sf_eq_flags 8 23.
Definition f32_lt_flags := sf_lt_flags 8 23.
Definition f32_le_flags := sf_le_flags 8 23.
Definition f64_addF := sf_addF 11 52 64 16 false.
Definition f64_mulF := sf_mulF 11 52 64 16 f64_mulsig.
Definition f64_divF := sf_divF 11 52 64 16 f64_divsig.
Definition f64_eq_flags := sf_eq_flags 11 52.
Definition f64_lt_flags := sf_lt_flags 11 52.
Definition f64_le_flags := sf_le_flags 11 52.
