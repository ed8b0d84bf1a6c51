(** The SoftFloat functions of SoftFloat.v with the rounding mode as a parameter. In the sources it is the constant
    softfloat_roundingMode (softfloat.h:82), softfloat_round_near_even as delivered; the functions read it in two places,
    softfloat_roundPackToF32/F64 and the exact zero of softfloat_subMagsF32/F64. round_odd: whether SOFTFLOAT_ROUND_ODD is
    defined, which it is not in any file of the repository. The rest is the text of SoftFloat.v. *)
From Coq Require Import ZArith Bool.
From Verif Require Import Fw SoftFloat.
Open Scope Z_scope.

(** softfloat.h:74-81. *)
Definition softfloat_round_near_even : Z := 0.
Definition softfloat_round_minMag : Z := 1.
Definition softfloat_round_min : Z := 2.
Definition softfloat_round_max : Z := 3.
Definition softfloat_round_near_maxMag : Z := 4.
Definition softfloat_round_odd : Z := 5.

Section Mode.
Context (roundingMode : Z) (round_odd : bool).
Context (E F U C : Z).
Let W := E + F + 1.
Let G := E - 1.
Let EXP := 2 ^ E - 1.

(** softfloat_roundPackToF32: s_roundPackToF32.c:43-111; softfloat_roundPackToF64: s_roundPackToF64.c:44-116 (isTiny only
    feeds the flags). *)
Definition roundPackM (sign : bool) (exp sig : Z) : option Z :=
  let half := 2 ^ (G - 1) in
  let mask := 2 ^ G - 1 in
  let roundNearEven := roundingMode =? softfloat_round_near_even in
  let roundIncrement :=
    if negb roundNearEven && negb (roundingMode =? softfloat_round_near_maxMag) then
      if roundingMode =? (if sign then softfloat_round_min else softfloat_round_max) then mask else 0
    else half in
  let finishRound exp sig :=
    let roundBits := Z.land sig mask in
    let sig := Z.shiftr (uw U (sig + roundIncrement)) G in
    if negb (roundBits =? 0) && (round_odd && (roundingMode =? softfloat_round_odd)) then
      Some (packUI E F sign exp (Z.lor sig 1))
    else
      let sig := Z.land sig (Z.lnot (Z.b2z ((roundBits =? half) && roundNearEven))) in
      let exp := if sig =? 0 then 0 else exp in
      Some (packUI E F sign exp sig) in
  if EXP - 2 <=? exp mod 2 ^ C then
    if exp <? 0 then
      let sig := shiftRightJam E F sig (- exp) in
      finishRound 0 sig
    else if (EXP - 2 <? exp) || (2 ^ (W - 1) <=? uw U (sig + roundIncrement)) then
      Some (uw U (packUI E F sign EXP 0 - Z.b2z (roundIncrement =? 0)))
    else finishRound exp sig
  else finishRound exp sig.

(** softfloat_normRoundPackToF32: s_normRoundPackToF32.c:42-58 (F64 the same). *)
Definition normRoundPackM (sign : bool) (exp sig : Z) : option Z :=
  let shiftDist := clzW E F sig - 1 in
  do exp <- i16 (exp - shiftDist);
  if (G <=? shiftDist) && (exp mod 2 ^ 32 <? EXP - 2) then
    do s <- ushl U sig (shiftDist - G);
    Some (packUI E F sign (if sig =? 0 then 0 else exp) s)
  else
    do s <- ushl U sig shiftDist;
    roundPackM sign exp s.

(** softfloat_addMagsF32: s_addMagsF32.c:43-126; softfloat_addMagsF64: s_addMagsF64.c:43-128. quick: the exit for sums that
    need no rounding, lines 80-83, in the F32 version only. In the F64 version the caller passes signZ, the sign of A. *)
Definition addMagsM (quick : bool) (uiA uiB : Z) : option Z :=
  let expA := expUI E F uiA in
  let sigA := fracUI F uiA in
  let expB := expUI E F uiB in
  let sigB := fracUI F uiB in
  let expDiff := expA - expB in
  let signZ := signUI E F uiA in
  if expDiff =? 0 then
    if expA =? 0 then Some (uw W (uw U (uiA + sigB)))
    else if expA =? EXP then
      if negb (Z.lor sigA sigB =? 0) then Some (propagateNaN E F uiA uiB) else Some uiA
    else
      let sigZ := uw U (2 ^ (F + 1) + sigA + sigB) in
      if quick && (Z.land sigZ 1 =? 0) && (expA <? EXP - 1) then Some (packUI E F signZ expA (Z.shiftr sigZ 1))
      else
        do sigZ <- ushl U sigZ (G - 1);
        roundPackM signZ expA sigZ
  else
    do sigA6 <- ushl U sigA (G - 1);
    do sigB6 <- ushl U sigB (G - 1);
    let final expZ sigA sigB :=
      let sigZ := uw U (2 ^ (W - 3) + sigA + sigB) in
      if sigZ <? 2 ^ (W - 2) then
        do sigZ <- ushl U sigZ 1;
        roundPackM signZ (expZ - 1) sigZ
      else roundPackM signZ expZ sigZ in
    if expDiff <? 0 then
      if expB =? EXP then
        if negb (sigB6 =? 0) then Some (propagateNaN E F uiA uiB) else Some (packUI E F signZ EXP 0)
      else
        let sigA := uw U (sigA6 + (if negb (expA =? 0) then 2 ^ (W - 3) else sigA6)) in
        final expB (shiftRightJam E F sigA (- expDiff)) sigB6
    else
      if expA =? EXP then
        if negb (sigA6 =? 0) then Some (propagateNaN E F uiA uiB) else Some uiA
      else
        let sigB := uw U (sigB6 + (if negb (expB =? 0) then 2 ^ (W - 3) else sigB6)) in
        final expA sigA6 (shiftRightJam E F sigB expDiff).

(** softfloat_subMagsF32: s_subMagsF32.c:44-143; softfloat_subMagsF64: s_subMagsF64.c:44-141 (the statements in another
    order). sigDiff is signed. An exact zero has the sign of lines 79-82. *)
Definition subMagsM (uiA uiB : Z) : option Z :=
  let expA := expUI E F uiA in
  let sigA := fracUI F uiA in
  let expB := expUI E F uiB in
  let sigB := fracUI F uiB in
  let expDiff := expA - expB in
  let signZ := signUI E F uiA in
  if expDiff =? 0 then
    if expA =? EXP then
      if negb (Z.lor sigA sigB =? 0) then Some (propagateNaN E F uiA uiB) else Some (defaultNaN E F)
    else
      let sigDiff := sigA - sigB in
      if sigDiff =? 0 then Some (packUI E F (roundingMode =? softfloat_round_min) 0 0)
      else
        let expA := if negb (expA =? 0) then expA - 1 else expA in
        let signZ := if sigDiff <? 0 then negb signZ else signZ in
        let sigDiff := if sigDiff <? 0 then - sigDiff else sigDiff in
        let shiftDist := clzW E F sigDiff - E in
        let expZ := expA - shiftDist in
        let shiftDist := if expZ <? 0 then expA else shiftDist in
        let expZ := if expZ <? 0 then 0 else expZ in
        do s <- ushl U sigDiff shiftDist;
        Some (packUI E F signZ expZ s)
  else
    do sigA7 <- ushl U sigA G;
    do sigB7 <- ushl U sigB G;
    if expDiff <? 0 then
      let signZ := negb signZ in
      if expB =? EXP then
        if negb (sigB7 =? 0) then Some (propagateNaN E F uiA uiB) else Some (packUI E F signZ EXP 0)
      else
        let sigX := Z.lor sigB7 (2 ^ (W - 2)) in
        let sigY := uw U (sigA7 + (if negb (expA =? 0) then 2 ^ (W - 2) else sigA7)) in
        normRoundPackM signZ (expB - 1) (uw U (sigX - shiftRightJam E F sigY (- expDiff)))
    else
      if expA =? EXP then
        if negb (sigA7 =? 0) then Some (propagateNaN E F uiA uiB) else Some uiA
      else
        let sigX := Z.lor sigA7 (2 ^ (W - 2)) in
        let sigY := uw U (sigB7 + (if negb (expB =? 0) then 2 ^ (W - 2) else sigB7)) in
        normRoundPackM signZ (expA - 1) (uw U (sigX - shiftRightJam E F sigY expDiff)).

(** f32_add: f32_add.c:42-70; f64_add: f64_add.c:42-74. *)
Definition sf_addM (quick : bool) (uiA uiB : Z) : option Z :=
  if signUI E F (Z.lxor uiA uiB) then subMagsM uiA uiB else addMagsM quick uiA uiB.

(** f32_mul: f32_mul.c:44-146; f64_mul: f64_mul.c:44-150. mulsig: the significand of the product (f32_mulsig, f64_mulsig). *)
Definition sf_mulM (mulsig : Z -> Z -> option Z) (uiA uiB : Z) : option Z :=
  let signA := signUI E F uiA in
  let expA := expUI E F uiA in
  let sigA := fracUI F uiA in
  let signB := signUI E F uiB in
  let expB := expUI E F uiB in
  let sigB := fracUI F uiB in
  let signZ := xorb signA signB in
  let infArg magBits := if magBits =? 0 then Some (defaultNaN E F) else Some (packUI E F signZ EXP 0) in
  let zero := Some (packUI E F signZ 0 0) in
  if expA =? EXP then
    if negb (sigA =? 0) || ((expB =? EXP) && negb (sigB =? 0)) then Some (propagateNaN E F uiA uiB)
    else infArg (Z.lor expB sigB)
  else if expB =? EXP then
    if negb (sigB =? 0) then Some (propagateNaN E F uiA uiB) else infArg (Z.lor expA sigA)
  else if (expA =? 0) && (sigA =? 0) then zero
  else
    do nA <- (if expA =? 0 then normSubnormalSig E F U sigA else Some (expA, sigA));
    if (expB =? 0) && (sigB =? 0) then zero
    else
      do nB <- (if expB =? 0 then normSubnormalSig E F U sigB else Some (expB, sigB));
      do expZ <- i16 (fst nA + fst nB - (2 ^ (E - 1) - 1));
      do sigZ <- mulsig (Z.lor (snd nA) (2 ^ F)) (Z.lor (snd nB) (2 ^ F));
      if sigZ <? 2 ^ (W - 2) then
        do sigZ <- ushl U sigZ 1;
        roundPackM signZ (expZ - 1) sigZ
      else roundPackM signZ expZ sigZ.

(** f32_div: f32_div.c:44-180; f64_div: f64_div.c:44-172. divsig: from the significands, whether the first is smaller taken
    into account, the significand of the quotient (f32_divsig, f64_divsig). *)
Definition sf_divM (divsig : Z -> Z -> option Z) (uiA uiB : Z) : option Z :=
  let signA := signUI E F uiA in
  let expA := expUI E F uiA in
  let sigA := fracUI F uiA in
  let signB := signUI E F uiB in
  let expB := expUI E F uiB in
  let sigB := fracUI F uiB in
  let signZ := xorb signA signB in
  let infinity := Some (packUI E F signZ EXP 0) in
  let zero := Some (packUI E F signZ 0 0) in
  if expA =? EXP then
    if negb (sigA =? 0) then Some (propagateNaN E F uiA uiB)
    else if expB =? EXP then
      if negb (sigB =? 0) then Some (propagateNaN E F uiA uiB) else Some (defaultNaN E F)
    else infinity
  else if expB =? EXP then
    if negb (sigB =? 0) then Some (propagateNaN E F uiA uiB) else zero
  else if (expB =? 0) && (sigB =? 0) then
    if Z.lor expA sigA =? 0 then Some (defaultNaN E F) else infinity
  else
    do nB <- (if expB =? 0 then normSubnormalSig E F U sigB else Some (expB, sigB));
    if (expA =? 0) && (sigA =? 0) then zero
    else
      do nA <- (if expA =? 0 then normSubnormalSig E F U sigA else Some (expA, sigA));
      do expZ <- i16 (fst nA - fst nB + (2 ^ (E - 1) - 2));
      let sigA := Z.lor (snd nA) (2 ^ F) in
      let sigB := Z.lor (snd nB) (2 ^ F) in
      let expZ := if sigA <? sigB then expZ - 1 else expZ in
      do sigZ <- divsig sigA sigB;
      roundPackM signZ expZ sigZ.
End Mode.

(** As f32_add and so on in SoftFloat.v. rm: the rounding mode; odd: SOFTFLOAT_ROUND_ODD. *)
Definition f32_addM (rm : Z) (odd : bool) (U : Z) := sf_addM rm odd 8 23 U 32 true.
Definition f32_mulM (rm : Z) (odd : bool) (U : Z) := sf_mulM rm odd 8 23 U 32 (f32_mulsig U).
Definition f32_divM (rm : Z) (odd : bool) (U : Z) := sf_divM rm odd 8 23 U 32 (f32_divsig U).
Definition f64_addM (rm : Z) (odd : bool) := sf_addM rm odd 11 52 64 16 false.
Definition f64_mulM (rm : Z) (odd : bool) := sf_mulM rm odd 11 52 64 16 f64_mulsig.
Definition f64_divM (rm : Z) (odd : bool) := sf_divM rm odd 11 52 64 16 f64_divsig.
