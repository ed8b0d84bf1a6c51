(** Model of include/thls/tops/fp_flopoco_add_dual_v1.hpp. *)
From Coq Require Import ZArith Bool.
From Verif Require Import Fw Flopoco AddSingle.
Open Scope Z_scope.

(** The close path, lines 184-318, for the ordered operands: (resultBeforeRoundClose,
    roundClose, resultCloseIsZero, resSign). The width wE-lzocCountWidth+2 of the padding on
    line 305 must not be negative (assertion in the constructor of fw_uint). *)
Definition dual_close (wE wF newX newY exponentDifference selectClosePath : Z) : option (Z * Z * Z * Z) :=
  let fracXClose1 := cat 1 (cat wF 1 (bits (wF - 1) 0 newX)) (zg 1) in
  let fracYClose1 :=
    select (bits 0 0 exponentDifference) (cat wF 1 (bits (wF - 1) 0 newY))
      (cat 1 (cat wF 1 (bits (wF - 1) 0 newY)) (zg 1)) in
  let fracRClosexMy := fsub (wF + 3) fracXClose1 fracYClose1 in
  let fracRCloseyMx := fsub (wF + 3) fracYClose1 fracXClose1 in
  let fracSignClose := bits (wF + 2) (wF + 2) fracRClosexMy in
  let fracRClose1 := select (fnot 1 fracSignClose) (bits (wF + 1) 0 fracRClosexMy) (bits (wF + 1) 0 fracRCloseyMx) in
  let resSign :=
    select (fand selectClosePath (feq fracRClose1 0)) (zg 1)
      (fxor 1 (bits (wE + wF) (wE + wF) newX) (fand selectClosePath fracSignClose)) in
  let wC := intlog2 (wF + 2) in
  do lz <- lzoc (wF + 2) (Z.to_nat wC) fracRClose1;
  let '(shiftedFrac, nZerosNew) := lz in
  let roundClose0 := fand (bits 0 0 shiftedFrac) (bits 1 1 shiftedFrac) in
  let resultCloseIsZero0 := feq nZerosNew (og wC) in
  do _ <- assert_ (0 <=? wE - wC + 2);
  let exponentResultClose :=
    fsub (wE + 2) (zpad_hi 2 wE (bits (wE + wF - 1) wF newX)) (zpad_hi (wE - wC + 2) wC nZerosNew) in
  Some (cat wF (bits (wE + 1) 0 exponentResultClose) (bits wF 1 shiftedFrac), roundClose0, resultCloseIsZero0, resSign).

(** shiftedOut and shiftVal, lines 118-152. *)
Definition dual_shiftVal (wE wF exponentDifference : Z) : option Z :=
  let s := intlog2 (wF + 3) in
  if s <? wE then
    let shiftedOut := fne (bits (wE - 1) s exponentDifference) 0 in
    do big <- of_int s (wF + 3);
    checked_cast s s (select (fnot 1 shiftedOut) (bits (s - 1) 0 exponentDifference) big)
  else if wE =? s then checked_cast s wE exponentDifference
  else checked_cast s (s - wE + wE) (cat wE (zg (s - wE)) exponentDifference).

(** pad1, line 350. *)
Definition dual_pad (wF : Z) : Z := if (wF =? 5) || (wF =? 13) || (wF =? 29) then 2 else 0.

(** The far path, lines 321-566, for the ordered operands: (resultBeforeRoundFar, roundFar). *)
Definition dual_far (wE wF newX newY EffSub shiftVal : Z) : option (Z * Z) :=
  let fracNewY := opad_hi 1 wF (bits (wF - 1) 0 newY) in
  let pad1 := dual_pad wF in
  let preFracNewY := zpad_lo (wF + 3 + pad1) (wF + 1) fracNewY in
  do sh <- to_int shiftVal;
  do shiftedFracYp <- fshr (2 * wF + 4 + pad1) preFracNewY sh;
  do shiftedFracY <- drop_lsbs (2 * wF + 4 + pad1) pad1 shiftedFracYp;
  let sticky := fne (bits wF 0 shiftedFracY) 0 in
  let fracYfar := zpad_hi 1 (wF + 3) (bits (2 * wF + 3) (wF + 1) shiftedFracY) in
  let EffSubVector := select EffSub (og (wF + 4)) (zg (wF + 4)) in
  let fracYfarXorOp := fxor (wF + 4) fracYfar EffSubVector in
  let fracXfar := cat 2 (cat wF 1 (bits (wF - 1) 0 newX)) (zg 2) in
  let cInAddFar := fand EffSub (fnot 1 sticky) in
  let fracResultfar0 := add_with_cin (wF + 4) fracXfar fracYfarXorOp cInAddFar in
  let fracLeadingBits := bits (wF + 3) (wF + 2) fracResultfar0 in
  let fracResultFar1 :=
    select (feq fracLeadingBits 0) (bits wF 1 fracResultfar0)
      (select (feq fracLeadingBits 1) (bits (wF + 1) 2 fracResultfar0) (bits (wF + 2) 3 fracResultfar0)) in
  let fracResultRoundBit :=
    select (feq fracLeadingBits 0) (bits 0 0 fracResultfar0)
      (select (feq fracLeadingBits 1) (bits 1 1 fracResultfar0) (bits 2 2 fracResultfar0)) in
  let fracResultStickyBit :=
    select (feq fracLeadingBits 0) sticky
      (select (feq fracLeadingBits 1) (for_ 1 sticky (bits 0 0 fracResultfar0))
         (for_ 1 (for_ 1 sticky (bits 0 0 fracResultfar0)) (bits 1 1 fracResultfar0))) in
  let roundFar1 := fand fracResultRoundBit (for_ 1 fracResultStickyBit (bits 0 0 fracResultFar1)) in
  let expOperationSel := select (feq fracLeadingBits 0) 3 (select (feq fracLeadingBits 1) 0 1) in
  let exponentUpdate := cat 1 (copybit (wE + 1) (bits 1 1 expOperationSel)) (bits 0 0 expOperationSel) in
  let exponentResultfar0 := zpad_hi 2 wE (bits (wF + wE - 1) wF newX) in
  let exponentResultFar1 := fadd (wE + 2) exponentResultfar0 exponentUpdate in
  Some (cat wF exponentResultFar1 fracResultFar1, roundFar1).

(** Selection, rounding and exceptions, lines 568-783. *)
Definition dual_final (wE wF newX newY EffSub syncClose : Z) (close : Z * Z * Z * Z) (far : Z * Z) : Z :=
  let '(resultBeforeRoundClose, roundClose, resultCloseIsZero, resSign) := close in
  let '(resultBeforeRoundFar, roundFar) := far in
  let sdExnXY := cat 2 (bits (wE + wF + 2) (wE + wF + 1) newX) (bits (wE + wF + 2) (wE + wF + 1) newY) in
  let signX := bits (wE + wF) (wE + wF) newX in
  let signY := bits (wE + wF) (wE + wF) newY in
  let resultBeforeRound := select syncClose resultBeforeRoundClose resultBeforeRoundFar in
  let round := select syncClose roundClose roundFar in
  let zeroFromClose := fand syncClose resultCloseIsZero in
  let resultRounded := add_cin (2 + wE + wF) resultBeforeRound round in
  let UnderflowOverflow := bits (wE + 1 + wF) (wE + wF) resultRounded in
  let resultNoExnHi :=
    select (feq UnderflowOverflow 1) (cat 1 (fnot 1 zeroFromClose) (zg 1))
      (select (for_ 1 (feq UnderflowOverflow 2) (feq UnderflowOverflow 3)) 0 (zpad_hi 1 1 (fnot 1 zeroFromClose))) in
  let resultNoExnLo := cat (wE + wF) resSign (bits (wE + wF - 1) 0 resultRounded) in
  let resultNoExn := cat (wE + wF + 1) resultNoExnHi resultNoExnLo in
  let exnR :=
    if to_bool (feq sdExnXY 5) then bits (wE + wF + 2) (wE + wF + 1) resultNoExn
    else if to_bool (feq sdExnXY 10) then opad_hi 1 1 EffSub
    else if to_bool (feq sdExnXY 14) then 3
    else bits 3 2 sdExnXY in
  let sgnR :=
    select (feq sdExnXY 5) (bits (wE + wF) (wE + wF) resultNoExn)
      (select (feq sdExnXY 0) (fand signX signY) signX) in
  let expsigR := select (feq sdExnXY 5) (bits (wE + wF - 1) 0 resultNoExn) (bits (wE + wF - 1) 0 newX) in
  cat (wE + wF) (cat 1 exnR sgnR) expsigR.

(** The body of add_dual, lines 54-783, after promotion to a common format. *)
Definition add_dual_body (wE wF inX inY : Z) : option Z :=
  let excX := bits (wE + wF + 2) (wE + wF + 1) inX in
  let excY := bits (wE + wF + 2) (wE + wF + 1) inY in
  let exceptionXSuperiorY := fge excX excY in
  let exceptionXEqualY := feq excX excY in
  let signedExponentX := zpad_hi 1 wE (bits (wE + wF - 1) wF inX) in
  let signedExponentY := zpad_hi 1 wE (bits (wE + wF - 1) wF inY) in
  let exponentDifferenceXY := fsub (wE + 1) signedExponentX signedExponentY in
  let exponentDifferenceYX := fsub wE (bits (wE - 1) 0 signedExponentY) (bits (wE - 1) 0 signedExponentX) in
  let swap := for_ 1 (fand exceptionXEqualY (bits wE wE exponentDifferenceXY)) (fnot 1 exceptionXSuperiorY) in
  let newX := select swap inY inX in
  let newY := select swap inX inY in
  let exponentDifference :=
    select swap (bits (wE - 1) 0 exponentDifferenceYX) (bits (wE - 1) 0 exponentDifferenceXY) in
  do shiftVal <- dual_shiftVal wE wF exponentDifference;
  let EffSub := fxor 1 (bits (wE + wF) (wE + wF) newX) (bits (wE + wF) (wE + wF) newY) in
  let selectClosePath := select (feq (bits (wE - 1) 1 exponentDifference) 0) EffSub (zg 1) in
  do close <- dual_close wE wF newX newY exponentDifference selectClosePath;
  do far <- dual_far wE wF newX newY EffSub shiftVal;
  Some (dual_final wE wF newX newY EffSub selectClosePath close far).

(** add_dual, lines 12-28 (static assertions as run-time ones), and add_fast, 786-790;
    operator add of fp_flopoco_primitives.hpp:18-22 is add_dual too. *)
Definition add_dual (wER wFR wEX wFX wEY wFY x y : Z) : option Z :=
  let wF := ctMax wFX wFY in
  let wE := ctMax wEX wEY in
  do X <- promote wE wF wEX wFX x;
  do Y <- promote wE wF wEY wFY y;
  do _ <- assert_ ((wE =? wER) && (wF =? wFR) && (3 <? wE));
  add_dual_body wE wF X Y.
Definition add_fast := add_dual.
