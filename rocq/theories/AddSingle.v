(** Model of include/thls/tops/fp_flopoco_add_single_v1.hpp. *)
From Coq Require Import ZArith Bool.
From Verif Require Import Fw Flopoco.
Open Scope Z_scope.

(** intlog2<N>, lines 10-20: number of bits of N. *)
Definition intlog2 (N : Z) : Z := if N <=? 0 then 0 else Z.log2 N + 1.

(** LZOCShifterImpl<WD,WC>::stage, lines 77-103 ([k] is WC-1): (out, bit). The debug assertion
    is kept: BASE is 0 in both branches of its definition. *)
Definition lzoc_stage (WD k x : Z) : option (Z * Z) :=
  do _ <- assert_ (2 ^ k <=? WD);
  let SHIFT := 2 ^ k in
  do hi <- get_bits WD (WD - 1) (WD - SHIFT) x;
  if SHIFT =? WD then Some (x, feq hi 0)
  else
    do lo <- get_bits WD (WD - SHIFT - 1) 0 x;
    do _ <- assert_ (to_bool (for_ 1 (for_ 1 (feq x 0) (fne hi 0)) (fne lo 0)));
    do xs <- fshl WD x SHIFT;
    Some (select (feq hi 0) xs x, feq hi 0).

(** LZOCShifterImpl<WD,WC>::go, lines 106-132: (out, count). *)
Fixpoint lzoc (WD : Z) (WC : nat) (x : Z) : option (Z * Z) :=
  match WC with
  | O => Some (x, 0)
  | S k =>
      do st <- lzoc_stage WD (Z.of_nat k) x;
      let '(mid, hiCount) := st in
      do r <- lzoc WD k mid;
      let '(out, loCount) := r in
      Some (out, cat (Z.of_nat k) hiCount loCount)
  end.

(** excRt_lut, lines 264-276. *)
Definition excRt_lut (i : Z) : Z :=
  match i with
  | 0 | 16 | 32 | 48 => 0
  | 5 | 21 | 37 | 53 | 4 | 20 | 36 | 52 | 1 | 17 | 33 | 49 => 1
  | 58 | 10 | 8 | 24 | 40 | 56 | 2 | 18 | 34 | 50 | 9 | 25 | 41 | 57 | 6 | 22 | 38 | 54 => 2
  | _ => 3
  end.

(** excRt2_lut, lines 551-562. *)
Definition excRt2_lut (i : Z) : Z :=
  match i with
  | 0 | 4 | 8 | 12 | 9 | 13 => 0
  | 1 => 1
  | 2 | 6 | 10 | 14 | 5 => 2
  | _ => 3
  end.

(** The body of add_single, lines 178-596, after promotion to a common format. *)
Definition add_single_body (wE wF X Y : Z) : option Z :=
  let s := intlog2 (wF + 3) in
  let excExpFracX := cat (wE + wF) (bits (wE + wF + 2) (wE + wF + 1) X) (bits (wE + wF - 1) 0 X) in
  let excExpFracY := cat (wE + wF) (bits (wE + wF + 2) (wE + wF + 1) Y) (bits (wE + wF - 1) 0 Y) in
  let eXmeY := fsub (wE + 1) (zpad_hi 1 wE (bits (wE + wF - 1) wF X)) (zpad_hi 1 wE (bits (wE + wF - 1) wF Y)) in
  let eYmeX := fsub (wE + 1) (zpad_hi 1 wE (bits (wE + wF - 1) wF Y)) (zpad_hi 1 wE (bits (wE + wF - 1) wF X)) in
  let swap := flt excExpFracX excExpFracY in
  let newX := select (feq swap 0) X Y in
  let newY := select (feq swap 0) Y X in
  let expX := bits (wE + wF - 1) wF newX in
  let excX := bits (wE + wF + 2) (wE + wF + 1) newX in
  let excY := bits (wE + wF + 2) (wE + wF + 1) newY in
  let signX := bits (wE + wF) (wE + wF) newX in
  let signY := bits (wE + wF) (wE + wF) newY in
  let EffSub := fxor 1 signX signY in
  let sXsYExnXY := cat 2 (cat 2 (cat 1 signX signY) excX) excY in
  let fracY := select (feq excY 0) (zg (wF + 1)) (opad_hi 1 wF (bits (wF - 1) 0 newY)) in
  let excRt := excRt_lut sXsYExnXY in
  let signR := select (for_ 1 (feq sXsYExnXY 32) (feq sXsYExnXY 16)) (zg 1) signX in
  let expDiff := select (feq swap 0) eXmeY eYmeX in
  let shiftedOut := fge expDiff (wF + 2) in
  do shiftVal <-
    (if s <? wE then
       do lo <- get_bits (wE + 1) (s - 1) 0 expDiff;
       do big <- of_int s (wF + 3);
       checked_cast s s (select (feq shiftedOut 0) lo big)
     else if wE =? s then
       do lo <- get_bits (wE + 1) (s - 1) 0 expDiff;
       checked_cast s s lo
     else checked_cast s (s - wE + (wE + 1)) (cat (wE + 1) (zg (s - wE)) expDiff));
  let preFracY := zpad_lo (wF + 3) (wF + 1) fracY in
  do sh <- to_int shiftVal;
  do shiftedFracY <- fshr (2 * wF + 4) preFracY sh;
  let sticky := fne (bits wF 0 shiftedFracY) 0 in
  let fracYfar := zpad_hi 1 (wF + 3) (bits (2 * wF + 3) (wF + 1) shiftedFracY) in
  let EffSubVector := select EffSub (og (wF + 4)) (zg (wF + 4)) in
  let fracYfarXorOp := fxor (wF + 4) fracYfar EffSubVector in
  let fracXfar := cat 2 (cat wF 1 (bits (wF - 1) 0 newX)) (zg 2) in
  let cInAddFar := fand EffSub (fnot 1 sticky) in
  let fracAddResult := add_with_cin (wF + 4) fracXfar fracYfarXorOp cInAddFar in
  let fracGRS := cat 1 fracAddResult sticky in
  let extendedExpInc := fadd (wE + 2) (zpad_hi 2 wE expX) 1 in
  let wC := intlog2 (wF + 5) in
  do lz <- lzoc (wF + 5) (Z.to_nat wC) fracGRS;
  let '(shiftedFrac, nZerosNew) := lz in
  let updatedExp := fsub (wE + 2) extendedExpInc (zpad_hi (wE + 2 - wC) wC nZerosNew) in
  let eqdiffsign := feq nZerosNew (og wC) in
  let expFrac := cat (wF + 1) updatedExp (bits (wF + 3) 3 shiftedFrac) in
  let stk := for_ 1 (bits 1 1 shiftedFrac) (bits 0 0 shiftedFrac) in
  let rnd := bits 2 2 shiftedFrac in
  let grd := bits 3 3 shiftedFrac in
  let lsb := bits 4 4 shiftedFrac in
  let addToRoundBit :=
    select (fand (fand (fand (feq lsb 0) (feq grd 1)) (feq rnd 0)) (feq stk 0)) (zg 1) (og 1) in
  let RoundedExpFrac := add_cin (wE + 2 + wF + 1) expFrac addToRoundBit in
  let upExc := bits (wE + wF + 2) (wE + wF + 1) RoundedExpFrac in
  let fracR := bits wF 1 RoundedExpFrac in
  let expR := bits (wF + wE) (wF + 1) RoundedExpFrac in
  let excRt2 := excRt2_lut (cat 2 upExc excRt) in
  let excR := select (fand (fand (feq eqdiffsign 1) (feq EffSub 1)) (feq excRt2 1)) (zg 2) excRt2 in
  let signR2 := select (fand (fand (feq eqdiffsign 1) (feq EffSub 1)) (feq excR 0)) (zg 1) signR in
  Some (cat wF (cat wE (cat 1 excR signR2) expR) fracR).

(** add_single, lines 157-177 (static assertions as run-time ones) and add_small, 600-604. *)
Definition add_single (wER wFR wEX wFX wEY wFY x y : Z) : option Z :=
  let wF := ctMax wFX wFY in
  let wE := ctMax wEX wEY in
  do X <- promote wE wF wEX wFX x;
  do Y <- promote wE wF wEY wFY y;
  do _ <- assert_ ((wE =? wER) && (wF =? wFR));
  add_single_body wE wF X Y.
Definition add_small := add_single.

(** The widths for which add_single works (no assertion fails): the exponent must be able to
    count a full alignment shift, 2^E > F+3, with the one exception 2^E = 2*(F+3), and the
    shift distance must be an int. Every standard format qualifies. *)
Definition add_ok_width (E F : Z) : Prop := 1 <= E /\ 1 <= F /\ F + 3 < 2 ^ E /\ 2 ^ E <> 2 * (F + 3) /\ 2 * F + 4 < 2 ^ 31.
