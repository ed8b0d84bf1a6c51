(** Models of the alternative single-path adders: fp_flopoco_add_single_v2.hpp, _v3.hpp,
    _v4.hpp and _v5.hpp in include/thls/tops. Each header defines the whole function again;
    so does this file, so that the differences between them stay visible. *)
From Coq Require Import ZArith Bool.
From Verif Require Import Fw Flopoco AddSingle.
Open Scope Z_scope.

(** The disjunction of comparisons x==c0 || x==c1 || ... *)
Fixpoint any_eq (x : Z) (cs : list Z) : Z :=
  match cs with
  | nil => 0
  | cons c nil => feq x c
  | cons c t => for_ 1 (feq x c) (any_eq x t)
  end.

(** excRt as a chain of selects, v2 lines 219-229. *)
Definition excRt_sel (i : Z) : Z :=
  select (any_eq i (0 :: 16 :: 32 :: 48 :: nil)) 0
  (select (any_eq i (5 :: 21 :: 37 :: 53 :: 4 :: 20 :: 36 :: 52 :: 1 :: 17 :: 33 :: 49 :: nil)) 1
  (select (any_eq i (58 :: 10 :: 8 :: 24 :: 40 :: 56 :: 2 :: 18 :: 34 :: 50 :: 9 :: 25 :: 41 :: 57 :: 6 :: 22 :: 38 :: 54 :: nil)) 2 3)).

(** excRt2 as a chain of selects, v2 lines 378-387. *)
Definition excRt2_sel (i : Z) : Z :=
  select (any_eq i (0 :: 4 :: 8 :: 12 :: 9 :: 13 :: nil)) 0
  (select (any_eq i (1 :: nil)) 1
  (select (any_eq i (2 :: 6 :: 10 :: 14 :: 5 :: nil)) 2 3)).

(** add_single of fp_flopoco_add_single_v2.hpp, lines 171-411, after promotion. *)
Definition add_single_body_v2 (wE wF X Y : Z) : option Z :=
  let s := intlog2 (wF + 3) in
  let excExpFracX := cat (wE + wF) (bits (wE + wF + 2) (wE + wF + 1) X) (bits (wE + wF - 1) 0 X) in
  let excExpFracY := cat (wE + wF) (bits (wE + wF + 2) (wE + wF + 1) Y) (bits (wE + wF - 1) 0 Y) in
  let eXmeY := fsub (wE + 1) (zpad_hi 1 wE (bits (wE + wF - 1) wF X)) (zpad_hi 1 wE (bits (wE + wF - 1) wF Y)) in
  let eYmeX := fsub (wE + 1) (zpad_hi 1 wE (bits (wE + wF - 1) wF Y)) (zpad_hi 1 wE (bits (wE + wF - 1) wF X)) in
  let swap := flt excExpFracX excExpFracY in
  let newX := select (feq swap 0) X Y in
  let newY := select (feq swap 0) Y X in
  let expX := bits (wE + wF - 1) wF newX in
  let excX := bits (wE + wF + 2) (wE + wF + 1) newX in
  let excY := bits (wE + wF + 2) (wE + wF + 1) newY in
  let signX := bits (wE + wF) (wE + wF) newX in
  let signY := bits (wE + wF) (wE + wF) newY in
  let EffSub := fxor 1 signX signY in
  let sXsYExnXY := cat 2 (cat 2 (cat 1 signX signY) excX) excY in
  let fracY := select (feq excY 0) (zg (wF + 1)) (opad_hi 1 wF (bits (wF - 1) 0 newY)) in
  let excRt := excRt_sel sXsYExnXY in
  let signR := select (for_ 1 (feq sXsYExnXY 32) (feq sXsYExnXY 16)) (zg 1) signX in
  let expDiff := select (feq swap 0) eXmeY eYmeX in
  let shiftedOut := fge expDiff (wF + 2) in
  do shiftVal <-
    (if s <? wE then
       do lo <- get_bits (wE + 1) (s - 1) 0 expDiff;
       do big <- of_int s (wF + 3);
       checked_cast s s (select (feq shiftedOut 0) lo big)
     else if wE =? s then
       do lo <- get_bits (wE + 1) (s - 1) 0 expDiff;
       checked_cast s s lo
     else checked_cast s (s - wE + (wE + 1)) (cat (wE + 1) (zg (s - wE)) expDiff));
  let preFracY := zpad_lo (wF + 3) (wF + 1) fracY in
  do sh <- to_int shiftVal;
  do shiftedFracY <- fshr (2 * wF + 4) preFracY sh;
  let sticky := fne (bits wF 0 shiftedFracY) 0 in
  let fracYfar := zpad_hi 1 (wF + 3) (bits (2 * wF + 3) (wF + 1) shiftedFracY) in
  let EffSubVector := select EffSub (og (wF + 4)) (zg (wF + 4)) in
  let fracYfarXorOp := fxor (wF + 4) fracYfar EffSubVector in
  let fracXfar := cat 2 (cat wF 1 (bits (wF - 1) 0 newX)) (zg 2) in
  let cInAddFar := fand EffSub (fnot 1 sticky) in
  let fracAddResult := add_with_cin (wF + 4) fracXfar fracYfarXorOp cInAddFar in
  let fracGRS := cat 1 fracAddResult sticky in
  let extendedExpInc := fadd (wE + 2) (zpad_hi 2 wE expX) 1 in
  let wC := intlog2 (wF + 5) in
  do lz <- lzoc (wF + 5) (Z.to_nat wC) fracGRS;
  let '(shiftedFrac, nZerosNew) := lz in
  let updatedExp := fsub (wE + 2) extendedExpInc (zpad_hi (wE + 2 - wC) wC nZerosNew) in
  let eqdiffsign := feq nZerosNew (og wC) in
  let expFrac := cat (wF + 1) updatedExp (bits (wF + 3) 3 shiftedFrac) in
  let stk := for_ 1 (bits 1 1 shiftedFrac) (bits 0 0 shiftedFrac) in
  let rnd := bits 2 2 shiftedFrac in
  let grd := bits 3 3 shiftedFrac in
  let lsb := bits 4 4 shiftedFrac in
  let addToRoundBit :=
    select (fand (fand (fand (feq lsb 0) (feq grd 1)) (feq rnd 0)) (feq stk 0)) (zg 1) (og 1) in
  let RoundedExpFrac := add_cin (wE + 2 + wF + 1) expFrac addToRoundBit in
  let upExc := bits (wE + wF + 2) (wE + wF + 1) RoundedExpFrac in
  let fracR := bits wF 1 RoundedExpFrac in
  let expR := bits (wF + wE) (wF + 1) RoundedExpFrac in
  let excRt2 := excRt2_sel (cat 2 upExc excRt) in
  let excR := select (fand (fand (feq eqdiffsign 1) (feq EffSub 1)) (feq excRt2 1)) (zg 2) excRt2 in
  let signR2 := select (fand (fand (feq eqdiffsign 1) (feq EffSub 1)) (feq excR 0)) (zg 1) signR in
  Some (cat wF (cat wE (cat 1 excR signR2) expR) fracR).

(** add_single_v2, lines 133-160 (static assertions as run-time ones). *)
Definition add_single_v2 (wER wFR wEX wFX wEY wFY x y : Z) : option Z :=
  let wF := ctMax wFX wFY in
  let wE := ctMax wEX wEY in
  do X <- promote wE wF wEX wFX x;
  do Y <- promote wE wF wEY wFY y;
  do _ <- assert_ ((wE =? wER) && (wF =? wFR));
  add_single_body_v2 wE wF X Y.

(** clz and non_zero of a byte, v3 lines 112-120. __builtin_clz(0) has an undefined result: [u]
    stands for it. For a byte x > 0 the 32-bit count is 31 - log2 x. *)
Definition clz8 (u x : Z) : option Z :=
  do i <- to_int x;
  let b := Z.land 255 i in
  of_int 3 (Z.land 7 (if b =? 0 then u else 31 - Z.log2 b)).
Definition non_zero8 (x : Z) : Z := fne x (zg 8).

(** LZOCShifterCLZ, v3 lines 126-161: (out, count). The result isZero is never read. The
    locals x1 and lzF start as 0 (the default constructor of fw_uint). [u] gives the four
    results of __builtin_clz(0). *)
Definition lzoc_clz (u : Z * Z * Z * Z) (x0 : Z) : option (Z * Z) :=
  let '(u0, u1, u2, u3) := u in
  do b0 <- get_bits 32 31 24 x0; do lz0 <- clz8 u0 b0; let nz0 := non_zero8 b0 in
  do b1 <- get_bits 32 23 16 x0; do lz1 <- clz8 u1 b1; let nz1 := non_zero8 b1 in
  do b2 <- get_bits 32 15 8 x0; do lz2 <- clz8 u2 b2; let nz2 := non_zero8 b2 in
  do b3 <- get_bits 32 7 0 x0; do lz3 <- clz8 u3 b3; let nz3 := non_zero8 b3 in
  do st <-
    (if to_bool nz0 then Some (x0, lz0, cat 3 0 lz0)
     else if to_bool nz1 then do x1 <- fshl 32 x0 8; Some (x1, lz1, cat 3 1 lz1)
     else if to_bool nz2 then do x1 <- fshl 32 x0 16; Some (x1, lz2, cat 3 2 lz2)
     else if to_bool nz3 then do x1 <- fshl 32 x0 24; Some (x1, lz3, cat 3 3 lz3)
     else Some (0, 0, og 5));
  let '(x1, lzF, count) := st in
  do i <- to_int lzF;
  do out <- fshl 32 x1 (Z.land i 31);
  Some (out, count).

(** add_single of fp_flopoco_add_single_v3.hpp, lines 203-457, after promotion. The shifter takes
    a 5-bit count by reference and pads to 32 bits: other widths do not compile. *)
Definition add_single_body_v3 (u : Z * Z * Z * Z) (wE wF X Y : Z) : option Z :=
  let s := intlog2 (wF + 3) in
  let excExpFracX := cat (wE + wF) (bits (wE + wF + 2) (wE + wF + 1) X) (bits (wE + wF - 1) 0 X) in
  let excExpFracY := cat (wE + wF) (bits (wE + wF + 2) (wE + wF + 1) Y) (bits (wE + wF - 1) 0 Y) in
  let eXmeY := fsub (wE + 1) (zpad_hi 1 wE (bits (wE + wF - 1) wF X)) (zpad_hi 1 wE (bits (wE + wF - 1) wF Y)) in
  let eYmeX := fsub (wE + 1) (zpad_hi 1 wE (bits (wE + wF - 1) wF Y)) (zpad_hi 1 wE (bits (wE + wF - 1) wF X)) in
  let swap := flt excExpFracX excExpFracY in
  let newX := select (feq swap 0) X Y in
  let newY := select (feq swap 0) Y X in
  let expX := bits (wE + wF - 1) wF newX in
  let excX := bits (wE + wF + 2) (wE + wF + 1) newX in
  let excY := bits (wE + wF + 2) (wE + wF + 1) newY in
  let signX := bits (wE + wF) (wE + wF) newX in
  let signY := bits (wE + wF) (wE + wF) newY in
  let EffSub := fxor 1 signX signY in
  let sXsYExnXY := cat 2 (cat 2 (cat 1 signX signY) excX) excY in
  let fracY := select (feq excY 0) (zg (wF + 1)) (opad_hi 1 wF (bits (wF - 1) 0 newY)) in
  let excRt := excRt_lut sXsYExnXY in
  let signR := select (for_ 1 (feq sXsYExnXY 32) (feq sXsYExnXY 16)) (zg 1) signX in
  let expDiff := select (feq swap 0) eXmeY eYmeX in
  let shiftedOut := fge expDiff (wF + 2) in
  do shiftVal <-
    (if s <? wE then
       do lo <- get_bits (wE + 1) (s - 1) 0 expDiff;
       do big <- of_int s (wF + 3);
       checked_cast s s (select (feq shiftedOut 0) lo big)
     else if wE =? s then
       do lo <- get_bits (wE + 1) (s - 1) 0 expDiff;
       checked_cast s s lo
     else checked_cast s (s - wE + (wE + 1)) (cat (wE + 1) (zg (s - wE)) expDiff));
  let preFracY := zpad_lo (wF + 3) (wF + 1) fracY in
  do sh <- to_int shiftVal;
  do shiftedFracY <- fshr (2 * wF + 4) preFracY sh;
  let sticky := fne (bits wF 0 shiftedFracY) 0 in
  let fracYfar := zpad_hi 1 (wF + 3) (bits (2 * wF + 3) (wF + 1) shiftedFracY) in
  let EffSubVector := select EffSub (og (wF + 4)) (zg (wF + 4)) in
  let fracYfarXorOp := fxor (wF + 4) fracYfar EffSubVector in
  let fracXfar := cat 2 (cat wF 1 (bits (wF - 1) 0 newX)) (zg 2) in
  let cInAddFar := fand EffSub (fnot 1 sticky) in
  let fracAddResult := add_with_cin (wF + 4) fracXfar fracYfarXorOp cInAddFar in
  let fracGRS := cat 1 fracAddResult sticky in
  let extendedExpInc := fadd (wE + 2) (zpad_hi 2 wE expX) 1 in
  let wC := intlog2 (wF + 5) in
  do _ <- assert_ ((wC =? 5) && (wF + 5 <=? 32));
  let fracGRSExt := zpad_lo (32 - wF - 5) (wF + 5) fracGRS in
  do lz <- lzoc_clz u fracGRSExt;
  let '(shiftedFracExt, nZerosNew) := lz in
  do shiftedFrac <- take_msbs 32 (wF + 5) shiftedFracExt;
  let updatedExp := fsub (wE + 2) extendedExpInc (zpad_hi (wE + 2 - wC) wC nZerosNew) in
  let eqdiffsign := feq nZerosNew (og wC) in
  let expFrac := cat (wF + 1) updatedExp (bits (wF + 3) 3 shiftedFrac) in
  let stk := for_ 1 (bits 1 1 shiftedFrac) (bits 0 0 shiftedFrac) in
  let rnd := bits 2 2 shiftedFrac in
  let grd := bits 3 3 shiftedFrac in
  let lsb := bits 4 4 shiftedFrac in
  let addToRoundBit :=
    select (fand (fand (fand (feq lsb 0) (feq grd 1)) (feq rnd 0)) (feq stk 0)) (zg 1) (og 1) in
  let RoundedExpFrac := add_cin (wE + 2 + wF + 1) expFrac addToRoundBit in
  let upExc := bits (wE + wF + 2) (wE + wF + 1) RoundedExpFrac in
  let fracR := bits wF 1 RoundedExpFrac in
  let expR := bits (wF + wE) (wF + 1) RoundedExpFrac in
  let excRt2 := excRt2_lut (cat 2 upExc excRt) in
  let excR := select (fand (fand (feq eqdiffsign 1) (feq EffSub 1)) (feq excRt2 1)) (zg 2) excRt2 in
  let signR2 := select (fand (fand (feq eqdiffsign 1) (feq EffSub 1)) (feq excR 0)) (zg 1) signR in
  Some (cat wF (cat wE (cat 1 excR signR2) expR) fracR).

(** add_single_v3, lines 165-192 (static assertions as run-time ones). *)
Definition add_single_v3 (u : Z * Z * Z * Z) (wER wFR wEX wFX wEY wFY x y : Z) : option Z :=
  let wF := ctMax wFX wFY in
  let wE := ctMax wEX wEY in
  do X <- promote wE wF wEX wFX x;
  do Y <- promote wE wF wEY wFY y;
  do _ <- assert_ ((wE =? wER) && (wF =? wFR));
  add_single_body_v3 u wE wF X Y.

(** add_single of fp_flopoco_add_single_v4.hpp, lines 195-569, after promotion. *)
Definition add_single_body_v4 (wE wF X Y : Z) : option Z :=
  let s := intlog2 (wF + 3) in
  let excExpFracX := cat (wE + wF) (bits (wE + wF + 2) (wE + wF + 1) X) (bits (wE + wF - 1) 0 X) in
  let excExpFracY := cat (wE + wF) (bits (wE + wF + 2) (wE + wF + 1) Y) (bits (wE + wF - 1) 0 Y) in
  let eXmeY := fsub (wE + 1) (zpad_hi 1 wE (bits (wE + wF - 1) wF X)) (zpad_hi 1 wE (bits (wE + wF - 1) wF Y)) in
  let eYmeX := fsub (wE + 1) (zpad_hi 1 wE (bits (wE + wF - 1) wF Y)) (zpad_hi 1 wE (bits (wE + wF - 1) wF X)) in
  let swap := flt excExpFracX excExpFracY in
  let newX := select (feq swap 0) X Y in
  let newY := select (feq swap 0) Y X in
  let expX := bits (wE + wF - 1) wF newX in
  let excX := bits (wE + wF + 2) (wE + wF + 1) newX in
  let excY := bits (wE + wF + 2) (wE + wF + 1) newY in
  let signX := bits (wE + wF) (wE + wF) newX in
  let signY := bits (wE + wF) (wE + wF) newY in
  let EffSub := fxor 1 signX signY in
  let sXsYExnXY := cat 2 (cat 2 (cat 1 signX signY) excX) excY in
  let fracY := select (feq excY 0) (zg (wF + 1)) (opad_hi 1 wF (bits (wF - 1) 0 newY)) in
  let excRt := excRt_lut sXsYExnXY in
  let signR := select (for_ 1 (feq sXsYExnXY 32) (feq sXsYExnXY 16)) (zg 1) signX in
  let expDiff := select (feq swap 0) eXmeY eYmeX in
  let shiftedOut := fge expDiff (wF + 2) in
  do shiftVal <-
    (if s <? wE then
       do lo <- get_bits (wE + 1) (s - 1) 0 expDiff;
       do big <- of_int s (wF + 3);
       checked_cast s s (select (feq shiftedOut 0) lo big)
     else if wE =? s then
       do lo <- get_bits (wE + 1) (s - 1) 0 expDiff;
       checked_cast s s lo
     else checked_cast s (s - wE + (wE + 1)) (cat (wE + 1) (zg (s - wE)) expDiff));
  let preFracY := zpad_lo (wF + 3) (wF + 1) fracY in
  do sh <- to_int shiftVal;
  do _ <- assert_ (sh <? wF + 4);
  do shiftedFracY <- fshr (2 * wF + 4) preFracY sh;
  let sticky := fne (bits wF 0 shiftedFracY) 0 in
  let fracYfar := zpad_hi 1 (wF + 3) (bits (2 * wF + 3) (wF + 1) shiftedFracY) in
  let EffSubVector := select EffSub (og (wF + 4)) (zg (wF + 4)) in
  let fracYfarXorOp := fxor (wF + 4) fracYfar EffSubVector in
  let fracXfar := cat 2 (cat wF 1 (bits (wF - 1) 0 newX)) (zg 2) in
  let cInAddFar := fand EffSub (fnot 1 sticky) in
  let fracAddResult := add_with_cin (wF + 4) fracXfar fracYfarXorOp cInAddFar in
  let fracGRS := cat 1 fracAddResult sticky in
  let extendedExpInc := fadd (wE + 2) (zpad_hi 2 wE expX) 1 in
  let wC := intlog2 (wF + 5) in
  do lz <- lzoc (wF + 5) (Z.to_nat wC) fracGRS;
  let '(shiftedFrac, nZerosNew) := lz in
  let updatedExp := fsub (wE + 2) extendedExpInc (zpad_hi (wE + 2 - wC) wC nZerosNew) in
  let eqdiffsign := feq nZerosNew (og wC) in
  let expFrac := cat (wF + 1) updatedExp (bits (wF + 3) 3 shiftedFrac) in
  let stk := for_ 1 (bits 1 1 shiftedFrac) (bits 0 0 shiftedFrac) in
  let rnd := bits 2 2 shiftedFrac in
  let grd := bits 3 3 shiftedFrac in
  let lsb := bits 4 4 shiftedFrac in
  let addToRoundBit := feq (cat 1 (cat 1 (cat 1 lsb grd) rnd) stk) 4 in
  let RoundedExpFrac := add_cin (wE + 2 + wF + 1) expFrac addToRoundBit in
  let upExc := bits (wE + wF + 2) (wE + wF + 1) RoundedExpFrac in
  let fracR := bits wF 1 RoundedExpFrac in
  let expR := bits (wF + wE) (wF + 1) RoundedExpFrac in
  let excRt2 := excRt2_lut (cat 2 upExc excRt) in
  let excR := select (feq (cat 2 (cat 1 eqdiffsign EffSub) excRt2) 13) (zg 2) excRt2 in
  let signR2 := fand (fne (cat 2 (cat 1 eqdiffsign EffSub) excR) 12) signR in
  Some (cat wF (cat wE (cat 1 excR signR2) expR) fracR).

(** add_single_v4, lines 157-184 (static assertions as run-time ones). *)
Definition add_single_v4 (wER wFR wEX wFX wEY wFY x y : Z) : option Z :=
  let wF := ctMax wFX wFY in
  let wE := ctMax wEX wEY in
  do X <- promote wE wF wEX wFX x;
  do Y <- promote wE wF wEY wFY y;
  do _ <- assert_ ((wE =? wER) && (wF =? wFR));
  add_single_body_v4 wE wF X Y.

(** add_single_v5 of fp_flopoco_add_single_v5.hpp, lines 40-311, after promotion: the operands are
    ordered by the leading bits of the fractions that both formats have. *)
Definition add_single_body_v5 (wFX wFY wEX wEY x y wE wF X Y : Z) : option Z :=
  let s := intlog2 (wF + 3) in
  let wFXYmin := Z.min wFX wFY in
  do _ <- assert_ ((0 <=? wFX - wFXYmin) && (0 <=? wFY - wFXYmin));
  do topX <- get_bits (wEX + wFX + 3) (wFX - 1) (wFX - wFXYmin) x;
  do topY <- get_bits (wEY + wFY + 3) (wFY - 1) (wFY - wFXYmin) y;
  let excExpFracX := cat wFXYmin (cat wE (bits (wE + wF + 2) (wE + wF + 1) X) (bits (wE + wF - 1) wF X)) topX in
  let excExpFracY := cat wFXYmin (cat wE (bits (wE + wF + 2) (wE + wF + 1) Y) (bits (wE + wF - 1) wF Y)) topY in
  let eXmeY := fsub (wE + 1) (zpad_hi 1 wE (bits (wE + wF - 1) wF X)) (zpad_hi 1 wE (bits (wE + wF - 1) wF Y)) in
  let eYmeX := fsub (wE + 1) (zpad_hi 1 wE (bits (wE + wF - 1) wF Y)) (zpad_hi 1 wE (bits (wE + wF - 1) wF X)) in
  let swap := if wFX <? wFY then fle excExpFracX excExpFracY else flt excExpFracX excExpFracY in
  let newX := select (feq swap 0) X Y in
  let newY := select (feq swap 0) Y X in
  let expX := bits (wE + wF - 1) wF newX in
  let excX := bits (wE + wF + 2) (wE + wF + 1) newX in
  let excY := bits (wE + wF + 2) (wE + wF + 1) newY in
  let signX := bits (wE + wF) (wE + wF) newX in
  let signY := bits (wE + wF) (wE + wF) newY in
  let EffSub := fxor 1 signX signY in
  let sXsYExnXY := cat 2 (cat 2 (cat 1 signX signY) excX) excY in
  let fracY := select (feq excY 0) (zg (wF + 1)) (opad_hi 1 wF (bits (wF - 1) 0 newY)) in
  let excRt := excRt_lut sXsYExnXY in
  let signR := select (for_ 1 (feq sXsYExnXY 32) (feq sXsYExnXY 16)) (zg 1) signX in
  let expDiff := select (feq swap 0) eXmeY eYmeX in
  let shiftedOut := fge expDiff (wF + 2) in
  do shiftVal <-
    (if s <? wE then
       do lo <- get_bits (wE + 1) (s - 1) 0 expDiff;
       do big <- of_int s (wF + 3);
       checked_cast s s (select (feq shiftedOut 0) lo big)
     else if wE =? s then
       do lo <- get_bits (wE + 1) (s - 1) 0 expDiff;
       checked_cast s s lo
     else checked_cast s (s - wE + (wE + 1)) (cat (wE + 1) (zg (s - wE)) expDiff));
  let preFracY := zpad_lo (wF + 3) (wF + 1) fracY in
  do sh <- to_int shiftVal;
  do shiftedFracY <- fshr (2 * wF + 4) preFracY sh;
  let sticky := fne (bits wF 0 shiftedFracY) 0 in
  let fracYfar := zpad_hi 1 (wF + 3) (bits (2 * wF + 3) (wF + 1) shiftedFracY) in
  let EffSubVector := select EffSub (og (wF + 4)) (zg (wF + 4)) in
  let fracYfarXorOp := fxor (wF + 4) fracYfar EffSubVector in
  let fracXfar := cat 2 (cat wF 1 (bits (wF - 1) 0 newX)) (zg 2) in
  let cInAddFar := fand EffSub (fnot 1 sticky) in
  let fracAddResult := add_with_cin (wF + 4) fracXfar fracYfarXorOp cInAddFar in
  let fracGRS := cat 1 fracAddResult sticky in
  let extendedExpInc := fadd (wE + 2) (zpad_hi 2 wE expX) 1 in
  let wC := intlog2 (wF + 5) in
  do lz <- lzoc (wF + 5) (Z.to_nat wC) fracGRS;
  let '(shiftedFrac, nZerosNew) := lz in
  let updatedExp := fsub (wE + 2) extendedExpInc (zpad_hi (wE + 2 - wC) wC nZerosNew) in
  let eqdiffsign := feq nZerosNew (og wC) in
  let expFrac := cat (wF + 1) updatedExp (bits (wF + 3) 3 shiftedFrac) in
  let stk := for_ 1 (bits 1 1 shiftedFrac) (bits 0 0 shiftedFrac) in
  let rnd := bits 2 2 shiftedFrac in
  let grd := bits 3 3 shiftedFrac in
  let lsb := bits 4 4 shiftedFrac in
  let addToRoundBit :=
    select (fand (fand (fand (feq lsb 0) (feq grd 1)) (feq rnd 0)) (feq stk 0)) (zg 1) (og 1) in
  let RoundedExpFrac := add_cin (wE + 2 + wF + 1) expFrac addToRoundBit in
  let upExc := bits (wE + wF + 2) (wE + wF + 1) RoundedExpFrac in
  let fracR := bits wF 1 RoundedExpFrac in
  let expR := bits (wF + wE) (wF + 1) RoundedExpFrac in
  let excRt2 := excRt2_lut (cat 2 upExc excRt) in
  let excR := select (fand (fand (feq eqdiffsign 1) (feq EffSub 1)) (feq excRt2 1)) (zg 2) excRt2 in
  let signR2 := select (fand (fand (feq eqdiffsign 1) (feq EffSub 1)) (feq excR 0)) (zg 1) signR in
  Some (cat wF (cat wE (cat 1 excR signR2) expR) fracR).

(** add_single_v5, lines 14-31 (static assertions as run-time ones). *)
Definition add_single_v5 (wER wFR wEX wFX wEY wFY x y : Z) : option Z :=
  let wF := ctMax wFX wFY in
  let wE := ctMax wEX wEY in
  do X <- promote wE wF wEX wFX x;
  do Y <- promote wE wF wEY wFY y;
  do _ <- assert_ ((wE =? wER) && (wF =? wFR));
  add_single_body_v5 wFX wFY wEX wEY x y wE wF X Y.
