(** promote and add_single as sequences of fw_uint operations, in the order of the source. *)
From Coq Require Import ZArith Bool List.
From Verif Require Import Fw Flopoco AddSingle Circuit.
Open Scope Z_scope.

(** promote_exp_impl, promote_frac_impl, promote_impl::to_flopoco: fp_promote.hpp:11-65, 113-117, 147-151. *)
Definition promote_exp_prog (DE SE e : Z) : prog Z :=
  if DE =? SE then Ret e
  else prg _ <- passert (SE <=? DE); prg z <- p_zpad_hi (DE - SE) SE e;
       opr r <- OAddInt DE z ((2 ^ (DE - 1) - 1) - (2 ^ (SE - 1) - 1)); Ret r.
Definition promote_frac_prog (DF SF f : Z) : prog Z :=
  if DF =? SF then Ret f
  else prg _ <- passert (SF <=? DF); opr z <- OInt (DF - SF) 0; opr r <- OCat SF (DF - SF) f z; Ret r.
Definition promote_prog (DE DF SE SF x : Z) : prog Z :=
  if (DE =? SE) && (DF =? SF) then Ret x
  else
    let W := SE + SF + 3 in
    opr fl <- OSlice W (SE + SF + 2) (SE + SF + 1) x; opr s <- OSlice W (SE + SF) (SE + SF) x;
    opr e0 <- OSlice W (SE + SF - 1) SF x; prg e <- promote_exp_prog DE SE e0;
    opr f0 <- OSlice W (SF - 1) 0 x; prg f <- promote_frac_prog DF SF f0;
    opr hi <- OCat 2 1 fl s; opr lo <- OCat DE DF e f; opr r <- OCat 3 (DE + DF) hi lo; Ret r.

(** LZOCShifterImpl::stage and go: fp_flopoco_add_single_v1.hpp:77-132. *)
Definition lzoc_stage_prog (WD k x : Z) : prog (Z * Z) :=
  prg _ <- passert (2 ^ k <=? WD);
  let SHIFT := 2 ^ k in
  opr hi <- OSlice WD (WD - 1) (WD - SHIFT) x;
  if SHIFT =? WD then prg z <- p_zg SHIFT; opr bit <- OCmp CEq SHIFT hi z; Ret (x, bit)
  else
    opr lo <- OSlice WD (WD - SHIFT - 1) 0 x;
    prg zx <- p_zg WD; opr c1 <- OCmp CEq WD x zx;
    prg zh <- p_zg SHIFT; opr c2 <- OCmp CNe SHIFT hi zh; opr c12 <- OOr 1 c1 c2;
    prg zl <- p_zg (WD - SHIFT); opr c3 <- OCmp CNe (WD - SHIFT) lo zl; opr c <- OOr 1 c12 c3;
    opr t <- OBool c; prg _ <- passert (t =? 1);
    prg z <- p_zg SHIFT; opr bit <- OCmp CEq SHIFT hi z;
    opr xs <- OShl WD x SHIFT; prg out <- p_select bit xs x; Ret (out, bit).
Fixpoint lzoc_prog (WD : Z) (WC : nat) (x : Z) : prog (Z * Z) :=
  match WC with
  | O => Ret (x, 0)
  | S k =>
      prg st <- lzoc_stage_prog WD (Z.of_nat k) x;
      prg r <- lzoc_prog WD k (fst st);
      opr count <- OCat 1 (Z.of_nat k) (snd st) (snd r); Ret (fst r, count)
  end.

(** The shift distance, 336-352. *)
Definition shift_val_prog (wE wF s expDiff : Z) : prog Z :=
  opr shiftedOut <- OCmpInt CGe (wE + 1) expDiff (wF + 2);
  if s <? wE then
    opr in_range <- OCmpInt CEq 1 shiftedOut 0; opr lo <- OSlice (wE + 1) (s - 1) 0 expDiff; opr big <- OInt s (wF + 3);
    prg v <- p_select in_range lo big; opr r <- OCast s s v; Ret r
  else if wE =? s then opr lo <- OSlice (wE + 1) (s - 1) 0 expDiff; opr r <- OCast s s lo; Ret r
  else opr z <- OInt (s - wE) 0; opr v <- OCat (s - wE) (wE + 1) z expDiff; opr r <- OCast s (s - wE + (wE + 1)) v; Ret r.
(** The aligned addition, 190-440: the unnormalised sum, with what the end needs (expX, EffSub, excRt, signR). *)
Definition add_align_prog (wE wF X Y : Z) : prog (Z * (Z * Z * Z * Z)) :=
  let s := intlog2 (wF + 3) in
  let W := wE + wF + 3 in
  opr xe <- OSlice W (wE + wF + 2) (wE + wF + 1) X; opr xf <- OSlice W (wE + wF - 1) 0 X; opr excExpFracX <- OCat 2 (wE + wF) xe xf;
  opr ye <- OSlice W (wE + wF + 2) (wE + wF + 1) Y; opr yf <- OSlice W (wE + wF - 1) 0 Y; opr excExpFracY <- OCat 2 (wE + wF) ye yf;
  opr ex <- OSlice W (wE + wF - 1) wF X; prg zx <- p_zpad_hi 1 wE ex; opr ey <- OSlice W (wE + wF - 1) wF Y; prg zy <- p_zpad_hi 1 wE ey;
  opr eXmeY <- OSub (wE + 1) zx zy;
  opr ey' <- OSlice W (wE + wF - 1) wF Y; prg zy' <- p_zpad_hi 1 wE ey'; opr ex' <- OSlice W (wE + wF - 1) wF X; prg zx' <- p_zpad_hi 1 wE ex';
  opr eYmeX <- OSub (wE + 1) zy' zx';
  opr swap <- OCmp CLt (2 + wE + wF) excExpFracX excExpFracY;
  opr keep <- OCmpInt CEq 1 swap 0; prg newX <- p_select keep X Y;
  opr keep <- OCmpInt CEq 1 swap 0; prg newY <- p_select keep Y X;
  opr expX <- OSlice W (wE + wF - 1) wF newX;
  opr excX <- OSlice W (wE + wF + 2) (wE + wF + 1) newX; opr excY <- OSlice W (wE + wF + 2) (wE + wF + 1) newY;
  opr signX <- OSlice W (wE + wF) (wE + wF) newX; opr signY <- OSlice W (wE + wF) (wE + wF) newY;
  opr EffSub <- OXor 1 signX signY;
  opr ss <- OCat 1 1 signX signY; opr ee <- OCat 2 2 excX excY; opr sXsYExnXY <- OCat 2 4 ss ee;
  opr y_zero <- OCmpInt CEq 2 excY 0; prg z1 <- p_zg (wF + 1); opr fy <- OSlice W (wF - 1) 0 newY; opr oy <- OOnesHi 1 wF fy;
  prg fracY <- p_select y_zero z1 oy;
  prg excRt <- p_lut 2 6 excRt_lut sXsYExnXY;
  prg both_zero <- p_one_of2 6 sXsYExnXY 32 16; prg z2 <- p_zg 1; prg signR <- p_select both_zero z2 signX;
  opr keep <- OCmpInt CEq 1 swap 0; prg expDiff <- p_select keep eXmeY eYmeX;
  prg shiftVal <- shift_val_prog wE wF s expDiff;
  prg preFracY <- p_zpad_lo (wF + 3) (wF + 1) fracY;
  opr sh <- OToInt s shiftVal;
  opr shiftedFracY <- OShr (2 * wF + 4) preFracY sh;
  opr low <- OSlice (2 * wF + 4) wF 0 shiftedFracY; opr sticky <- OCmpInt CNe (wF + 1) low 0;
  opr far <- OSlice (2 * wF + 4) (2 * wF + 3) (wF + 1) shiftedFracY; prg fracYfar <- p_zpad_hi 1 (wF + 3) far;
  prg ones <- p_og (wF + 4); prg zeros <- p_zg (wF + 4); prg EffSubVector <- p_select EffSub ones zeros;
  opr fracYfarXorOp <- OXor (wF + 4) fracYfar EffSubVector;
  opr lead <- OInt 2 1; opr fx <- OSlice W (wF - 1) 0 newX; prg z3 <- p_zg 2; opr fx0 <- OCat wF 2 fx z3; opr fracXfar <- OCat 2 (wF + 2) lead fx0;
  opr ns <- ONot 1 sticky; opr cInAddFar <- OAnd 1 EffSub ns;
  prg fracAddResult <- p_add_with_cin (wF + 4) fracXfar fracYfarXorOp cInAddFar;
  opr fracGRS <- OCat (wF + 4) 1 fracAddResult sticky;
  Ret (fracGRS, (expX, EffSub, excRt, signR)).
(** Normalisation, rounding and packing, 442-596. *)
Definition add_round_prog (wE wF fracGRS expX EffSub excRt signR : Z) : prog Z :=
  prg ze <- p_zpad_hi 2 wE expX; opr extendedExpInc <- OAddInt (wE + 2) ze 1;
  let wC := intlog2 (wF + 5) in
  prg lz <- lzoc_prog (wF + 5) (Z.to_nat wC) fracGRS;
  let shiftedFrac := fst lz in let nZerosNew := snd lz in
  let D := wF + 5 in
  prg zn <- p_zpad_hi (wE + 2 - wC) wC nZerosNew; opr updatedExp <- OSub (wE + 2) extendedExpInc zn;
  prg oc <- p_og wC; opr eqdiffsign <- OCmp CEq wC nZerosNew oc;
  opr top <- OSlice D (wF + 3) 3 shiftedFrac; opr expFrac <- OCat (wE + 2) (wF + 1) updatedExp top;
  opr s1 <- OSlice D 1 1 shiftedFrac; opr s0 <- OSlice D 0 0 shiftedFrac; opr stk <- OOr 1 s1 s0;
  opr rnd <- OSlice D 2 2 shiftedFrac; opr grd <- OSlice D 3 3 shiftedFrac; opr lsb <- OSlice D 4 4 shiftedFrac;
  opr c1 <- OCmpInt CEq 1 lsb 0; opr c2 <- OCmpInt CEq 1 grd 1; opr c12 <- OAnd 1 c1 c2;
  opr c3 <- OCmpInt CEq 1 rnd 0; opr c123 <- OAnd 1 c12 c3; opr c4 <- OCmpInt CEq 1 stk 0; opr c1234 <- OAnd 1 c123 c4;
  prg z1 <- p_zg 1; prg o1 <- p_og 1; prg addToRoundBit <- p_select c1234 z1 o1;
  prg RoundedExpFrac <- p_add_cin (wE + 2 + wF + 1) expFrac addToRoundBit;
  let R := wE + 2 + wF + 1 in
  opr upExc <- OSlice R (wE + wF + 2) (wE + wF + 1) RoundedExpFrac;
  opr fracR <- OSlice R wF 1 RoundedExpFrac; opr expR <- OSlice R (wF + wE) (wF + 1) RoundedExpFrac;
  opr exExpExc <- OCat 2 2 upExc excRt;
  prg excRt2 <- p_lut 2 4 excRt2_lut exExpExc;
  opr d1 <- OCmpInt CEq 1 eqdiffsign 1; opr d2 <- OCmpInt CEq 1 EffSub 1; opr d12 <- OAnd 1 d1 d2;
  opr d3 <- OCmpInt CEq 2 excRt2 1; opr d123 <- OAnd 1 d12 d3; prg z2 <- p_zg 2; prg excR <- p_select d123 z2 excRt2;
  opr d1 <- OCmpInt CEq 1 eqdiffsign 1; opr d2 <- OCmpInt CEq 1 EffSub 1; opr d12 <- OAnd 1 d1 d2;
  opr d3 <- OCmpInt CEq 2 excR 0; opr d123 <- OAnd 1 d12 d3; prg z1 <- p_zg 1; prg signR2 <- p_select d123 z1 signR;
  opr hi <- OCat 2 1 excR signR2; opr lo <- OCat wE wF expR fracR; opr r <- OCat 3 (wE + wF) hi lo; Ret r.
(** add_single, 157-596. *)
Definition add_prog (wER wFR wEX wFX wEY wFY x y : Z) : prog Z :=
  let wF := ctMax wFX wFY in
  let wE := ctMax wEX wEY in
  prg X <- promote_prog wE wF wEX wFX x;
  prg Y <- promote_prog wE wF wEY wFY y;
  prg _ <- passert ((wE =? wER) && (wF =? wFR));
  prg a <- add_align_prog wE wF X Y;
  let '(fracGRS, (expX, EffSub, excRt, signR)) := a in
  add_round_prog wE wF fracGRS expX EffSub excRt signR.
