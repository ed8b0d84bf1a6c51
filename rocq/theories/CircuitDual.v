(** add_dual and fma as sequences of fw_uint operations, in the order of the source. *)
From Coq Require Import ZArith Bool List.
From Verif Require Import Fw Flopoco AddSingle AddDual Fma Circuit CircuitMul CircuitAdd CircuitCmp.
Open Scope Z_scope.

(** shiftedOut and shiftVal, fp_flopoco_add_dual_v1.hpp:118-152; s is sizeRightShift. *)
Definition dual_shift_prog (wE wF s d : Z) : prog Z :=
  if s <? wE then
    opr hi <- OSlice wE (wE - 1) s d; opr out <- OCmpInt CNe (wE - s) hi 0; opr nout <- ONot 1 out;
    opr lo <- OSlice wE (s - 1) 0 d; opr big <- OInt s (wF + 3); prg v <- p_select nout lo big; opr r <- OCast s s v; Ret r
  else prg _ <- p_zg 1;
    if wE =? s then opr r <- OCast s wE d; Ret r
    else prg z <- p_zg (s - wE); opr c <- OCat (s - wE) wE z d; opr r <- OCast s (s - wE + wE) c; Ret r.
(** The close path, 184-318: (resultBeforeRoundClose, roundClose, resultCloseIsZero, resSign). *)
Definition dual_close_prog (wE wF newX newY d selectClosePath : Z) : prog (Z * Z * Z * Z) :=
  let W := wE + wF + 3 in
  opr x01 <- OInt 2 1; opr fx <- OSlice W (wF - 1) 0 newX; opr x1 <- OCat 2 wF x01 fx; prg x0 <- p_zg 1; opr fracXClose1 <- OCat (2 + wF) 1 x1 x0;
  opr d0 <- OSlice wE 0 0 d;
  opr y001 <- OInt 3 1; opr fy <- OSlice W (wF - 1) 0 newY; opr yc <- OCat 3 wF y001 fy;
  opr y01 <- OInt 2 1; opr fy' <- OSlice W (wF - 1) 0 newY; opr y1 <- OCat 2 wF y01 fy'; prg y0 <- p_zg 1; opr ye <- OCat (2 + wF) 1 y1 y0;
  prg fracYClose1 <- p_select d0 yc ye;
  opr fracRClosexMy <- OSub (wF + 3) fracXClose1 fracYClose1; opr fracRCloseyMx <- OSub (wF + 3) fracYClose1 fracXClose1;
  opr fracSignClose <- OSlice (wF + 3) (wF + 2) (wF + 2) fracRClosexMy;
  opr nsg <- ONot 1 fracSignClose; opr a1 <- OSlice (wF + 3) (wF + 1) 0 fracRClosexMy; opr a2 <- OSlice (wF + 3) (wF + 1) 0 fracRCloseyMx;
  prg fracRClose1 <- p_select nsg a1 a2;
  prg zf <- p_zg (wF + 2); opr isz <- OCmp CEq (wF + 2) fracRClose1 zf; opr cz <- OAnd 1 selectClosePath isz; prg z1 <- p_zg 1;
  opr sx <- OSlice W (wE + wF) (wE + wF) newX; opr cs <- OAnd 1 selectClosePath fracSignClose; opr sr <- OXor 1 sx cs;
  prg resSign <- p_select cz z1 sr;
  let wC := intlog2 (wF + 2) in
  prg lz <- lzoc_prog (wF + 2) (Z.to_nat wC) fracRClose1;
  let '(shiftedFrac, nZerosNew) := lz in
  opr b0 <- OSlice (wF + 2) 0 0 shiftedFrac; opr b1 <- OSlice (wF + 2) 1 1 shiftedFrac; opr roundClose0 <- OAnd 1 b0 b1;
  prg ones <- p_og wC; opr resultCloseIsZero0 <- OCmp CEq wC nZerosNew ones;
  prg _ <- passert (0 <=? wE - wC + 2);
  opr ex <- OSlice W (wE + wF - 1) wF newX; prg ex2 <- p_zpad_hi 2 wE ex; prg nz <- p_zpad_hi (wE - wC + 2) wC nZerosNew;
  opr exponentResultClose <- OSub (wE + 2) ex2 nz;
  opr er <- OSlice (wE + 2) (wE + 1) 0 exponentResultClose; opr fr <- OSlice (wF + 2) wF 1 shiftedFrac; opr before <- OCat (wE + 2) wF er fr;
  Ret (before, roundClose0, resultCloseIsZero0, resSign).
(** select(fracLeadingBits==0b00,a,fracLeadingBits==0b01,b,c), on cg<2> and, for the exponent, on int: 435-510. *)
Definition leading_prog (l a b c : Z) : prog Z :=
  opr k0 <- OInt 2 0; opr c0 <- OCmp CEq 2 l k0; opr k1 <- OInt 2 1; opr c1 <- OCmp CEq 2 l k1; prg r <- p_select c1 b c; p_select c0 a r.
(** The far path, 321-566: (resultBeforeRoundFar, roundFar). *)
Definition dual_far_prog (wE wF newX newY EffSub shiftVal : Z) : prog (Z * Z) :=
  let W := wE + wF + 3 in
  opr fy <- OSlice W (wF - 1) 0 newY; opr fracNewY <- OOnesHi 1 wF fy;
  let pad1 := dual_pad wF in
  let V := 2 * wF + 4 + pad1 in
  prg preFracNewY <- p_zpad_lo (wF + 3 + pad1) (wF + 1) fracNewY;
  opr sh <- OToInt (intlog2 (wF + 3)) shiftVal; opr shiftedFracYp <- OShr V preFracNewY sh;
  opr shiftedFracY <- OSlice V (V - 1) pad1 shiftedFracYp;
  opr tl <- OSlice (2 * wF + 4) wF 0 shiftedFracY; prg tz <- p_zg (wF + 1); opr sticky <- OCmp CNe (wF + 1) tl tz;
  opr fh <- OSlice (2 * wF + 4) (2 * wF + 3) (wF + 1) shiftedFracY; prg fracYfar <- p_zpad_hi 1 (wF + 3) fh;
  prg ones <- p_og (wF + 4); prg zeros <- p_zg (wF + 4); prg EffSubVector <- p_select EffSub ones zeros;
  opr fracYfarXorOp <- OXor (wF + 4) fracYfar EffSubVector;
  opr x01 <- OInt 2 1; opr fx <- OSlice W (wF - 1) 0 newX; opr x1 <- OCat 2 wF x01 fx; opr x00 <- OInt 2 0; opr fracXfar <- OCat (2 + wF) 2 x1 x00;
  opr ns <- ONot 1 sticky; opr cInAddFar <- OAnd 1 EffSub ns;
  prg sum <- p_add_with_cin (wF + 4) fracXfar fracYfarXorOp cInAddFar;
  opr fracLeadingBits <- OSlice (wF + 4) (wF + 3) (wF + 2) sum;
  opr f0 <- OSlice (wF + 4) wF 1 sum; opr f1 <- OSlice (wF + 4) (wF + 1) 2 sum; opr f2 <- OSlice (wF + 4) (wF + 2) 3 sum;
  prg fracResultFar1 <- leading_prog fracLeadingBits f0 f1 f2;
  opr b0 <- OSlice (wF + 4) 0 0 sum; opr b1 <- OSlice (wF + 4) 1 1 sum; opr b2 <- OSlice (wF + 4) 2 2 sum;
  prg fracResultRoundBit <- leading_prog fracLeadingBits b0 b1 b2;
  opr s1 <- OOr 1 sticky b0; opr s1' <- OOr 1 sticky b0; opr s2 <- OOr 1 s1' b1;
  prg fracResultStickyBit <- leading_prog fracLeadingBits sticky s1 s2;
  opr lsb <- OSlice wF 0 0 fracResultFar1; opr sl <- OOr 1 fracResultStickyBit lsb; opr roundFar1 <- OAnd 1 fracResultRoundBit sl;
  opr i0 <- OCmpInt CEq 2 fracLeadingBits 0; opr m1 <- OInt 2 3; opr i1 <- OCmpInt CEq 2 fracLeadingBits 1; opr p0 <- OInt 2 0; opr p1 <- OInt 2 1;
  prg e1 <- p_select i1 p0 p1; prg expOperationSel <- p_select i0 m1 e1;
  opr eh <- OSlice 2 1 1 expOperationSel; prg eo <- p_og (wE + 1); prg ez <- p_zg (wE + 1); prg cb <- p_select eh eo ez;
  opr el <- OSlice 2 0 0 expOperationSel; opr exponentUpdate <- OCat (wE + 1) 1 cb el;
  opr ex <- OSlice W (wF + wE - 1) wF newX; prg exponentResultfar0 <- p_zpad_hi 2 wE ex;
  opr exponentResultFar1 <- OAdd (wE + 2) exponentResultfar0 exponentUpdate;
  opr before <- OCat (wE + 2) wF exponentResultFar1 fracResultFar1;
  Ret (before, roundFar1).
(** Selection, rounding and exceptions, 568-783. *)
Definition dual_final_prog (wE wF newX newY EffSub syncClose : Z) (close : Z * Z * Z * Z) (far : Z * Z) : prog Z :=
  let '(resultBeforeRoundClose, roundClose, resultCloseIsZero, resSign) := close in
  let '(resultBeforeRoundFar, roundFar) := far in
  let W := wE + wF + 3 in
  opr ecX <- OSlice W (wE + wF + 2) (wE + wF + 1) newX; opr ecY <- OSlice W (wE + wF + 2) (wE + wF + 1) newY; opr sdExnXY <- OCat 2 2 ecX ecY;
  opr signY <- OSlice W (wE + wF) (wE + wF) newY;
  prg resultBeforeRound <- p_select syncClose resultBeforeRoundClose resultBeforeRoundFar;
  prg round <- p_select syncClose roundClose roundFar;
  opr zeroFromClose <- OAnd 1 syncClose resultCloseIsZero;
  prg resultRounded <- p_add_cin (2 + wE + wF) resultBeforeRound round;
  opr uo <- OSlice (2 + wE + wF) (wE + 1 + wF) (wE + wF) resultRounded;
  opr u1 <- OCmpInt CEq 2 uo 1; opr nz <- ONot 1 zeroFromClose; prg z1 <- p_zg 1; opr v1 <- OCat 1 1 nz z1;
  prg u23 <- p_one_of2 2 uo 2 3; opr v2 <- OInt 2 0;
  opr nz' <- ONot 1 zeroFromClose; prg v3 <- p_zpad_hi 1 1 nz';
  prg h2 <- p_select u23 v2 v3; prg resultNoExnHi <- p_select u1 v1 h2;
  opr rl <- OSlice (2 + wE + wF) (wE + wF - 1) 0 resultRounded; opr resultNoExnLo <- OCat 1 (wE + wF) resSign rl;
  opr resultNoExn <- OCat 2 (wE + wF + 1) resultNoExnHi resultNoExnLo;
  prg exnR <-
    (opr c5 <- OCmpInt CEq 4 sdExnXY 5; opr t5 <- OBool c5;
     if t5 =? 1 then opr r <- OSlice W (wE + wF + 2) (wE + wF + 1) resultNoExn; Ret r
     else opr c10 <- OCmpInt CEq 4 sdExnXY 10; opr t10 <- OBool c10;
     if t10 =? 1 then opr r <- OOnesHi 1 1 EffSub; Ret r
     else opr c14 <- OCmpInt CEq 4 sdExnXY 14; opr t14 <- OBool c14;
     if t14 =? 1 then opr r <- OInt 2 3; Ret r
     else opr r <- OSlice 4 3 2 sdExnXY; Ret r);
  opr g5 <- OCmpInt CEq 4 sdExnXY 5; opr gs <- OSlice W (wE + wF) (wE + wF) resultNoExn;
  opr g0 <- OCmpInt CEq 4 sdExnXY 0; opr sx <- OSlice W (wE + wF) (wE + wF) newX; opr sxy <- OAnd 1 sx signY; opr sx' <- OSlice W (wE + wF) (wE + wF) newX;
  prg q0 <- p_select g0 sxy sx'; prg sgnR <- p_select g5 gs q0;
  opr w5 <- OCmpInt CEq 4 sdExnXY 5; opr wn <- OSlice W (wE + wF - 1) 0 resultNoExn; opr wx <- OSlice W (wE + wF - 1) 0 newX;
  prg expsigR <- p_select w5 wn wx;
  opr es <- OCat 1 (wE + wF) sgnR expsigR; opr R <- OCat 2 (1 + (wE + wF)) exnR es; Ret R.
(** add_dual, 12-783. *)
Definition dual_body_prog (wE wF inX inY : Z) : prog Z :=
  let W := wE + wF + 3 in
  opr eX <- OSlice W (wE + wF + 2) (wE + wF + 1) inX; opr eY <- OSlice W (wE + wF + 2) (wE + wF + 1) inY; opr superior <- OCmp CGe 2 eX eY;
  opr eX' <- OSlice W (wE + wF + 2) (wE + wF + 1) inX; opr eY' <- OSlice W (wE + wF + 2) (wE + wF + 1) inY; opr same <- OCmp CEq 2 eX' eY';
  opr xX <- OSlice W (wE + wF - 1) wF inX; prg signedExponentX <- p_zpad_hi 1 wE xX;
  opr xY <- OSlice W (wE + wF - 1) wF inY; prg signedExponentY <- p_zpad_hi 1 wE xY;
  opr dXY <- OSub (wE + 1) signedExponentX signedExponentY;
  opr mY <- OSlice (wE + 1) (wE - 1) 0 signedExponentY; opr mX <- OSlice (wE + 1) (wE - 1) 0 signedExponentX; opr dYX <- OSub wE mY mX;
  opr neg <- OSlice (wE + 1) wE wE dXY; opr sn <- OAnd 1 same neg; opr ns <- ONot 1 superior; opr swap <- OOr 1 sn ns;
  prg newX <- p_select swap inY inX; prg newY <- p_select swap inX inY;
  opr lYX <- OSlice wE (wE - 1) 0 dYX; opr lXY <- OSlice (wE + 1) (wE - 1) 0 dXY; prg exponentDifference <- p_select swap lYX lXY;
  prg shiftVal <- dual_shift_prog wE wF (intlog2 (wF + 3)) exponentDifference;
  opr sX <- OSlice W (wE + wF) (wE + wF) newX; opr sY <- OSlice W (wE + wF) (wE + wF) newY; opr EffSub <- OXor 1 sX sY;
  opr dh <- OSlice wE (wE - 1) 1 exponentDifference; prg dz <- p_zg (wE - 1); opr near <- OCmp CEq (wE - 1) dh dz; prg z1 <- p_zg 1;
  prg selectClosePath <- p_select near EffSub z1;
  prg close <- dual_close_prog wE wF newX newY exponentDifference selectClosePath;
  prg far <- dual_far_prog wE wF newX newY EffSub shiftVal;
  dual_final_prog wE wF newX newY EffSub selectClosePath close far.
Definition dual_prog (wER wFR wEX wFX wEY wFY x y : Z) : prog Z :=
  let wF := ctMax wFX wFY in
  let wE := ctMax wEX wEY in
  prg X <- promote_prog wE wF wEX wFX x;
  prg Y <- promote_prog wE wF wEY wFY y;
  prg _ <- passert ((wE =? wER) && (wF =? wFR) && (3 <? wE));
  dual_body_prog wE wF X Y.

(** fma, fp_flopoco_fma.hpp:18-65. *)
Definition fma_prog (wER wFR wEX wFX wEY wFY wEZ wFZ x y z : Z) : prog Z :=
  let wEXY := fma_wEXY wEX wEY in
  let wFXY := fma_wFXY wFX wFY in
  let wEXYZ := fma_wEXYZ wEX wEY wEZ in
  let wFXYZ := fma_wFXYZ wFX wFY wFZ in
  prg xx <- convert_prog wEXY wFX wEX wFX x;
  prg yy <- convert_prog wEXY wFY wEY wFY y;
  prg xy <- mul_prog wEXY wFXY wEXY wFX wFY xx yy;
  prg xyxy <- convert_prog wEXYZ wFXYZ wEXY wFXY xy;
  prg zz <- convert_prog wEXYZ wFXYZ wEZ wFZ z;
  prg xyz <- dual_prog wEXYZ wFXYZ wEXYZ wFXYZ wEXYZ wFXYZ xyxy zz;
  convert_prog wER wFR wEXYZ wFXYZ xyz.
