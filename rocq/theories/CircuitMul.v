(** mul_v1 as a sequence of fw_uint operations, in the order of the source. *)
From Coq Require Import ZArith Bool List.
From Verif Require Import Fw Circuit.
Open Scope Z_scope.

(** The exception table, fp_flopoco_mul_v1.hpp:61-70. *)
Definition mul_exc_prog (excSel : Z) : prog Z :=
  prg c0 <- p_one_of3 4 excSel 0 1 4; opr t0 <- OBool c0;
  if t0 =? 1 then opr r <- OInt 2 0; Ret r
  else opr c1 <- OCmpInt CEq 4 excSel 5; opr t1 <- OBool c1;
  if t1 =? 1 then opr r <- OInt 2 1; Ret r
  else prg c2 <- p_one_of3 4 excSel 6 9 10; opr t2 <- OBool c2;
  if t2 =? 1 then opr r <- OInt 2 2; Ret r
  else opr r <- OInt 2 3; Ret r.
(** select(b==0,1, b==1,2, b==3||b==2,last, 3), 104-109 and 139-142; select(exc==3||exc==2||exc==0, exc, excPostNorm), 111 and 144. *)
Definition mul_final_prog (b last exc : Z) : prog Z :=
  opr b0 <- OCmpInt CEq 2 b 0; opr v0 <- OInt 2 1;
  opr b1 <- OCmpInt CEq 2 b 1; opr v1 <- OInt 2 2;
  prg b2 <- p_one_of2 2 b 3 2; opr v2 <- OInt 2 last; opr v3 <- OInt 2 3;
  prg s2 <- p_select b2 v2 v3; prg s1 <- p_select b1 v1 s2; prg excPostNorm <- p_select b0 v0 s1;
  prg e <- p_one_of3 2 exc 3 2 0; p_select e exc excPostNorm.
(** mul_v1<wER,wFR,wE,wFX,wE,wFY>(x,y), 9-153. *)
Definition mul_prog (wER wFR wE wFX wFY X Y : Z) : prog Z :=
  let WX := wE + wFX + 3 in
  let WY := wE + wFY + 3 in
  opr sX <- OSlice WX (wE + wFX) (wE + wFX) X;
  opr sY <- OSlice WY (wE + wFY) (wE + wFY) Y;
  opr sign <- OXor 1 sX sY;
  opr expX <- OSlice WX (wE + wFX - 1) wFX X;
  opr expY <- OSlice WY (wE + wFY - 1) wFY Y;
  prg zX <- p_zpad_hi 2 wE expX;
  prg zY <- p_zpad_hi 2 wE expY;
  opr expSumPreSub <- OAdd (wE + 2) zX zY;
  opr bias <- OInt (wE + 2) (2 ^ (wER - 1) - 1);
  opr expSum <- OSub (wE + 2) expSumPreSub bias;
  opr fX <- OSlice WX (wFX - 1) 0 X;
  opr fY <- OSlice WY (wFY - 1) 0 Y;
  opr sigX <- OOnesHi 1 wFX fX;
  opr sigY <- OOnesHi 1 wFY fY;
  let sigProdSize := wFX + 1 + wFY + 1 in
  opr sigProd <- OMul (1 + wFX) (1 + wFY) sigX sigY;
  opr excX <- OSlice WX (wE + wFX + 2) (wE + wFX + 1) X;
  opr excY <- OSlice WY (wE + wFY + 2) (wE + wFY + 1) Y;
  opr excSel <- OCat 2 2 excX excY;
  prg exc <- mul_exc_prog excSel;
  opr norm <- OSlice sigProdSize (sigProdSize - 1) (sigProdSize - 1) sigProd;
  prg zn <- p_zpad_hi (wE + 1) 1 norm;
  opr expPostNorm <- OAdd (wE + 2) expSum zn;
  if wFX + wFY + 2 <=? 1 + wFR then
    let pad := 1 + wFR - (wFX + wFY + 2) in
    opr hi1 <- OSlice sigProdSize (wFX + wFY) 0 sigProd;
    opr z1 <- OInt pad 0; opr r1 <- OCat (wFX + wFY + 1) pad hi1 z1;
    opr hi0 <- OSlice sigProdSize (wFX + wFY - 1) 0 sigProd;
    opr z0 <- OInt (pad + 1) 0; opr r0 <- OCat (wFX + wFY) (pad + 1) hi0 z0;
    prg resSig <- p_select norm r1 r0;
    opr b <- OSlice (wE + 2) (wER + 1) wER expPostNorm;
    prg finalExc <- mul_final_prog b 3 exc;
    opr expR <- OSlice (wE + 2) (wER - 1) 0 expPostNorm;
    opr hi <- OCat 2 1 finalExc sign; opr lo <- OCat wER wFR expR resSig;
    opr R <- OCat 3 (wER + wFR) hi lo; Ret R
  else
    opr n1 <- OCmpInt CEq 1 norm 1;
    opr lo1 <- OSlice sigProdSize (sigProdSize - 2) 0 sigProd;
    opr z1 <- OInt 1 0; opr e1 <- OCat (sigProdSize - 1) 1 lo1 z1;
    opr lo0 <- OSlice sigProdSize (sigProdSize - 3) 0 sigProd;
    opr z0 <- OInt 2 0; opr e0 <- OCat (sigProdSize - 2) 2 lo0 z0;
    prg sigProdExt <- p_select n1 e1 e0;
    opr top <- OSlice sigProdSize (sigProdSize - 1) (sigProdSize - wFR) sigProdExt;
    opr et <- OCat (wE + 2) wFR expPostNorm top;
    opr expSig <- OCast (2 + wER + wFR) (wE + 2 + wFR) et;
    opr sticky <- OSlice sigProdSize (wFX + wFY + 1 - wFR) (wFX + wFY + 1 - wFR) sigProdExt;
    opr rest <- OSlice sigProdSize (wFX + wFY + 1 - wFR - 1) 0 sigProdExt;
    opr zr <- OInt (wFX + wFY + 1 - wFR) 0;
    opr none <- OCmp CEq (wFX + wFY + 1 - wFR) rest zr;
    opr g0 <- OInt 1 0; opr g1 <- OInt 1 1;
    prg guard <- p_select none g0 g1;
    opr lsb <- OSlice sigProdSize (wFX + wFY + 1 - wFR + 1) (wFX + wFY + 1 - wFR + 1) sigProdExt;
    opr nl <- ONot 1 lsb; opr gl <- OAnd 1 guard nl; opr orl <- OOr 1 gl lsb;
    opr round <- OAnd 1 sticky orl;
    prg zr <- p_zpad_hi (2 + wER + wFR - 1) 1 round;
    opr expSigPostRound <- OAdd (2 + wER + wFR) expSig zr;
    opr b <- OSlice (2 + wER + wFR) (wER + wFR + 1) (wER + wFR) expSigPostRound;
    prg finalExc <- mul_final_prog b 0 exc;
    opr body <- OSlice (2 + wER + wFR) (wER + wFR - 1) 0 expSigPostRound;
    opr sb <- OCat 1 (wER + wFR) sign body;
    opr R <- OCat 2 (1 + (wER + wFR)) finalExc sb; Ret R.
