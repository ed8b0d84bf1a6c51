(** Model of mul_v1 (include/thls/tops/fp_flopoco_mul_v1.hpp). *)
From Coq Require Import ZArith Bool.
From Verif Require Import Fw.
Open Scope Z_scope.

(** Exception table, fp_flopoco_mul_v1.hpp:61-70. *)
Definition mul_exc (excSel : Z) : Z :=
  if (excSel =? 0) || (excSel =? 1) || (excSel =? 4) then 0
  else if excSel =? 5 then 1
  else if (excSel =? 6) || (excSel =? 9) || (excSel =? 10) then 2
  else 3.

(** mul_v1<wER,wFR,wE,wFX,wE,wFY>(x,y), fp_flopoco_mul_v1.hpp:9-153, statement by statement.
    wEX and wEY are the same wE because line 24 adds fw_uint<wEX+2> and fw_uint<wEY+2>
    and would not compile otherwise.  Simplification: the C++ int expression
    (1<<(wER-1))-1 of line 25 is computed in Z (wER<=31 in C++); debug output is dropped. *)
Definition mul_v1 (wER wFR wE wFX wFY X Y : Z) : option Z :=
  let WX := wE + wFX + 3 in
  let WY := wE + wFY + 3 in
  (* 17 *)
  do sX <- get_bit WX (wE + wFX) X;
  do sY <- get_bit WY (wE + wFY) Y;
  let sign := fxor 1 sX sY in
  (* 20-33 *)
  do expX <- get_bits WX (wE + wFX - 1) wFX X;
  do expY <- get_bits WY (wE + wFY - 1) wFY Y;
  let expSumPreSub := fadd (wE + 2) (zpad_hi 2 wE expX) (zpad_hi 2 wE expY) in
  do bias <- of_int (wE + 2) (2 ^ (wER - 1) - 1);
  let expSum := fsub (wE + 2) expSumPreSub bias in
  (* 36-41 *)
  do fX <- get_bits WX (wFX - 1) 0 X;
  do fY <- get_bits WY (wFY - 1) 0 Y;
  let sigX := opad_hi 1 wFX fX in
  let sigY := opad_hi 1 wFY fY in
  let sigProdSize := wFX + 1 + wFY + 1 in
  let sigProd := fmul sigX sigY in
  (* 52-70 *)
  do excX <- get_bits WX (wE + wFX + 2) (wE + wFX + 1) X;
  do excY <- get_bits WY (wE + wFY + 2) (wE + wFY + 1) Y;
  let excSel := cat 2 excX excY in
  let exc := mul_exc excSel in
  (* 78-86 *)
  do norm <- get_bit sigProdSize (sigProdSize - 1) sigProd;
  let expPostNorm := fadd (wE + 2) expSum (zpad_hi (wE + 1) 1 norm) in
  if wFX + wFY + 2 <=? 1 + wFR then
    (* 98-117: no rounding needed *)
    do hi1 <- get_bits sigProdSize (wFX + wFY) 0 sigProd;
    do hi0 <- get_bits sigProdSize (wFX + wFY - 1) 0 sigProd;
    let resSig := select norm
                    (cat (1 + wFR - (wFX + wFY + 2)) hi1 (zg (1 + wFR - (wFX + wFY + 2))))
                    (cat (1 + wFR - (wFX + wFY + 2) + 1) hi0 (zg (1 + wFR - (wFX + wFY + 2) + 1))) in
    do expPostNormB <- get_bits (wE + 2) (wER + 1) wER expPostNorm;
    let excPostNorm := if expPostNormB =? 0 then 1
                       else if expPostNormB =? 1 then 2
                       else if (expPostNormB =? 3) || (expPostNormB =? 2) then 3 else 3 in
    let finalExc := if (exc =? 3) || (exc =? 2) || (exc =? 0) then exc else excPostNorm in
    do expR <- get_bits (wE + 2) (wER - 1) 0 expPostNorm;
    Some (cat (wER + wFR) (cat 1 finalExc sign) (cat wFR expR resSig))
  else
    (* 119-149: rounding *)
    do lo1 <- get_bits sigProdSize (sigProdSize - 2) 0 sigProd;
    do lo0 <- get_bits sigProdSize (sigProdSize - 3) 0 sigProd;
    let sigProdExt := select norm (cat 1 lo1 (zg 1)) (cat 2 lo0 (zg 2)) in
    do top <- get_bits sigProdSize (sigProdSize - 1) (sigProdSize - wFR) sigProdExt;
    do expSig <- checked_cast (2 + wER + wFR) (wE + 2 + wFR) (cat wFR expPostNorm top);
    do sticky <- get_bit sigProdSize (wFX + wFY + 1 - wFR) sigProdExt;
    do rest <- get_bits sigProdSize (wFX + wFY + 1 - wFR - 1) 0 sigProdExt;
    let guard := if rest =? 0 then 0 else 1 in
    do lsb <- get_bit sigProdSize (wFX + wFY + 1 - wFR + 1) sigProdExt;
    let round := fand sticky (for_ 1 (fand guard (fnot 1 lsb)) lsb) in
    let expSigPostRound := fadd (2 + wER + wFR) expSig (zpad_hi (2 + wER + wFR - 1) 1 round) in
    do expSigPostRoundB <- get_bits (2 + wER + wFR) (wER + wFR + 1) (wER + wFR) expSigPostRound;
    let excPostNorm := if expSigPostRoundB =? 0 then 1
                       else if expSigPostRoundB =? 1 then 2
                       else if (expSigPostRoundB =? 3) || (expSigPostRoundB =? 2) then 0 else 3 in
    let finalExc := if (exc =? 3) || (exc =? 2) || (exc =? 0) then exc else excPostNorm in
    do body <- get_bits (2 + wER + wFR) (wER + wFR - 1) 0 expSigPostRound;
    Some (cat (wER + wFR) (cat 1 finalExc sign) body).

(** mul<wER,wFR>(x,y) and square<wER,wFR>(x): include/thls/tops/fp_flopoco_primitives.hpp
    (both forward to mul_v1). *)
Definition mul := mul_v1.
Definition square (wER wFR wE wFX X : Z) : option Z := mul_v1 wER wFR wE wFX wFX X X.
