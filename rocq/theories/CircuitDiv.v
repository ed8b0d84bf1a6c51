(** div_v1 as a sequence of fw_uint operations, in the order of the source. *)
From Coq Require Import ZArith Bool List.
From Verif Require Import Fw Flopoco Div Circuit CircuitAdd.
Import ListNotations.
Open Scope Z_scope.

(** concat_array<HI,LO>, fw_uint.hpp:663-682: x[HI] on top of the rest, from the lowest up. *)
Fixpoint cat_array_from (W WA acc : Z) (xs : list Z) : prog Z :=
  match xs with [] => Ret acc | x :: r => opr a <- OCat W WA x acc; cat_array_from W (W + WA) a r end.
Definition cat_array_prog (W : Z) (xs : list Z) : prog Z := match xs with [] => Fail | x :: r => cat_array_from W W x r end.
Fixpoint map_prog (f : Z -> prog Z) (xs : list Z) : prog (list Z) :=
  match xs with [] => Ret [] | x :: r => prg y <- f x; prg ys <- map_prog f r; Ret (y :: ys) end.

(** One iteration, fp_flopoco_div_v1.hpp:130-226. *)
Definition div_step_prog (wF fY fYTimes3 w : Z) : prog (Z * Z) :=
  opr top <- OSlice (wF + 3) (wF + 2) (wF - 1) w; opr dy <- OSlice (wF + 1) (wF - 1) (wF - 1) fY; opr sel <- OCat 4 1 top dy;
  opr i <- OToInt 5 sel; opr q <- OInt 3 (div_digit i);
  prg c1 <- p_one_of2 3 q 1 7; prg v1 <- p_zpad_hi 3 (wF + 1) fY;
  prg c2 <- p_one_of2 3 q 2 6; opr zg2 <- OInt 2 0; opr zg1 <- OInt 1 0; opr fY0 <- OCat (wF + 1) 1 fY zg1; opr v2 <- OCat 2 (wF + 2) zg2 fY0;
  prg c3 <- p_one_of2 3 q 3 5; prg v3 <- p_zpad_hi 1 (wF + 3) fYTimes3; prg v4 <- p_zg (wF + 4);
  prg s3 <- p_select c3 v3 v4; prg s2 <- p_select c2 v2 s3; prg qTimesD <- p_select c1 v1 s2;
  prg wpad <- p_zpad_lo 1 (wF + 3) w;
  opr sgn <- OSlice 3 2 2 q; opr pos <- OCmpInt CEq 1 sgn 0;
  opr diff <- OSub (wF + 4) wpad qTimesD; opr sum <- OAdd (wF + 4) wpad qTimesD; prg wfull <- p_select pos diff sum;
  opr low <- OSlice (wF + 4) (wF + 1) 0 wfull; prg w' <- p_zpad_lo 1 (wF + 2) low;
  Ret (q, w').
Fixpoint div_loop_prog (wF fY fYTimes3 : Z) (n : nat) (w : Z) (acc : list Z) : prog (list Z * Z) :=
  match n with
  | O => Ret (acc, w)
  | S n' => prg st <- div_step_prog wF fY fYTimes3 w; div_loop_prog wF fY fYTimes3 n' (snd st) (fst st :: acc)
  end.
(** q[0], 230-233. *)
Definition div_q0_prog (wF w0 : Z) : prog Z :=
  opr all <- OSlice (wF + 3) (wF + 2) 0 w0; prg z <- p_zg (wF + 3); opr none <- OCmp CEq (wF + 3) all z; opr q_zero <- OInt 3 0;
  opr sgn <- OSlice (wF + 3) (wF + 2) (wF + 2) w0; opr two <- OInt 2 2; opr q <- OCat 1 2 sgn two; p_select none q_zero q.
(** fR0, 247-299. *)
Definition div_fR0_prog (nDigit : Z) (qs : list Z) : prog Z :=
  prg qP <- map_prog (fun q => opr r <- OSlice 3 1 0 q; Ret r) qs;
  prg qM <- map_prog (fun q => opr m <- OSlice 3 2 2 q; p_zpad_lo 1 1 m) qs;
  prg qPcat <- cat_array_prog 2 qP;
  opr msb <- OSlice 2 0 0 (last qM 0); prg rest <- cat_array_prog 2 (removelast qM); opr zg1 <- OInt 1 0;
  opr lo <- OCat (2 * (nDigit - 1)) 1 rest zg1; opr qMcat <- OCat 1 (2 * (nDigit - 1) + 1) msb lo;
  opr fR0 <- OSub (2 * nDigit) qPcat qMcat; Ret fR0.
(** exnR0, 86-91. *)
Definition div_exn_prog (exnXY : Z) : prog Z :=
  opr c1 <- OCmpInt CEq 4 exnXY 5; opr v1 <- OInt 2 1;
  prg c2 <- p_one_of3 4 exnXY 1 2 6; opr v2 <- OInt 2 0;
  prg c3 <- p_one_of3 4 exnXY 4 8 9; opr v3 <- OInt 2 2; opr v4 <- OInt 2 3;
  prg s3 <- p_select c3 v3 v4; prg s2 <- p_select c2 v2 s3; p_select c1 v1 s2.
(** 311-401. og<wE-2>() on top of a bit is written as opad_hi<wE-2>. *)
Definition div_finish_prog (wE wF nDigit fR0 expR0 sR exnR0 : Z) : prog Z :=
  let D := 2 * nDigit in
  prg fR <- (if wF mod 2 =? 1 then opr t <- OSlice D (D - 1) 1 fR0; opr r <- OCast (4 + wF) (D - 1) t; Ret r
             else opr t <- OSlice D (D - 1) 3 fR0; opr b2 <- OSlice D 2 2 fR0; opr b1 <- OSlice D 1 1 fR0; opr b <- OOr 1 b2 b1;
                  opr tb <- OCat (D - 3) 1 t b; opr r <- OCast (4 + wF) (D - 3 + 1) tb; Ret r);
  opr n <- OSlice (4 + wF) (wF + 3) (wF + 3) fR;
  opr h <- OSlice (4 + wF) (wF + 2) 2 fR; opr b1 <- OSlice (4 + wF) 1 1 fR; opr b0 <- OSlice (4 + wF) 0 0 fR; opr b <- OOr 1 b1 b0; opr hb <- OCat (wF + 1) 1 h b;
  opr l <- OSlice (4 + wF) (wF + 1) 0 fR; prg fRn1 <- p_select n hb l;
  prg _ <- passert (0 <=? wE - 2);
  opr zg3 <- OInt 3 0; opr top <- OSlice (4 + wF) (wF + 3) (wF + 3) fR; opr ot <- OOnesHi (wE - 2) 1 top; opr bias <- OCat 3 (wE - 1) zg3 ot;
  opr expR1 <- OAdd (wE + 2) expR0 bias;
  let N := wF + 2 in
  opr r1 <- OSlice N 1 1 fRn1; opr r2 <- OSlice N 2 2 fRn1; opr r0 <- OSlice N 0 0 fRn1; opr r20 <- OOr 1 r2 r0; opr round <- OAnd 1 r1 r20;
  opr f <- OSlice N (wF + 1) 2 fRn1; opr expfrac <- OCat (wE + 2) wF expR1 f;
  opr z <- OInt (wE + wF + 1) 0; opr rr <- OCat (wE + wF + 1) 1 z round; opr expfracR <- OAdd (wE + wF + 2) expfrac rr;
  opr u <- OSlice (wE + wF + 2) (wE + wF + 1) (wE + wF + 1) expfracR; opr under <- OCmpInt CEq 1 u 1; opr v0 <- OInt 2 0;
  opr o <- OSlice (wE + wF + 2) (wE + wF + 1) (wE + wF) expfracR; opr over <- OCmpInt CEq 2 o 1; opr v2 <- OInt 2 2; opr v1 <- OInt 2 1;
  prg s1 <- p_select over v2 v1; prg exnR <- p_select under v0 s1;
  opr normal <- OCmpInt CEq 2 exnR0 1; prg exnRfinal <- p_select normal exnR exnR0;
  opr body <- OSlice (wE + wF + 2) (wE + wF - 1) 0 expfracR; opr sb <- OCat 1 (wE + wF) sR body;
  opr R <- OCat 2 (1 + (wE + wF)) exnRfinal sb; Ret R.
(** 49-403. *)
Definition div_body_prog (wE wF X Y : Z) : prog Z :=
  let nDigit := (wF + 6) / 2 in
  let W := wE + wF + 3 in
  opr x <- OSlice W (wF - 1) 0 X; opr fX <- OOnesHi 1 wF x; opr y <- OSlice W (wF - 1) 0 Y; opr fY <- OOnesHi 1 wF y;
  opr ex <- OSlice W (wE + wF - 1) wF X; prg zx <- p_zpad_hi 2 wE ex; opr ey <- OSlice W (wE + wF - 1) wF Y; prg zy <- p_zpad_hi 2 wE ey;
  opr expR0 <- OSub (wE + 2) zx zy;
  opr sx <- OSlice W (wE + wF) (wE + wF) X; opr sy <- OSlice W (wE + wF) (wE + wF) Y; opr sR <- OXor 1 sx sy;
  opr cx <- OSlice W (wE + wF + 2) (wE + wF + 1) X; opr cy <- OSlice W (wE + wF + 2) (wE + wF + 1) Y; opr exnXY <- OCat 2 2 cx cy;
  prg exnR0 <- div_exn_prog exnXY;
  prg y1 <- p_zpad_hi 2 (wF + 1) fY; opr za <- OInt 1 0; opr zb <- OInt 1 0; opr fY0 <- OCat (wF + 1) 1 fY zb; opr y2 <- OCat 1 (wF + 2) za fY0; opr fYTimes3 <- OAdd (wF + 3) y1 y2;
  prg w <- p_zpad_hi 2 (wF + 1) fX;
  prg lp <- div_loop_prog wF fY fYTimes3 (Z.to_nat (nDigit - 1)) w [];
  prg q0 <- div_q0_prog wF (snd lp);
  prg fR0 <- div_fR0_prog nDigit (q0 :: fst lp);
  div_finish_prog wE wF nDigit fR0 expR0 sR exnR0.
(** div_v1, 28-47. *)
Definition div_prog (wER wFR wEX wFX wEY wFY x y : Z) : prog Z :=
  let wF := ctMax wFR (ctMax wFX wFY) in
  let wE := ctMax wER (ctMax wEX wEY) in
  prg X <- promote_prog wE wF wEX wFX x;
  prg Y <- promote_prog wE wF wEY wFY y;
  prg _ <- passert ((wE =? wER) && (wF =? wFR));
  div_body_prog wE wF X Y.
