(** Model of the radix-4 dividers (include/thls/tops/fp_flopoco_div_v1.hpp, _v2.hpp). *)
From Coq Require Import ZArith Bool List.
From Verif Require Import Fw Flopoco.
Import ListNotations.
Open Scope Z_scope.

(** Quotient digit table, fp_flopoco_div_v1.hpp:175-190: three-bit two's complement code. *)
Definition div_digit (sel : Z) : Z :=
  match sel with
  | 2 | 3 => 1
  | 4 | 5 | 7 => 2
  | 6 | 8 | 9 | 10 | 11 | 13 | 15 => 3
  | 24 | 22 | 23 | 20 | 21 | 19 | 17 => 5
  | 26 | 27 | 25 => 6
  | 28 | 29 => 7
  | _ => 0
  end.

(** One iteration of the loop 130-226: (q[i], w[i-1]) from w[i]. *)
Definition div_step (wF fY w : Z) : Z * Z :=
  let fYTimes3 := fadd (wF + 3) (zpad_hi 2 (wF + 1) fY) (cat 1 (cat (wF + 1) (zg 1) fY) (zg 1)) in
  let sel := cat 1 (bits (wF + 2) (wF - 1) w) (bits (wF - 1) (wF - 1) fY) in
  let q := div_digit sel in
  let qTimesD :=
    if (q =? 1) || (q =? 7) then zpad_hi 3 (wF + 1) fY
    else if (q =? 2) || (q =? 6) then cat 1 (cat (wF + 1) (zg 2) fY) (zg 1)
    else if (q =? 3) || (q =? 5) then zpad_hi 1 (wF + 3) fYTimes3
    else zg (wF + 4) in
  let wpad := zpad_lo 1 (wF + 3) w in
  let wfull := if bits 2 2 q =? 0 then fsub (wF + 4) wpad qTimesD else fadd (wF + 4) wpad qTimesD in
  (q, zpad_lo 1 (wF + 2) (bits (wF + 1) 0 wfull)).

(** The loop: n iterations starting from w; the digits are accumulated lowest index first. *)
Fixpoint div_loop (wF fY : Z) (n : nat) (w : Z) (acc : list Z) : list Z * Z :=
  match n with
  | O => (acc, w)
  | S n' => let '(q, w') := div_step wF fY w in div_loop wF fY n' w' (q :: acc)
  end.

(** q[0], lines 230-233. *)
Definition div_q0 (wF w0 : Z) : Z :=
  if bits (wF + 2) 0 w0 =? 0 then 0 else cat 2 (bits (wF + 2) (wF + 2) w0) 2.

(** fR0 = qP - qM, lines 247-299, from the digits q[0..nDigit-1]. *)
Definition div_fR0 (nDigit : Z) (qs : list Z) : Z :=
  let qP := map (fun q => bits 1 0 q) qs in
  let qM := map (fun q => zpad_lo 1 1 (bits 2 2 q)) qs in
  let qPcat := concat_array 2 qP in
  let qMcat := cat 1 (cat (2 * (nDigit - 1)) (bits 0 0 (last qM 0)) (concat_array 2 (removelast qM))) (zg 1) in
  fsub (2 * nDigit) qPcat qMcat.

(** exnR0, lines 86-91. *)
Definition div_exn (exnXY : Z) : Z :=
  if exnXY =? 5 then 1
  else if (exnXY =? 1) || (exnXY =? 2) || (exnXY =? 6) then 0
  else if (exnXY =? 4) || (exnXY =? 8) || (exnXY =? 9) then 2
  else 3.

(** Lines 311-401: normalisation, rounding and exceptions. *)
Definition div_finish (wE wF nDigit fR0 expR0 sR exnXY : Z) : option Z :=
  do fR <- (if wF mod 2 =? 1 then checked_cast (4 + wF) (2 * nDigit - 1) (bits (2 * nDigit - 1) 1 fR0)
            else checked_cast (4 + wF) (2 * nDigit - 3 + 1)
                   (cat 1 (bits (2 * nDigit - 1) 3 fR0) (for_ 1 (bits 2 2 fR0) (bits 1 1 fR0))));
  let top := bits (wF + 3) (wF + 3) fR in
  let fRn1 := select top (cat 1 (bits (wF + 2) 2 fR) (for_ 1 (bits 1 1 fR) (bits 0 0 fR))) (bits (wF + 1) 0 fR) in
  do _ <- assert_ (0 <=? wE - 2);
  let expR1 := fadd (wE + 2) expR0 (cat 1 (cat (wE - 2) (zg 3) (og (wE - 2))) top) in
  let round := fand (bits 1 1 fRn1) (for_ 1 (bits 2 2 fRn1) (bits 0 0 fRn1)) in
  let expfrac := cat wF expR1 (bits (wF + 1) 2 fRn1) in
  let expfracR := fadd (wE + wF + 2) expfrac (cat 1 (zg (wE + wF + 1)) round) in
  let exnR :=
    if bits (wE + wF + 1) (wE + wF + 1) expfracR =? 1 then 0
    else if bits (wE + wF + 1) (wE + wF) expfracR =? 1 then 2 else 1 in
  let exnR0 := div_exn exnXY in
  let exnRfinal := if exnR0 =? 1 then exnR else exnR0 in
  Some (cat (wE + wF) (cat 1 exnRfinal sR) (bits (wE + wF - 1) 0 expfracR)).

(** After promotion, lines 49-403. *)
Definition div_body (wE wF X Y : Z) : option Z :=
  let nDigit := (wF + 6) / 2 in
  let fX := opad_hi 1 wF (bits (wF - 1) 0 X) in
  let fY := opad_hi 1 wF (bits (wF - 1) 0 Y) in
  let expR0 := fsub (wE + 2) (zpad_hi 2 wE (bits (wE + wF - 1) wF X)) (zpad_hi 2 wE (bits (wE + wF - 1) wF Y)) in
  let sR := fxor 1 (bits (wE + wF) (wE + wF) X) (bits (wE + wF) (wE + wF) Y) in
  let exnXY := cat 2 (bits (wE + wF + 2) (wE + wF + 1) X) (bits (wE + wF + 2) (wE + wF + 1) Y) in
  let '(qs, w0) := div_loop wF fY (Z.to_nat (nDigit - 1)) (zpad_hi 2 (wF + 1) fX) [] in
  div_finish wE wF nDigit (div_fR0 nDigit (div_q0 wF w0 :: qs)) expR0 sR exnXY.

(** div_v1<wER,wFR>(x,y), lines 28-47; div, fp_flopoco_primitives.hpp:36-40. *)
Definition div_v1 (wER wFR wEX wFX wEY wFY x y : Z) : option Z :=
  let wF := ctMax wFR (ctMax wFX wFY) in
  let wE := ctMax wER (ctMax wEX wEY) in
  do X <- promote wE wF wEX wFX x;
  do Y <- promote wE wF wEY wFY y;
  do _ <- assert_ ((wE =? wER) && (wF =? wFR));
  div_body wE wF X Y.
Definition div := div_v1.

(** div_v2, fp_flopoco_div_v2.hpp:118-202: the same recurrence; the digit table also selects
    the addend and whether to subtract it (the branch taken is the else branch, 157-198). *)
Definition div_step_v2 (wF fY w : Z) : Z * Z :=
  let fYTimes3 := fadd (wF + 3) (zpad_hi 2 (wF + 1) fY) (cat 1 (cat (wF + 1) (zg 1) fY) (zg 1)) in
  let sel := cat 1 (bits (wF + 2) (wF - 1) w) (bits (wF - 1) (wF - 1) fY) in
  let wpad := zpad_lo 1 (wF + 3) w in
  let '(q, Bin, Cin) :=
    match sel with
    | 2 | 3 => (1, zpad_hi 3 (wF + 1) fY, og 1)
    | 4 | 5 | 7 => (2, cat 1 (cat (wF + 1) (zg 2) fY) (zg 1), og 1)
    | 6 | 8 | 9 | 10 | 11 | 13 | 15 => (3, zpad_hi 1 (wF + 3) fYTimes3, og 1)
    | 24 | 22 | 23 | 20 | 21 | 19 | 17 => (5, zpad_hi 1 (wF + 3) fYTimes3, zg 1)
    | 26 | 27 | 25 => (6, cat 1 (cat (wF + 1) (zg 2) fY) (zg 1), zg 1)
    | 28 | 29 => (7, zpad_hi 3 (wF + 1) fY, zg 1)
    | _ => (0, zg (wF + 4), zg 1)
    end in
  let wfull := add_sub (wF + 4) Cin wpad Bin in
  (q, zpad_lo 1 (wF + 2) (bits (wF + 1) 0 wfull)).

Fixpoint div_loop_v2 (wF fY : Z) (n : nat) (w : Z) (acc : list Z) : list Z * Z :=
  match n with
  | O => (acc, w)
  | S n' => let '(q, w') := div_step_v2 wF fY w in div_loop_v2 wF fY n' w' (q :: acc)
  end.

(** fp_flopoco_div_v2.hpp:46-372: everything but the loop is the text of div_v1. *)
Definition div_body_v2 (wE wF X Y : Z) : option Z :=
  let nDigit := (wF + 6) / 2 in
  let fX := opad_hi 1 wF (bits (wF - 1) 0 X) in
  let fY := opad_hi 1 wF (bits (wF - 1) 0 Y) in
  let expR0 := fsub (wE + 2) (zpad_hi 2 wE (bits (wE + wF - 1) wF X)) (zpad_hi 2 wE (bits (wE + wF - 1) wF Y)) in
  let sR := fxor 1 (bits (wE + wF) (wE + wF) X) (bits (wE + wF) (wE + wF) Y) in
  let exnXY := cat 2 (bits (wE + wF + 2) (wE + wF + 1) X) (bits (wE + wF + 2) (wE + wF + 1) Y) in
  let '(qs, w0) := div_loop_v2 wF fY (Z.to_nat (nDigit - 1)) (zpad_hi 2 (wF + 1) fX) [] in
  div_finish wE wF nDigit (div_fR0 nDigit (div_q0 wF w0 :: qs)) expR0 sR exnXY.

(** div_v2<wER,wFR>(x,y), fp_flopoco_div_v2.hpp:28-45. *)
Definition div_v2 (wER wFR wEX wFX wEY wFY x y : Z) : option Z :=
  let wF := ctMax wFX wFY in
  let wE := ctMax wEX wEY in
  do X <- promote wE wF wEX wFX x;
  do Y <- promote wE wF wEY wFY y;
  do _ <- assert_ ((wE =? wER) && (wF =? wFR));
  div_body_v2 wE wF X Y.

(** inv_v1<wER,wFR>(y), fp_flopoco_inv_v1.hpp:28-37, parameterised by the literal given to
    cg<4>(...) on line 37; from line 41 on the text is that of div_v1. *)
Definition inv_v1_lit (lit wER wFR wEY wFY y : Z) : option Z :=
  do _ <- assert_ ((wEY =? wER) && (wFY =? wFR));
  do c <- of_int 4 lit;
  div_body wEY wFY (cat wFY (cat (wEY - 1) c (og (wEY - 1))) (zg wFY)) y.
(** The literal written in the source is 0100, which C++ reads as octal: 64. *)
Definition inv_v1 := inv_v1_lit 64.
(** inv, fp_flopoco_primitives.hpp:42-46. *)
Definition inv := inv_v1.
