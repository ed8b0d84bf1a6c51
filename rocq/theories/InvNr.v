(** Model of fp_flopoco_inv_nr.hpp: table and Newton reciprocals. A fw_fix<MSB,LSB> is its bits, a
    number of width MSB-LSB+1; its parameters are explicit arguments. DEBUG output is left out. *)
From Coq Require Import ZArith Bool List.
From Verif Require Import Fw Spec Flopoco.
Import ListNotations.
Open Scope Z_scope.

(** round_frac<wFR>(x, overflow), lines 59-69, with round_frac_impl<0>, <1> and <2>, lines 13-57: the result
    and the overflow bit. *)
Definition round_frac (wFR wFX x : Z) : option (Z * Z) :=
  if wFX <=? wFR then Some (zpad_lo (wFR - wFX) wFX x, 0)
  else if wFR + 1 =? wFX then
    do lsb <- get_bit wFX 1 x;
    do guard <- get_bit wFX 0 x;
    do d <- drop_lsb wFX x;
    let extres := add_cin (wFR + 1) (zpad_hi 1 wFR d) (fand lsb guard) in
    do o <- take_msb (wFR + 1) extres;
    do r <- drop_msb (wFR + 1) extres;
    Some (r, o)
  else
    let D := wFX - wFR in
    do happy <- take_msbs wFX wFR x;
    do lsb <- get_bit wFX D x;
    do guard <- get_bit wFX (D - 1) x;
    do low <- take_lsbs wFX (D - 2) x;
    let sticky := fne low (zg (D - 2)) in
    let extres := add_cin (wFR + 1) (zpad_hi 1 wFR happy) (if to_bool lsb then guard else fand guard sticky) in
    do o <- take_msb (wFR + 1) extres;
    do r <- drop_msb (wFR + 1) extres;
    Some (r, o).

(** fw_fix operator*, lines 96-99; operator-, lines 101-103, which adds. *)
Definition fix_mul_ (x y : Z) : Z := fmul x y.
Definition fix_minus (MSB LSB x y : Z) : Z := fadd (MSB - LSB + 1) x y.
(** sub_match, lines 105-111. *)
Definition sub_match (MSB0 LSB0 MSB1 LSB1 x y : Z) : Z :=
  let MSBR := ctMax MSB0 MSB1 in
  let LSBR := ctMin LSB0 LSB1 in
  fsub (MSBR - LSBR + 1)
    (zpad_hi (MSBR - MSB0) (MSB0 - LSBR + 1) (zpad_lo (LSB0 - LSBR) (MSB0 - LSB0 + 1) x))
    (zpad_hi (MSBR - MSB1) (MSB1 - LSBR + 1) (zpad_lo (LSB1 - LSBR) (MSB1 - LSB1 + 1) y)).
(** round_to_lsb, lines 120-125; trunc_to_lsb, lines 127-132; truncate_to_msb, lines 140-145. *)
Definition round_to_lsb (LSBR MSB LSB x : Z) : option (Z * Z) := round_frac (MSB - LSBR + 1) (MSB - LSB + 1) x.
Definition trunc_to_lsb (LSBR MSB LSB x : Z) : option Z := take_msbs (MSB - LSB + 1) (MSB - LSBR + 1) x.
Definition truncate_to_msb (MSBR MSB LSB x : Z) : option (Z * Z) :=
  do _ <- assert_ (MSBR <=? MSB);
  do t <- take_msbs (MSB - LSB + 1) (MSB - MSBR) x;
  do r <- drop_msbs (MSB - LSB + 1) (MSB - MSBR) x;
  Some (r, fne t 0).

(** inv_frac_newton_step<MSBR,LSBR>(z,y), lines 148-180, with ldexp_const (lines 114-118) inline. *)
Definition newton_step (MSBR LSBR MSBZ LSBZ MSBY LSBY z y : Z) : option Z :=
  let z2 := fix_mul_ z z in
  let z2y := fix_mul_ z2 y in
  let zp := sub_match (MSBZ + 1) (LSBZ + 1) (2 * MSBZ + 1 + MSBY + 1) (2 * LSBZ + LSBY) z z2y in
  let M := ctMax (MSBZ + 1) (2 * MSBZ + 1 + MSBY + 1) in
  let L := ctMin (LSBZ + 1) (2 * LSBZ + LSBY) in
  do rounded <- round_to_lsb LSBR M L zp;
  do _ <- assert_ (negb (to_bool (snd rounded)));
  do res <- truncate_to_msb MSBR M LSBR (fst rounded);
  do _ <- assert_ (negb (to_bool (snd res)));
  Some (fst res).

(** The double quotient n/d, for 1/2 <= n/d <= 1, in units of 2^-53: IEEE division rounds to nearest even. *)
Definition dbl_quot (n d : Z) : Z := rne_div (n * 2 ^ 53) d.
(** round(ldexp(v,s)) for such a v: to nearest, halves away from zero. *)
Definition dbl_round (v s : Z) : Z := (2 * v * 2 ^ s + 2 ^ 53) / 2 ^ 54.
(** One entry of the table of inv_frac_starter_table, lines 191-210. a, b, a+b and 2*a*b are exact doubles
    for -LSBI <= 25 (at most 10 wherever the table is used). The result is for from_uint64, WR bits. *)
Definition starter_entry (LSBR LSBI i : Z) : option Z :=
  let WR := 1 - LSBR in
  do _ <- assert_ (WR <=? 52);
  do _ <- assert_ (- LSBI <=? 25);
  let a := 2 ^ (- LSBI) + i in
  let b := a + 1 in
  let v := dbl_quot ((a + b) * 2 ^ (- LSBI)) (2 * a * b) in
  do _ <- assert_ ((2 ^ 52 <=? v) && (v <=? 2 ^ 53));
  let vr := dbl_round v (- LSBR) in
  let vr := if (i =? 0) && (vr =? 2 ^ (WR - 1)) then vr - 1 else vr in
  do _ <- assert_ (WR - 1 <=? 30);
  do _ <- assert_ (2 ^ (WR - 2) <=? vr);
  do _ <- assert_ (vr <? 2 ^ (WR - 1));
  of_int WR vr.
(** The lut is filled before it is read: every entry must be good. *)
Fixpoint table_ok (f : Z -> option Z) (n : nat) : bool :=
  match n with
  | O => true
  | S k => match f (Z.of_nat k) with Some _ => table_ok f k | None => false end
  end.
(** inv_frac_starter_table<0,LSBR>(x), x a fw_fix<0,LSBI>, lines 182-217. *)
Definition starter_table (LSBR LSBI x : Z) : option Z :=
  let WI := 1 - LSBI in
  do _ <- assert_ (table_ok (starter_entry LSBR LSBI) (Z.to_nat (2 ^ (WI - 1))));
  do m <- take_msb WI x;
  do _ <- assert_ (to_bool m);
  do index <- drop_msb WI x;
  starter_entry LSBR LSBI index.

(** inv_frac_table_newton_iter1, lines 219-232; iter2, lines 234-251; iter3, lines 253-272.
    Integer division truncates; all of these are positive. *)
Definition newton_iter1 (LSBR LSBY x : Z) : option Z :=
  let BITS1 := - LSBR in
  let BITS0 := (BITS1 + 1) / 2 in
  let LSBG1 := - BITS0 - 1 in
  do t <- trunc_to_lsb LSBG1 0 LSBY x;
  do g <- starter_table LSBG1 LSBG1 t;
  newton_step 0 LSBR 0 LSBG1 0 LSBY g x.
Definition newton_iter2 (LSBR LSBY x : Z) : option Z :=
  let BITS2 := - LSBR in
  let BITS1 := (BITS2 + 2) / 2 in
  let BITS0 := (BITS1 + 2) / 2 in
  let LSBG1 := - BITS0 - 1 in
  let LSBG2 := - BITS1 - 1 in
  do t <- trunc_to_lsb LSBG1 0 LSBY x;
  do g <- starter_table LSBG1 LSBG1 t;
  do g2 <- newton_step 0 LSBG2 0 LSBG1 0 LSBY g x;
  newton_step 0 LSBR 0 LSBG2 0 LSBY g2 x.
Definition newton_iter3 (LSBR LSBY x : Z) : option Z :=
  let BITS3 := - LSBR in
  let BITS2 := (BITS3 + 1) / 2 in
  let BITS1 := (BITS2 + 1) / 2 in
  let BITS0 := (BITS1 + 1) / 2 in
  let LSBG1 := - BITS0 - 2 in
  let LSBG2 := - BITS1 - 2 in
  let LSBG3 := - BITS2 - 2 in
  do t <- trunc_to_lsb LSBG1 0 LSBY x;
  do g <- starter_table LSBG1 LSBG1 t;
  do g2 <- newton_step 0 LSBG2 0 LSBG1 0 LSBY g x;
  do g3 <- newton_step 0 LSBG3 0 LSBG2 0 LSBY g2 x;
  newton_step 0 LSBR 0 LSBG3 0 LSBY g3 x.
(** inv_frac_table_newton, lines 348-359, with its dispatch, lines 313-346. The dispatch for no iteration
    does not compile (it gives inv_frac_direct_table LSBR for MSBR), nor does the one for four. *)
Definition table_newton (LSBR LSBY x : Z) : option Z :=
  if -7 <=? LSBY then None
  else if -7 <=? LSBR then None
  else if -15 <=? LSBR then newton_iter1 LSBR LSBY x
  else if -31 <=? LSBR then newton_iter2 LSBR LSBY x
  else if -63 <=? LSBR then newton_iter3 LSBR LSBY x
  else None.

(** The switch on the flags, lines 378-395 and 417-434. *)
Definition inv_flags (flags exp_all_ones : Z) : Z :=
  if flags =? 0 then 2
  else if flags =? 1 then if to_bool exp_all_ones then 0 else 1
  else if flags =? 2 then 0
  else 3.

(** inv_table_newton<wER,wFR>(y), lines 362-400. *)
Definition inv_table_newton (wER wFR wEY wFY y : Z) : option Z :=
  do _ <- assert_ (wER =? wEY);
  let flags := get_flags wEY wFY y in
  let sign := get_sign wEY wFY y in
  let frac_in := opad_hi 1 wFY (get_frac wEY wFY y) in
  do frac_out_fix <- table_newton (- wFR - 1) (- wFY) frac_in;
  do frac_out <- drop_msbs (wFR + 2) 2 frac_out_fix;
  do two <- of_int wEY 2;
  do one <- of_int wER 1;
  let exp := fsub wEY (fsub wEY (og wEY) two) (get_exp wEY wFY y) in
  do m <- take_msb (wFR + 2) frac_out_fix;
  let exp := if to_bool m then fadd wER exp one else exp in
  let flags := inv_flags flags (feq (get_exp wEY wFY y) (og wEY)) in
  Some (mk wER wFR flags sign exp frac_out).
(** inv_faithful, fp_flopoco_primitives.hpp:48-52. *)
Definition inv_faithful := inv_table_newton.

(** One entry of inv_frac_direct_table, lines 287-305; 1+ldexp(i,LSBI) is an exact double for a table whose
    index is an int. *)
Definition direct_entry (LSBR LSBI i : Z) : option Z :=
  let WR := 1 - LSBR in
  do _ <- assert_ (WR <=? 52);
  let a := 2 ^ (- LSBI) + i in
  let v := dbl_quot (2 ^ (- LSBI)) a in
  do _ <- assert_ ((2 ^ 52 <=? v) && (v <=? 2 ^ 53));
  of_int WR (dbl_round v (- LSBR)).
(** inv_frac_direct_table<0,LSBR,0,LSBI>(x), lines 278-311; the index of the table is an int, so it has at
    most 30 bits. *)
Definition direct_table (LSBR LSBI x : Z) : option Z :=
  let WI := 1 - LSBI in
  do _ <- assert_ (WI - 1 <=? 30);
  do _ <- assert_ (table_ok (direct_entry LSBR LSBI) (Z.to_nat (2 ^ (WI - 1))));
  do m <- take_msb WI x;
  do _ <- assert_ (to_bool m);
  do index <- drop_msb WI x;
  direct_entry LSBR LSBI index.
(** inv_direct<wER,wFR>(y), lines 402-439. *)
Definition inv_direct (wER wFR wEY wFY y : Z) : option Z :=
  do _ <- assert_ (wER =? wEY);
  let flags := get_flags wEY wFY y in
  let sign := get_sign wEY wFY y in
  let frac_in := opad_hi 1 wFY (get_frac wEY wFY y) in
  do frac_out_fix <- direct_table (- wFR - 1) (- wFY) frac_in;
  do frac <- take_lsbs (wFR + 2) wFR frac_out_fix;
  do two <- of_int wEY 2;
  do one <- of_int wER 1;
  let exp := fsub wEY (fsub wEY (og wEY) two) (get_exp wEY wFY y) in
  let exp := if to_bool (feq (get_frac wEY wFY y) (zg wFY)) then fadd wER exp one else exp in
  let flags := inv_flags flags (feq (get_exp wEY wFY y) (og wEY)) in
  Some (mk wER wFR flags sign exp frac).
