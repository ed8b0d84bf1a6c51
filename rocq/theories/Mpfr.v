(** Model of the parts of fp_flopoco.hpp and fp_ieee.hpp that go through MPFR: the constructor from an MPFR number,
    get, and the reference functions the tests compare against. *)
From Coq Require Import ZArith Bool.
From Verif Require Import Fw FwWord Spec Flopoco Ieee MpfrLib.
Open Scope Z_scope.

(** ** fp_flopoco *)

(** fp_flopoco(mpfr_t x, bool allowUnderOrOverflow), fp_flopoco.hpp:498-569. p is the precision of x. A precision other
    than F+1 and an exponent out of range without permission throw (None); the constants of numeric_limits exist for
    E <= 31 only (1<<(E-1) as an int). An MPFR exponent always fits an int. *)
Definition fl_of_mpfr (E F p : Z) (allow : bool) (x : fval) : option Z :=
  do _ <- assert_ ((1 <=? E) && (E <=? 31));
  do _ <- assert_ (p =? F + 1);
  match x with
  | NaN => Some (lim_quiet_NaN E F)
  | Inf s => Some (if s then lim_neg_infinity E F else lim_infinity E F)
  | Zero s => Some (cat (E + F) (cat 1 (zg 2) (Z.b2z s)) (zg (E + F)))
  | Num s m e =>
      let z := if s then - m else m in
      let negative := z <? 0 in
      let z := if negative then - z else z in
      do _ <- assert_ (Z.testbit z F);
      let z := Z.clearbit z F in
      let e := e + F in
      let b := 2 ^ (E - 1) - 1 in
      do frac <- m_of_mpz F z;
      if e <? 0 - b then
        if allow then Some (mk E F 0 (Z.b2z negative) 0 frac) else None
      else if 0 + b + 1 <? e then
        if allow then Some (mk E F 2 (Z.b2z negative) 0 frac) else None
      else
        do expnt <- of_int E (e + b);
        Some (mk E F 1 (Z.b2z negative) expnt frac)
  end.

(** get(dst, mode), fp_flopoco.hpp:580-612. p is the precision of dst. *)
Definition fl_get_mode (E F p : Z) (mode : mp_mode) (x : Z) : option fval :=
  do _ <- assert_ ((1 <=? E) && (E <=? 31));
  let flags := get_flags E F x in
  let negative := to_bool (get_sign E F x) in
  if to_bool (feq flags 0) then Some (Zero negative)
  else if to_bool (feq flags 2) then Some (Inf negative)
  else if to_bool (feq flags 3) then Some NaN
  else
    let z := Z.setbit (m_to_mpz F (get_frac E F x)) F in
    do e <- to_int (get_exp E F x);
    let e := e - F - (2 ^ (E - 1) - 1) in
    let v := mpfr_set_z_2exp p mode z e in
    Some (if negative then mpfr_mul_neg1 p RNDN v else v).
(** get(dst), lines 571-578. *)
Definition fl_get (E F p x : Z) : option fval :=
  do _ <- assert_ (p =? F + 1); fl_get_mode E F p RNDN x.

(** The reference functions: lines 615-639, 647-683, 714-730, 732-752, 788-804, 806-829, 838-857, 866-884, 927-942,
    946-976. *)
Definition ref_mul (ER FR EA FA EB FB a b : Z) : option Z :=
  do ma <- fl_get EA FA (FA + 1) a;
  do mb <- fl_get EB FB (FB + 1) b;
  fl_of_mpfr ER FR (FR + 1) true (mpfr_mul (FR + 1) RNDN ma mb).
(** ref_add reads its result back and ends the program when a normal one differs. *)
Definition ref_add (ER FR EA FA EB FB a b : Z) : option Z :=
  do ma <- fl_get EA FA (FA + 1) a;
  do mb <- fl_get EB FB (FB + 1) b;
  let mr := mpfr_add (FR + 1) RNDN ma mb in
  do res <- fl_of_mpfr ER FR (FR + 1) true mr;
  do check <- fl_get ER FR (FR + 1) res;
  if negb (to_bool (for_ 1 (for_ 1 (is_inf ER FR res) (is_nan ER FR res)) (is_zero ER FR res))) && mpfr_differ mr check
  then None else Some res.
Definition ref_neg (ER FR EA FA a : Z) : option Z :=
  do ma <- fl_get EA FA (FA + 1) a;
  fl_of_mpfr ER FR (FR + 1) true (mpfr_neg (FR + 1) RNDN ma).
(** mpfr_set_d(mb, 1): the number one at 2 bits. *)
Definition mp_one : fval := Num false 2 (-1).
Definition ref_inv (ER FR EA FA a : Z) : option Z :=
  do ma <- fl_get EA FA (FA + 1) a;
  fl_of_mpfr ER FR (FR + 1) true (mpfr_div (FR + 1) RNDN mp_one ma).
(** ref_inv_faithful, lines 760-780: the pair of results. *)
Definition ref_inv_faithful (ER FR EA FA a : Z) : option (Z * Z) :=
  do ma <- fl_get EA FA (FA + 1) a;
  do r1 <- fl_of_mpfr ER FR (FR + 1) true (mpfr_div (FR + 1) RNDD mp_one ma);
  do r2 <- fl_of_mpfr ER FR (FR + 1) true (mpfr_div (FR + 1) RNDU mp_one ma);
  Some (r1, r2).
Definition ref_convert (ER FR EA FA a : Z) : option Z :=
  do ma <- fl_get EA FA (FA + 1) a;
  fl_of_mpfr ER FR (FR + 1) true (mpfr_set (FR + 1) RNDN ma).
Definition ref_div (ER FR EA FA EB FB a b : Z) : option Z :=
  do ma <- fl_get EA FA (FA + 1) a;
  do mb <- fl_get EB FB (FB + 1) b;
  fl_of_mpfr ER FR (FR + 1) true (mpfr_div (FR + 1) RNDN ma mb).
Definition ref_ldexp_const (ER FR PLACES EA FA a : Z) : option Z :=
  do ma <- fl_get EA FA (FA + 1) a;
  fl_of_mpfr ER FR (FR + 1) true (mpfr_mul_2si (FR + 1) RNDN ma PLACES).
Definition ref_square (ER FR EA FA a : Z) : option Z :=
  do ma <- fl_get EA FA (FA + 1) a;
  fl_of_mpfr ER FR (FR + 1) true (mpfr_sqr (FR + 1) RNDN ma).
Definition ref_sqrt (ER FR EA FA a : Z) : option Z :=
  do ma <- fl_get EA FA (FA + 1) a;
  fl_of_mpfr ER FR (FR + 1) true (mpfr_sqrt (FR + 1) RNDN ma).
Definition ref_fma (ER FR EA FA EB FB EC FC a b c : Z) : option Z :=
  do ma <- fl_get EA FA (FA + 1) a;
  do mb <- fl_get EB FB (FB + 1) b;
  do mc <- fl_get EC FC (FC + 1) c;
  fl_of_mpfr ER FR (FR + 1) true (mpfr_fma (FR + 1) RNDN ma mb mc).

(** ** fp_ieee *)

(** fp_ieee(mpfr_t x, bool allowUnderOrOverflow), fp_ieee.hpp:296-364. *)
Definition ie_of_mpfr (E F p : Z) (allow : bool) (x : fval) : option Z :=
  do _ <- assert_ ((1 <=? E) && (E <=? 31));
  do _ <- assert_ (p =? F + 1);
  match x with
  | NaN => Some (ie_quiet_NaN E F)
  | Inf s => Some (if s then ie_neg_infinity E F else ie_infinity E F)
  | Zero s => Some (cat (E + F) (Z.b2z s) (zg (E + F)))
  | Num s m e =>
      let z := if s then - m else m in
      let negative := z <? 0 in
      let z := if negative then - z else z in
      do _ <- assert_ (Z.testbit z F);
      let z := Z.clearbit z F in
      let e := e + F in
      let b := 2 ^ (E - 1) - 1 in
      do frac <- m_of_mpz F z;
      if e <? 0 - b + 1 then
        if allow then Some (ie_mk E F (Z.b2z negative) (zg E) (zg F)) else None
      else if 0 + b <? e then
        if allow then Some (ie_mk E F (Z.b2z negative) (og E) (zg F)) else None
      else
        do expnt <- of_int E (e + b);
        Some (ie_mk E F (Z.b2z negative) expnt frac)
  end.
(** get(dst, mode), fp_ieee.hpp:375-407, and get(dst), lines 366-373. *)
Definition ie_get_mode (E F p : Z) (mode : mp_mode) (x : Z) : option fval :=
  do _ <- assert_ ((1 <=? E) && (E <=? 31));
  let negative := to_bool (ie_is_negative E F x) in
  if to_bool (ie_is_zero E F x) then Some (Zero negative)
  else if to_bool (ie_is_inf E F x) then Some (Inf negative)
  else if to_bool (ie_is_nan E F x) then Some NaN
  else
    let z := Z.setbit (m_to_mpz F (ie_frac E F x)) F in
    do e <- to_int (ie_exp E F x);
    let e := e - F - (2 ^ (E - 1) - 1) in
    let v := mpfr_set_z_2exp p mode z e in
    Some (if negative then mpfr_mul_neg1 p RNDN v else v).
Definition ie_get (E F p x : Z) : option fval :=
  do _ <- assert_ (p =? F + 1); ie_get_mode E F p RNDN x.
(** ref_mul, ref_add, fp_ieee.hpp:410-432 and 440-461. *)
Definition ie_ref_mul (ER FR EA FA EB FB a b : Z) : option Z :=
  do ma <- ie_get EA FA (FA + 1) a;
  do mb <- ie_get EB FB (FB + 1) b;
  ie_of_mpfr ER FR (FR + 1) true (mpfr_mul (FR + 1) RNDN ma mb).
Definition ie_ref_add (ER FR EA FA EB FB a b : Z) : option Z :=
  do ma <- ie_get EA FA (FA + 1) a;
  do mb <- ie_get EB FB (FB + 1) b;
  ie_of_mpfr ER FR (FR + 1) true (mpfr_add (FR + 1) RNDN ma mb).
