(** Model of fp_ieee<E,F> (include/thls/tops/fp_ieee.hpp), of the conversions between it and
    fp_flopoco (fp_convert.hpp:16-53, fp_promote.hpp), and of the IEEE-on-flopoco wrapper
    (policy_ieee_on_flopoco.hpp:20-83). Not modelled: the MPFR constructor and get, str,
    to_double_approx, and the two fp_ieee-to-fp_flopoco promotions, which are ill-typed
    (fp_promote.hpp:78-88) or return a reference to a temporary (119-130). *)
From Coq Require Import ZArith Bool.
From Verif Require Import Fw Flopoco Mul AddDual Div.
Open Scope Z_scope.

(** Fields, fp_ieee.hpp:67-74. *)
Definition ie_sign (E F x : Z) : Z := bits (E + F) (E + F) x.
Definition ie_exp (E F x : Z) : Z := bits (E + F - 1) F x.
Definition ie_frac (E F x : Z) : Z := bits (F - 1) 0 x.
(** The constructor from concat(sign,exp,frac). *)
Definition ie_mk (E F sign ex frac : Z) : Z := cat F (cat E sign ex) frac.

(** get_flags, fp_ieee.hpp:51-65. *)
Definition ie_flags (E F x : Z) : Z :=
  select (feq (ie_exp E F x) (zg E)) 0
  (select (feq (ie_exp E F x) (og E)) (select (feq (ie_frac E F x) (zg F)) 2 3) 1).

(** Class tests, fp_ieee.hpp:76-113. *)
Definition ie_is_zero (E F x : Z) : Z := feq (ie_exp E F x) 0.
Definition ie_is_normal (E F x : Z) : Z := fand (fne (ie_exp E F x) (og E)) (fne (ie_exp E F x) (zg E)).
Definition ie_is_inf (E F x : Z) : Z := fand (feq (ie_exp E F x) (og E)) (feq (ie_frac E F x) 0).
Definition ie_is_nan (E F x : Z) : Z := fand (feq (ie_exp E F x) (og E)) (fne (ie_frac E F x) 0).
Definition ie_is_positive (E F x : Z) : Z := feq (ie_sign E F x) 0.
Definition ie_is_negative (E F x : Z) : Z := feq (ie_sign E F x) 1.

(** equals, fp_ieee.hpp:121-139. *)
Definition ie_equals (E F x o : Z) : Z :=
  let e_eq := feq (ie_exp E F x) (ie_exp E F o) in
  let f_eq := feq (ie_frac E F x) (ie_frac E F o) in
  let s_eq := feq (ie_sign E F x) (ie_sign E F o) in
  select (feq (ie_exp E F x) 0) e_eq
  (select (feq (ie_exp E F x) (og E))
     (select (feq (ie_frac E F x) 0) (fand (fand e_eq f_eq) s_eq) (fand e_eq (fne (ie_frac E F o) 0)))
     (fand (fand e_eq f_eq) s_eq)).

(** numeric_limits<fp_ieee<E,F>>, fp_ieee.hpp:190-285. *)
Definition ie_min (E F : Z) : Z := cat F (cat 1 (cat (E - 1) (zg 1) (zg (E - 1))) (og 1)) (zg F).
Definition ie_neg_min (E F : Z) : Z := cat F (cat 1 (cat (E - 1) (og 1) (zg (E - 1))) (og 1)) (zg F).
Definition ie_max (E F : Z) : Z := cat F (cat 1 (cat (E - 1) (zg 1) (og (E - 1))) (zg 1)) (og F).
Definition ie_lowest (E F : Z) : Z := cat F (cat 1 (cat (E - 1) (og 1) (og (E - 1))) (zg 1)) (og F).
Definition ie_infinity (E F : Z) : Z := ie_mk E F (zg 1) (og E) (zg F).
Definition ie_neg_infinity (E F : Z) : Z := ie_mk E F (og 1) (og E) (zg F).
Definition ie_quiet_NaN (E F : Z) : Z := ie_mk E F (zg 1) (og E) (og F).
Definition ie_signalling_NaN (E F : Z) : Z := ie_mk E F (zg 1) (og E) (zg F).
Definition ie_pos_zero (E F : Z) : Z := ie_mk E F (zg 1) (zg E) (zg F).
Definition ie_neg_zero (E F : Z) : Z := ie_mk E F (og 1) (zg E) (zg F).
Definition ie_pos_one (E F : Z) : option Z :=
  do e <- of_int E (2 ^ (E - 1) - 1); Some (ie_mk E F (zg 1) e (zg F)).
Definition ie_neg_one (E F : Z) : option Z :=
  do e <- of_int E (2 ^ (E - 1) - 1); Some (ie_mk E F (og 1) e (zg F)).
Definition ie_epsilon (E F : Z) : option Z := None. (* assert(0), line 219 *)
Definition ie_round_error (E F : Z) : option Z := None. (* assert(0), line 225 *)

(** convert(fp_flopoco<E,F>&, fp_ieee<E,F>), fp_convert.hpp:16-26. *)
Definition to_flopoco (E F x : Z) : Z := mk E F (ie_flags E F x) (ie_sign E F x) (ie_exp E F x) (ie_frac E F x).

(** convert(fp_ieee<E,F>&, fp_flopoco<E,F>), fp_convert.hpp:28-53. *)
Definition to_ieee (E F x : Z) : Z :=
  let over := fand (is_normal E F x) (feq (get_exp E F x) (og E)) in
  let under := fand (is_normal E F x) (feq (get_exp E F x) (zg E)) in
  ie_mk E F (get_sign E F x)
    (select (for_ 1 (is_zero E F x) under) (zg E)
    (select (for_ 1 (for_ 1 (is_nan E F x) (is_inf E F x)) over) (og E) (get_exp E F x)))
    (select (for_ 1 (for_ 1 (for_ 1 (is_zero E F x) (is_inf E F x)) over) under) (zg F)
    (select (is_nan E F x) (og F) (get_frac E F x))).

(** promote(fp_ieee<DE,DF>&, fp_ieee<SE,SF>), fp_promote.hpp:67-76, 116-117, 153-157. *)
Definition ie_promote (DE DF SE SF x : Z) : option Z :=
  if (DE =? SE) && (DF =? SF) then Some x
  else do e <- promote_exp DE SE (ie_exp SE SF x);
       do f <- promote_frac DF SF (ie_frac SE SF x);
       Some (ie_mk DE DF (ie_sign SE SF x) e f).

(** promote(fp_ieee<DE,DF>&, fp_flopoco<SE,SF>), fp_promote.hpp:90-114, 168-176. *)
Definition promote_to_ieee (DE DF SE SF x : Z) : option Z :=
  do _ <- assert_ (SE <? DE);
  do e <- promote_exp DE SE (get_exp SE SF x);
  do f <- promote_frac DF SF (get_frac SE SF x);
  Some (ie_mk DE DF (get_sign SE SF x)
    (select (feq (get_flags SE SF x) 1) e (select (feq (get_flags SE SF x) 0) (zg DE) (og DE)))
    (select (feq (get_flags SE SF x) 1) f (select (feq (get_flags SE SF x) 3) (og DF) (zg DF)))).

(** fp_ieee_on_flopoco_wrapper<wE,wF>, policy_ieee_on_flopoco.hpp:52-82; in and out are the
    two conversions above, lines 28-40. *)
Definition w_mul (E F a b : Z) : option Z :=
  do r <- mul E F E F F (to_flopoco E F a) (to_flopoco E F b); Some (to_ieee E F r).
Definition w_add (E F a b : Z) : option Z :=
  do r <- add_dual E F E F E F (to_flopoco E F a) (to_flopoco E F b); Some (to_ieee E F r).
Definition w_div (E F a b : Z) : option Z :=
  do r <- div E F E F E F (to_flopoco E F a) (to_flopoco E F b); Some (to_ieee E F r).
Definition w_cmp (op : Z -> Z -> Z -> Z -> Z -> Z -> option Z) (E F a b : Z) : option bool :=
  do r <- op E F E F (to_flopoco E F a) (to_flopoco E F b); Some (to_bool r).
Definition w_lt := w_cmp less_than.
Definition w_le := w_cmp less_than_equal.
Definition w_eq := w_cmp equal.
Definition w_ge := w_cmp greater_than_equal.
Definition w_gt := w_cmp greater_than.
Definition w_ne := w_cmp not_equal.
