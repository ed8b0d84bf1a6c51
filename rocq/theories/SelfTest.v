(** Model of the self-test programs of the two number formats, src/fp_ops/test_fp_flopoco.cpp and
    src/fp_ops/test_fp_ieee.cpp. As in Tests.v, Some true is a program that goes on (at the end: leaves with 0), Some false
    one that leaves with exit(1) at a CHECK, None one that throws, asserts or does not compile; main catches exceptions and
    leaves with exit(1) too. What is printed on the way (str, mpfr_fprintf) is not modelled. d i is the i-th number drawn
    from std::uniform_real_distribution<double>; every function starts its own generator std::mt19937, so the numbering
    starts at 0 in each, and they see the same numbers. *)
From Coq Require Import ZArith List Bool String.
From Verif Require Import Fw FwWord Spec Flopoco Ieee MpfrLib Mpfr MpfrRange Dbl.
Import ListNotations.
Open Scope Z_scope.

(** CHECK(x), test_fp_flopoco.cpp:6 and test_fp_ieee.cpp:5: the rest of the program runs if x holds. *)
Definition check (x : bool) (rest : option bool) : option bool := if x then rest else Some false.
(** CHECK_EQUAL_FW(x,y), line 8 (7). *)
Definition check_equal (x y : Z) (rest : option bool) : option bool := check (negb (to_bool (fne x y))) rest.
(** One statement after another; the loop over i in l. *)
Definition and_then (a b : option bool) : option bool := do r <- a; if r then b else Some false.
Fixpoint loop {A} (body : A -> option bool) (l : list A) : option bool :=
  match l with [] => Some true | i :: l => and_then (body i) (loop body l) end.

(** mpfr_equal_p, mpfr_inf_p, mpfr_sgn (0 for NaN, with a flag nobody reads), !mpfr_cmp_d(x,y) and mpfr_cmp(x,y)==0. *)
Definition mpfr_equal_p (x y : fval) : bool :=
  negb (mpfr_unordered_p x y) && match mpfr_cmp x y with Eq => true | _ => false end.
Definition mpfr_inf_p (x : fval) : bool := match x with Inf _ => true | _ => false end.
Definition mpfr_sgn (x : fval) : Z :=
  match x with NaN | Zero _ => 0 | Inf s | Num s _ _ => if s then -1 else 1 end.
Definition cmp_zero (x y : fval) : bool := match mpfr_cmp x y with Eq => true | _ => false end.
(** The double i of the loops for(double i=0; i<10; i++). *)
Definition int_double (i : nat) : fval := match i with O => Zero false | S _ => Num false (Z.of_nat i) 0 end.
(** mpfr_set_ui and mpfr_set_si. *)
Definition mpfr_set_si (p v : Z) : fval := mp_round_z p RNDN v 0.
(** x == +INFINITY, x == -INFINITY and std::isnan(x) of a double. *)
Definition is_infinity (s : bool) (x : fval) : bool := match x with Inf t => Bool.eqb s t | _ => false end.
Definition is_nan_d (x : fval) : bool := match x with NaN => true | _ => false end.

(** ** test_fp_flopoco.cpp *)

(** test1, lines 12-94: the special values, lines 22-56. *)
Definition fl_test_specials (E F : Z) : option bool :=
  let p := F + 1 in
  do out <- fl_get E F p (lim_infinity E F);
  check (mpfr_equal_p (Inf false) out)
  (do x <- to_double E F (lim_infinity E F);
  check (is_infinity false x)
  (do out <- fl_get E F p (lim_neg_infinity E F);
  check (mpfr_equal_p (Inf true) out)
  (do x <- to_double E F (lim_neg_infinity E F);
  check (is_infinity true x)
  (do out <- fl_get E F p (lim_quiet_NaN E F);
  check (mpfr_nan_p out)
  (do x <- to_double E F (lim_quiet_NaN E F);
  check (is_nan_d x)
  (do out <- fl_get E F p (nextdown E F (lim_lowest E F));
  check (mpfr_inf_p out)
  (check (mpfr_sgn out <? 0)
  (do _ <- fl_get E F p (lim_max E F);
  do out <- fl_get E F p (nextup E F (lim_max E F));
  check (mpfr_inf_p out)
  (check (mpfr_sgn out >? 0) (Some true)))))))))).
(** The loop over 0..9, lines 59-75. *)
Definition fl_test_int (E F : Z) (i : nat) : option bool :=
  let in_ := mpfr_set_d (F + 1) (int_double i) in
  do one <- fl_of_mpfr E F (F + 1) false in_;
  do out <- fl_get E F (F + 1) one;
  check (mpfr_equal_p in_ out)
  (do x <- to_double E F one;
  check (cmp_zero in_ x) (Some true)).
(** The loop over ten draws, lines 77-90. *)
Definition fl_test_draw (E F : Z) (d : nat -> fval) (i : nat) : option bool :=
  let in_ := mpfr_set_d (F + 1) (d i) in
  do one <- fl_of_mpfr E F (F + 1) false in_;
  do _ <- fl_get E F (F + 1) one;
  do x <- to_double E F one;
  check (cmp_zero in_ x) (Some true).
Definition fl_test1 (E F : Z) (d : nat -> fval) : option bool :=
  and_then (fl_test_specials E F)
  (and_then (loop (fl_test_int E F) (seq 0 10)) (loop (fl_test_draw E F d) (seq 0 10))).
(** test2, lines 96-133: one product, and the hundred. *)
Definition fl_test_product (E F : Z) (d : nat -> fval) (i : nat) : option bool :=
  let a := mpfr_set_d (F + 1) (d (2 * i)%nat) in
  let b := mpfr_set_d (F + 1) (d (2 * i + 1)%nat) in
  let ref := mpfr_mul (F + 1) RNDN a b in
  do ta <- fl_of_mpfr E F (F + 1) false a;
  do tb <- fl_of_mpfr E F (F + 1) false b;
  do fgot <- ref_mul E F E F E F ta tb;
  do got <- fl_get E F (F + 1) fgot;
  check (mpfr_equal_p ref got) (Some true).
Definition fl_test2 (E F : Z) (d : nat -> fval) : option bool := loop (fl_test_product E F d) (seq 0 100).
(** test, lines 135-140. *)
Definition fl_test (E F : Z) (d : nat -> fval) : option bool := and_then (fl_test1 E F d) (fl_test2 E F d).

(** Create a number in MPFR, convert it, compare the word with the expected one, and the number read back with the one
    created: lines 180-225, once for each constant. *)
Definition fl_test_constant (E F want : Z) (tmp : fval) : option bool :=
  do from <- fl_of_mpfr E F (F + 1) false tmp;
  check_equal want from
  (do tmp2 <- fl_get E F (F + 1) from;
  check (cmp_zero tmp tmp2) (Some true)).
(** test_single, lines 142-229. The constants are strings; 1u<<24 is a power of two. *)
Definition fl_test_single : option bool :=
  let E := 8 in let F := 23 in let p := F + 1 in
  do posInf <- m_of_string 34 "0b1000000000000000000000000000000000";
  do negInf <- m_of_string 34 "0b1010000000000000000000000000000000";
  do posOne <- m_of_string 34 "0b0100111111100000000000000000000000";
  do negOne <- m_of_string 34 "0b0110111111100000000000000000000000";
  do negMax <- m_of_string 34 "0b01_11111111_11111111_11111111_11111111";
  do posMax <- m_of_string 34 "0b01_01111111_11111111_11111111_11111111";
  do negMin <- m_of_string 34 "0b01_10000000_00000000_00000000_00000000";
  do posMin <- m_of_string 34 "0b01_00000000_00000000_00000000_00000000";
  check_equal (lim_infinity E F) posInf
  (check_equal (lim_neg_infinity E F) negInf
  (do one <- lim_pos_one E F;
  check_equal one posOne
  (do mone <- lim_neg_one E F;
  check_equal mone negOne
  (check_equal (lim_max E F) posMax
  (check_equal (lim_neg_max E F) negMax
  (check_equal (lim_min E F) posMin
  (check_equal (lim_neg_min E F) negMin
  (and_then (fl_test_constant E F posOne (mpfr_set_si p 1))
  (and_then (fl_test_constant E F negOne (mpfr_set_si p (-1)))
  (let big := mpfr_mul_2si p RNDN (mpfr_set_si p (2 ^ (F + 1) - 1)) (- F + 2 ^ (E - 1)) in
  and_then (fl_test_constant E F posMax big)
  (and_then (fl_test_constant E F negMax (mpfr_mul_neg1 p RNDN big))
  (fl_test_constant E F posMin (mpfr_mul_2si p RNDN (mpfr_set_si p (2 ^ F)) (- F - 2 ^ (E - 1) + 1)))))))))))))).

(** main, lines 231-257. *)
Definition fl_formats : list (Z * Z) :=
  [(8, 23); (8, 24); (8, 25); (8, 26); (8, 29); (8, 30); (8, 31); (8, 32); (8, 33); (9, 40); (11, 52); (6, 4)].
Definition fl_main (d : nat -> fval) : option bool :=
  and_then fl_test_single (loop (fun f => fl_test (fst f) (snd f) d) fl_formats).

(** ** test_fp_ieee.cpp *)

(** test1, lines 11-65. *)
Definition ie_test_specials (E F : Z) : option bool :=
  let p := F + 1 in
  do out <- ie_get E F p (ie_infinity E F);
  check (mpfr_equal_p (Inf false) out)
  (do out <- ie_get E F p (ie_neg_infinity E F);
  check (mpfr_equal_p (Inf true) out)
  (do out <- ie_get E F p (ie_quiet_NaN E F);
  check (mpfr_nan_p out) (Some true))).
(** The loops over 0..9 and over ten draws, lines 36-61. *)
Definition ie_test_number (E F : Z) (v : fval) : option bool :=
  let in_ := mpfr_set_d (F + 1) v in
  do one <- ie_of_mpfr E F (F + 1) false in_;
  do out <- ie_get E F (F + 1) one;
  check (mpfr_equal_p in_ out) (Some true).
Definition ie_test1 (E F : Z) (d : nat -> fval) : option bool :=
  and_then (ie_test_specials E F)
  (and_then (loop (fun i => ie_test_number E F (int_double i)) (seq 0 10)) (loop (fun i => ie_test_number E F (d i)) (seq 0 10))).
(** test2, lines 67-104. *)
Definition ie_test_product (E F : Z) (d : nat -> fval) (i : nat) : option bool :=
  let a := mpfr_set_d (F + 1) (d (2 * i)%nat) in
  let b := mpfr_set_d (F + 1) (d (2 * i + 1)%nat) in
  let ref := mpfr_mul (F + 1) RNDN a b in
  do ta <- ie_of_mpfr E F (F + 1) false a;
  do tb <- ie_of_mpfr E F (F + 1) false b;
  do fgot <- ie_ref_mul E F E F E F ta tb;
  do got <- ie_get E F (F + 1) fgot;
  check (mpfr_equal_p ref got) (Some true).
Definition ie_test2 (E F : Z) (d : nat -> fval) : option bool := loop (ie_test_product E F d) (seq 0 100).
(** test, lines 106-111. *)
Definition ie_test (E F : Z) (d : nat -> fval) : option bool := and_then (ie_test1 E F d) (ie_test2 E F d).
(** neg_max(), fp_ieee.hpp:206-209: the same word as lowest(). *)
Definition ie_neg_max (E F : Z) : Z := ie_lowest E F.
(** test_single, lines 113-200. *)
Definition ie_test_constant (E F want : Z) (tmp : fval) : option bool :=
  do from <- ie_of_mpfr E F (F + 1) false tmp;
  check_equal want from
  (do tmp2 <- ie_get E F (F + 1) from;
  check (cmp_zero tmp tmp2) (Some true)).
Definition ie_test_single : option bool :=
  let E := 8 in let F := 23 in let p := F + 1 in
  do posInf <- m_of_string 32 "0b01111111100000000000000000000000";
  do negInf <- m_of_string 32 "0b11111111100000000000000000000000";
  do posOne <- m_of_string 32 "0b00111111100000000000000000000000";
  do negOne <- m_of_string 32 "0b10111111100000000000000000000000";
  do negMax <- m_of_string 32 "0b11111111_01111111_11111111_11111111";
  do posMax <- m_of_string 32 "0b01111111_01111111_11111111_11111111";
  do negMin <- m_of_string 32 "0b10000000_10000000_00000000_00000000";
  do posMin <- m_of_string 32 "0b00000000_10000000_00000000_00000000";
  check_equal (ie_infinity E F) posInf
  (check_equal (ie_neg_infinity E F) negInf
  (do one <- ie_pos_one E F;
  check_equal one posOne
  (do mone <- ie_neg_one E F;
  check_equal mone negOne
  (check_equal (ie_max E F) posMax
  (check_equal (ie_neg_max E F) negMax
  (check_equal (ie_min E F) posMin
  (check_equal (ie_neg_min E F) negMin
  (and_then (ie_test_constant E F posOne (mpfr_set_si p 1))
  (and_then (ie_test_constant E F negOne (mpfr_set_si p (-1)))
  (let big := mpfr_mul_2si p RNDN (mpfr_set_si p (2 ^ (F + 1) - 1)) (- F + 2 ^ (E - 1) - 1) in
  and_then (ie_test_constant E F posMax big)
  (and_then (ie_test_constant E F negMax (mpfr_mul_neg1 p RNDN big))
  (ie_test_constant E F posMin (mpfr_mul_2si p RNDN (mpfr_set_si p (2 ^ F)) (- F - 2 ^ (E - 1) + 2)))))))))))))).
(** main, lines 202-219. *)
Definition ie_formats : list (Z * Z) := [(8, 23); (11, 52); (6, 4)].
Definition ie_main (d : nat -> fval) : option bool :=
  and_then ie_test_single (loop (fun f => ie_test (fst f) (snd f) d) ie_formats).
