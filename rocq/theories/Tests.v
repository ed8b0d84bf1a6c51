(** Model of the inputs and comparisons of the test programs src/fp_ops/test_mul*.cpp, test_div*.cpp, test_add*.cpp,
    test_fma.cpp, test_fp_convert.cpp and test_inv_nr.cpp. A test returns Some true if the program goes on, Some false if it
    leaves with exit(1), None if an assertion fails, something is thrown or the behaviour is undefined. Messages, and the
    calls made once more to print them before exit(1), are not modelled. *)
From Coq Require Import ZArith List Bool.
From Verif Require Import Fw FwWord Spec Flopoco Mul AddSingle AddDual Div Fma MpfrLib Mpfr MpfrRange Dbl Policy.
Import ListNotations.
Open Scope Z_scope.

(** ** make_input<fp_flopoco<E,F>>, make_input.hpp:11-117 *)

(** u i is the i-th draw of mpfr_urandomb, from 0..2^(F+1)-1. The two pushes of a value and its negation, and the loops
    around them, are those of Policy.v: the constructor is [fl_of_mpfr], the precision F+1. The powers of two go from
    -F-6 to F+5 (lines 81-87). *)
Definition make_args (E F : Z) (u : nat -> Z) (n : nat) : option (list Z) :=
  let P := flopoco_policy E F in
  do ints <- push_doubles P false small_integers;
  let one := mpfr_set_d (F + 1) (Num false (2 ^ 52) (-52)) in
  do above1 <- push_steps P mpfr_nextabove 10 one;
  do below1 <- push_steps P mpfr_nextbelow 10 one;
  do mn <- fl_get E F (F + 1) (lim_min E F);
  do above0 <- push_steps P mpfr_nextabove 10 mn;
  do mx <- fl_get E F (F + 1) (lim_max E F);
  do belowinf <- push_steps P mpfr_nextbelow 10 mx;
  do powers <- push_doubles P true (binary_powers F);
  push_random P u n 0 n
    (ints ++ [lim_neg_infinity E F; lim_neg_max E F; lim_neg_min E F; lim_neg_zero E F; lim_pos_zero E F; lim_min E F; lim_max E F;
              lim_infinity E F] ++ above1 ++ below1 ++ above0 ++ belowinf ++ powers).

(** ** One comparison *)

(** if(!fref.equals(fgot).to_bool()) exit(1): test_mul.cpp:17-44, test_div.cpp:18-42, test_add_dual.cpp:18-58,
    test_add_param.cpp:18-60, test_inv_nr.cpp:19-40. *)
Definition same_or_exit (E F : Z) (got ref : option Z) : option bool :=
  do fgot <- got; do fref <- ref; Some (to_bool (equals E F fref fgot)).
(** mpfr_nexttoward(x,y): x becomes NaN if either is NaN, else it moves one place towards y unless they compare equal. *)
Definition mpfr_nexttoward (p : Z) (x y : fval) : fval :=
  if mpfr_unordered_p x y then NaN
  else match mpfr_cmp x y with Eq => x | Lt => mpfr_nextabove p x | Gt => mpfr_nextbelow p x end.
(** The comparison that lets neighbours pass: test_add_single.cpp:18-60 and the programs for its versions,
    test_fp_convert.cpp:18-58. *)
Definition near_or_exit (E F : Z) (got ref : option Z) : option bool :=
  do fgot <- got; do fref <- ref;
  if negb (to_bool (equals E F fref fgot)) then
    do refV <- fl_get E F (F + 1) fref;
    do gotV <- fl_get E F (F + 1) fgot;
    let gotV := mpfr_nexttoward (F + 1) gotV refV in
    Some (match mpfr_cmp gotV refV with Eq => true | _ => false end)
  else Some true.
(** test_fma.cpp:19-62. *)
Definition ulp_or_exit (E F : Z) (got ref : option Z) : option bool :=
  do fgot <- got; do fref <- ref; Some (to_bool (within_1ulp E F fref fgot)).
(** test_inv_faithful, test_inv_nr.cpp:44-65. *)
Definition either_or_exit (E F : Z) (got : option Z) (ref : option (Z * Z)) : option bool :=
  do fgot <- got; do r <- ref; Some (to_bool (equals E F (fst r) fgot) || to_bool (equals E F (snd r) fgot)).

(** ** The loops of test_impl *)

Fixpoint each {A : Type} (test : A -> option bool) (l : list A) : option bool :=
  match l with
  | [] => Some true
  | x :: l => do ok <- test x; if ok then each test l else Some false
  end.
(** for i, for j: test(args_a[i], args_b[j]). *)
Definition each2 (test : Z -> Z -> option bool) (la lb : list Z) : option bool := each (fun a => each (test a) lb) la.

(** test_mul_different_frac.cpp:46-64; test_mul.cpp:47-60 with one list. impl is the function under test. *)
Definition test_mul_impl (impl : Z -> Z -> option Z) (ER FR EA FA EB FB : Z) (u v : nat -> Z) (n : nat) : option bool :=
  do la <- make_args EA FA u n; do lb <- make_args EB FB v n;
  each2 (fun a b => same_or_exit ER FR (impl a b) (Mpfr.ref_mul ER FR EA FA EB FB a b)) la lb.
(** test_div.cpp:46-59. *)
Definition test_div_impl (impl : Z -> Z -> option Z) (E F : Z) (u : nat -> Z) (n : nat) : option bool :=
  do l <- make_args E F u n;
  each2 (fun a b => same_or_exit E F (impl a b) (Mpfr.ref_div E F E F E F a b)) l l.
(** test_add_dual.cpp:62-75, test_add_param.cpp:62-75. *)
Definition test_add_impl (impl : Z -> Z -> option Z) (E F : Z) (u : nat -> Z) (n : nat) : option bool :=
  do l <- make_args E F u n;
  each2 (fun a b => same_or_exit E F (impl a b) (Mpfr.ref_add E F E F E F a b)) l l.
(** test_add_single_different_frac.cpp:64-82, test_add_single_different_exp.cpp:66-82; test_add_single.cpp:64-77 and the
    programs for versions 2 to 4 with one list. *)
Definition test_add_near (impl : Z -> Z -> option Z) (ER FR EA FA EB FB : Z) (u v : nat -> Z) (n : nat) : option bool :=
  do la <- make_args EA FA u n; do lb <- make_args EB FB v n;
  each2 (fun a b => near_or_exit ER FR (impl a b) (Mpfr.ref_add ER FR EA FA EB FB a b)) la lb.
(** test_fp_convert.cpp:62-75. *)
Definition test_convert_impl (impl : Z -> option Z) (ER FR EX FX : Z) (u : nat -> Z) (n : nat) : option bool :=
  do l <- make_args EX FX u n;
  each (fun a => near_or_exit ER FR (impl a) (ref_convert ER FR EX FX a)) l.
(** test_inv_nr.cpp:67-79 and 81-93. *)
Definition test_inv_impl (impl : Z -> option Z) (E F : Z) (u : nat -> Z) (n : nat) : option bool :=
  do l <- make_args E F u n;
  each (fun a => same_or_exit E F (impl a) (ref_inv E F E F a)) l.
Definition test_inv_faithful_impl (impl : Z -> option Z) (ER FR EY FY : Z) (u : nat -> Z) (n : nat) : option bool :=
  do l <- make_args EY FY u n;
  each (fun a => either_or_exit ER FR (impl a) (ref_inv_faithful ER FR EY FY a)) l.
(** test_fma.cpp:65-86: the second loop runs to args1.size() but reads args2[j]. *)
Definition test_fma_impl (impl : Z -> Z -> Z -> option Z) (ER FR EA FA EB FB EC FC : Z) (u v w : nat -> Z) (n : nat) : option bool :=
  do args1 <- make_args EA FA u n; do args2 <- make_args EB FB v n; do args3 <- make_args EC FC w n;
  each (fun a => each (fun j => each (fun c =>
    do b <- nth_error args2 j;
    ulp_or_exit ER FR (impl a b c) (ref_fma ER FR EA FA EB FB EC FC a b c)) args3) (seq 0 (length args1))) args1.
