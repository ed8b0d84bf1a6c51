(** Model of the test policies and of the test program they are plugged into: policy_test.hpp (test_policy),
    policy_flopoco.hpp, policy_ieee_on_flopoco.hpp, policy_native.hpp and policy_softfloat.hpp. A float or double is its
    word; a throw, or a call whose behaviour is undefined, is None. MPFR numbers all have the precision [digits]. *)
From Coq Require Import ZArith List Bool.
From Verif Require Import Fw FwWord Spec SpecPolicy Spec754 SpecDbl Flopoco Mul AddDual Div Ieee MpfrLib Mpfr MpfrRange Dbl SoftFloat App.
Import ListNotations.
Open Scope Z_scope.

(** The static members of a policy, and numeric_limits<value_t>::digits, min, max, infinity. *)
Record policy := Policy {
  digits : Z;
  from_mpfr : bool -> fval -> option Z;
  to_mpfr : Z -> option fval;
  ref_mul : fval -> fval -> option fval;
  ref_add : fval -> fval -> option fval;
  ref_div : fval -> fval -> option fval;
  lmin : Z; lmax : Z; linf : Z
}.
(** ** policy_flopoco<wE,wF>, policy_flopoco.hpp:164-229: the range is set, the operation done, the range restored.
    1<<(wE-1) is an int. *)
Definition fl_ref (op : Z -> Z -> Z -> fval -> fval -> option (fval * comparison)) (E F : Z) (x y : fval) : option fval :=
  do _ <- assert_ ((1 <=? E) && (E <=? 31));
  do r <- op (- 2 ^ (E - 1) + 1) (2 ^ (E - 1) + 1) (F + 1) x y; Some (fst r).
Definition flopoco_policy (E F : Z) : policy :=
  Policy (F + 1) (fl_of_mpfr E F (F + 1)) (fl_get E F (F + 1))
    (fl_ref mpfr_mul_t E F) (fl_ref mpfr_add_t E F) (fl_ref mpfr_div_t E F)
    (lim_min E F) (lim_max E F) (lim_infinity E F).
(** The operators of fp_flopoco_wrapper, policy_flopoco.hpp:45-84. *)
Definition flopoco_ops (E F : Z) : operators :=
  Operators (fl_cmp equal E F) (fl_cmp not_equal E F) (fl_cmp less_than E F) (fl_cmp less_than_equal E F)
    (fl_cmp greater_than E F) (fl_cmp greater_than_equal E F) (fl_mul E F) (fl_add E F) (fl_div E F).

(** ** policy_ieee_on_flopoco<wE,wF>, policy_ieee_on_flopoco.hpp:165-226. *)
Definition ie_ref (op : Z -> Z -> Z -> fval -> fval -> option (fval * comparison)) (E F : Z) (x y : fval) : option fval :=
  do _ <- assert_ ((1 <=? E) && (E <=? 31));
  do r <- op (- 2 ^ (E - 1) + 2) (2 ^ (E - 1)) (F + 1) x y; Some (fst r).
Definition ieee_policy (E F : Z) : policy :=
  Policy (F + 1) (ie_of_mpfr E F (F + 1)) (ie_get E F (F + 1))
    (ie_ref mpfr_mul_t E F) (ie_ref mpfr_add_t E F) (ie_ref mpfr_div_t E F)
    (ie_min E F) (ie_max E F) (ie_infinity E F).
Definition ieee_ops (E F : Z) : operators :=
  Operators (w_eq E F) (w_ne E F) (w_lt E F) (w_le E F) (w_gt E F) (w_ge E F) (w_mul E F) (w_add E F) (w_div E F).

(** ** policy_native_single and policy_native_double, policy_native.hpp. *)

(** The word of a float or double with E exponent and F fraction bits; the number is normalised or subnormal. *)
Definition word754 (E F : Z) (v : fval) : Z :=
  match v with
  | NaN => (2 ^ E - 1) * 2 ^ F + 2 ^ (F - 1)
  | Inf s => Z.b2z s * 2 ^ (E + F) + (2 ^ E - 1) * 2 ^ F
  | Zero s => Z.b2z s * 2 ^ (E + F)
  | Num s m e => Z.b2z s * 2 ^ (E + F) + (if m <? 2 ^ F then m else (e + bias E + F) * 2 ^ F + (m - 2 ^ F))
  end.
(** The C++ conversion of a double to float. *)
Definition to_float (v : fval) : fval := match v with Num s m e => round754 8 23 s m 1 e | _ => v end.

(** ref_mul, ref_add, ref_div, policy_native.hpp:41-89 and 138-187. *)
Definition native_ref (lo hi p : Z) (op : Z -> Z -> Z -> fval -> fval -> option (fval * comparison)) (x y : fval) : option fval :=
  do r <- op lo hi p x y; Some (mpfr_subnormalize lo p r).
Definition single_ref op (prec : Z) (x y : fval) : option fval :=
  do _ <- assert_ (prec =? 24); native_ref (-148) 128 24 op x y.
Definition double_ref op (prec : Z) (x y : fval) : option fval :=
  do _ <- assert_ (prec =? 53); native_ref (-1073) 1024 53 op x y.

Definition zero_or_inf (v : fval) : bool := match v with Zero _ | Inf _ => true | _ => false end.
(** policy_native_single::from_mpfr, lines 95-129; x has precision 24. The difference printed before the last throw is
    left out. *)
Definition single_from (allow : bool) (x : fval) : option Z :=
  do r <- mpfr_set_t (-148) 128 24 x;
  let tmp := mpfr_subnormalize (-148) 24 r in
  let v := mpfr_get_d tmp in
  do _ <- match mpfr_cmp x v with
          | Eq => Some tt
          | _ => if zero_or_inf v then assert_ allow else None
          end;
  Some (word754 8 23 (to_float v)).
(** policy_native_double::from_mpfr, lines 11-33. lowest() <= abs(v) always holds: lowest() is negative. *)
Definition dbl_abs (v : fval) : fval := match v with Num _ m e => Num false m e | Inf _ => Inf false | Zero _ => Zero false | NaN => NaN end.
Definition double_from (allow : bool) (x : fval) : option Z :=
  let v := mpfr_get_d x in
  do _ <- match mpfr_cmp x v with
          | Eq => Some tt
          | _ => if zero_or_inf v then assert_ allow
                 else match mpfr_cmp (dbl_abs v) (Num false (2 ^ 52) (-1074)) with
                      | Gt => None
                      | _ => assert_ allow
                      end
          end;
  Some (word754 11 52 v).
(** to_mpfr, lines 35-39 and 131-135. *)
Definition native_to (E F p w : Z) : option fval :=
  let x := decode754 E F w in
  if mpfr_set_d_inexact p x then None else Some (mpfr_set_d p x).

(** policy_softfloat_single and _double, policy_softfloat.hpp:233-301, pass on to the native policies; memcpy keeps the
    word. The limits are those of float and double. policy_concept, policy_test.hpp:42-123, is
    policy_native_double under another name. *)
Definition single_policy : policy :=
  Policy 24 single_from (native_to 8 23 24)
    (single_ref mpfr_mul_t 24) (single_ref mpfr_add_t 24) (single_ref mpfr_div_t 24)
    (word754 8 23 (Num false (2 ^ 23) (-149))) (word754 8 23 (Num false (2 ^ 24 - 1) 104)) (word754 8 23 (Inf false)).
Definition double_policy : policy :=
  Policy 53 double_from (native_to 11 52 53)
    (double_ref mpfr_mul_t 53) (double_ref mpfr_add_t 53) (double_ref mpfr_div_t 53)
    (word754 11 52 (Num false (2 ^ 52) (-1074))) (word754 11 52 (Num false (2 ^ 53 - 1) 971)) (word754 11 52 (Inf false)).
(** The operators on float32_t and float64_t, policy_softfloat.hpp:176-229. U is the width of uint_fast32_t. *)
Definition single_ops (U : Z) : operators :=
  Operators (fun a b => Some (f32_eq a b)) (fun a b => Some (negb (f32_eq a b)))
    (fun a b => Some (f32_lt a b)) (fun a b => Some (f32_le a b)) (fun a b => Some (f32_lt b a)) (fun a b => Some (f32_le b a))
    (f32_mul U) (f32_add U) (f32_div U).
Definition double_ops : operators :=
  Operators (fun a b => Some (f64_eq a b)) (fun a b => Some (negb (f64_eq a b)))
    (fun a b => Some (f64_lt a b)) (fun a b => Some (f64_le a b)) (fun a b => Some (f64_lt b a)) (fun a b => Some (f64_le b a))
    f64_mul f64_add f64_div.

(** ** test_policy, policy_test.hpp:154-405 *)

(** checkOperator, lines 309-340: does this call count a failure? The message printed is left out. *)
Definition check_operator (P : policy) (ref : option fval) (got : option Z) : option bool :=
  do ref <- ref;
  do got <- got;
  do refTmp <- from_mpfr P true ref;
  do ref <- to_mpfr P refTmp;
  do gotM <- to_mpfr P got;
  Some (match mpfr_cmp gotM ref with Eq => false | _ => true end || negb (Bool.eqb (mpfr_nan_p gotM) (mpfr_nan_p ref))).
(** checkComparison, lines 292-307. *)
Definition check_comparison (got : option bool) (ref : bool) : option bool := do got <- got; Some (negb (Bool.eqb got ref)).
(** Which of the nine checks of a pair fail, lines 355-381. *)
Definition check_pair (P : policy) (O : operators) (ab : Z * Z) : option (list bool) :=
  let '(a, b) := ab in
  do inA <- to_mpfr P a;
  do inB <- to_mpfr P b;
  let c := mpfr_cmp inA inB in
  do f1 <- check_comparison (o_eq O a b) (match c with Eq => true | _ => false end);
  do f2 <- check_comparison (o_ne O a b) (match c with Eq => false | _ => true end || mpfr_unordered_p inA inB);
  do f3 <- check_comparison (o_lt O a b) (match c with Lt => true | _ => false end);
  do f4 <- check_comparison (o_le O a b) (match c with Gt => false | _ => true end);
  do f5 <- check_comparison (o_gt O a b) (match c with Gt => true | _ => false end);
  do f6 <- check_comparison (o_ge O a b) (match c with Lt => false | _ => true end);
  do f7 <- check_operator P (ref_mul P inA inB) (o_mul O a b);
  do f8 <- check_operator P (ref_add P inA inB) (o_add O a b);
  do f9 <- check_operator P (ref_div P inA inB) (o_div O a b);
  Some [f1; f2; f3; f4; f5; f6; f7; f8; f9].
(** The map from names of operators to the numbers of failures and of calls, in the order above; the numbers are ints
    that would overflow only with more than 46340 inputs. *)
Definition results := list (Z * Z).
Definition no_results : results := repeat (0, 0) 9.
Definition count (r : results) (fs : list bool) : results :=
  map (fun x => let '(f, (a, b)) := x in ((if f : bool then a + 1 else a), b + 1)) (combine fs r).
(** test_arithmetic on given inputs, lines 351-401: true if some operator has failures. *)
Definition test_inputs (P : policy) (O : operators) (input : list Z) : option bool :=
  do r <- loop (fun r ab => do fs <- check_pair P O ab; Some (count r fs)) no_results (list_prod input input);
  let failedTests := Z.of_nat (length (filter (fun ab => negb (fst ab =? 0)) r)) in
  Some (negb (failedTests =? 0)).

(** make_input, lines 162-287. A value and its negation are pushed; tmp is negated back. *)
Definition push2 (P : policy) (allow : bool) (tmp : fval) : option (list Z * fval) :=
  do a <- from_mpfr P allow tmp;
  let tmp := mpfr_mul_neg1 (digits P) RNDN tmp in
  do b <- from_mpfr P allow tmp;
  Some ([a; b], mpfr_mul_neg1 (digits P) RNDN tmp).
(** Lines 173-179 and 251-257: one pair for each double of a list. *)
Fixpoint push_doubles (P : policy) (allow : bool) (ds : list fval) : option (list Z) :=
  match ds with
  | [] => Some []
  | d :: rest => do r <- push2 P allow (mpfr_set_d (digits P) d); do l <- push_doubles P allow rest; Some (fst r ++ l)
  end.
(** Lines 208-214 and their like: k steps to the next number. *)
Fixpoint push_steps (P : policy) (next : Z -> fval -> fval) (k : nat) (tmp : fval) : option (list Z) :=
  match k with
  | O => Some []
  | S k => do r <- push2 P false (next (digits P) tmp); do l <- push_steps P next k (snd r); Some (fst r ++ l)
  end.
(** Lines 268-281: pairs of random ratios until there are n values; i numbers the draws, u is what they give. The loop
    adds two values at a time, so n turns suffice. *)
Fixpoint push_random (P : policy) (u : nat -> Z) (fuel : nat) (i : nat) (n : nat) (args : list Z) : option (list Z) :=
  if (length args <? n)%nat then
    match fuel with
    | O => None
    | S fuel =>
        let t := mpfr_urandomb (digits P) (u i) in
        let t2 := mpfr_urandomb (digits P) (u (S i)) in
        do r <- push2 P true (mpfr_div (digits P) RNDN t t2);
        push_random P u fuel (S (S i)) n (args ++ fst r)
    end
  else Some args.
Definition small_integers : list fval := map (fun a => dbl_round false (Z.of_nat a) 0) (seq 1 10).
(** ldexp(1.0,-i) for i from -digits-6 to digits+5. *)
Definition binary_powers (p : Z) : list fval :=
  map (fun j => dbl_ldexp (Num false (2 ^ 52) (-52)) (- (Z.of_nat j - p - 6))) (seq 0 (Z.to_nat (2 * p + 12))).
Definition make_input (P : policy) (u : nat -> Z) (n : nat) : option (list Z) :=
  let p := digits P in
  do ints <- push_doubles P false small_integers;
  do minf <- from_mpfr P false (Inf true);
  do mx <- to_mpfr P (lmax P);
  do mmax <- from_mpfr P false (mpfr_mul_neg1 p RNDN mx);
  do mn <- to_mpfr P (lmin P);
  do mmin <- from_mpfr P false (mpfr_mul_neg1 p RNDN mn);
  do mzero <- from_mpfr P false (Zero true);
  do pzero <- from_mpfr P false (Zero false);
  let one := mpfr_set_d p (Num false (2 ^ 52) (-52)) in
  do above1 <- push_steps P mpfr_nextabove 10 one;
  do below1 <- push_steps P mpfr_nextbelow 10 one;
  do above0 <- push_steps P mpfr_nextabove 10 mn;
  do belowinf <- push_steps P mpfr_nextbelow 10 mx;
  do powers <- push_doubles P true (binary_powers p);
  push_random P u n 0 n
    (ints ++ [minf; mmax; mmin; mzero; pzero; lmin P; lmax P; linf P] ++ above1 ++ below1 ++ above0 ++ belowinf ++ powers).
(** test_arithmetic(n), lines 342-402. *)
Definition test_arithmetic (P : policy) (O : operators) (u : nat -> Z) (n : nat) : option bool :=
  do input <- make_input P u n; test_inputs P O input.
