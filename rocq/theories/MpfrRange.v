(** More of the MPFR contract (see MpfrLib.v): operations under an exponent range set by mpfr_set_emin and
    mpfr_set_emax, the ternary value they return, mpfr_subnormalize, comparison, and stepping to the next number. Like
    MpfrLib.v this describes a library that is not in /repo, so it belongs to the trusted base. *)
From Coq Require Import ZArith Bool.
From Verif Require Import Fw Spec MpfrLib.
Open Scope Z_scope.

(** The ternary value tells whether the number returned is below (Lt), equal to, or above (Gt) the exact one. Here the
    comparison of magnitudes c becomes that of the signed numbers. *)
Definition signed (s : bool) (c : comparison) : comparison := if s then CompOpp c else c.

(** (-1)^s (n/d) 2^k rounded to nearest at p bits, in the range lo..hi of MPFR exponents. *)
Definition mp_round_t (lo hi p : Z) (s : bool) (n d k : Z) : fval * comparison :=
  let e := mag n d - (p - 1) in
  let a := num2 n (- e) in
  let b := den2 d (- e) in
  let m := rne_div a b in
  let m' := if m =? 2 ^ p then 2 ^ (p - 1) else m in
  let e' := (if m =? 2 ^ p then e + 1 else e) + k in
  if hi <? e' + p then (Inf s, signed s Gt)
  else if e' + p <? lo then
    if den2 d (k - (lo - 2)) <? num2 n (k - (lo - 2)) then (Num s (2 ^ (p - 1)) (lo - p), signed s Gt)
    else (Zero s, signed s Lt)
  else (Num s m' e', signed s (m * b ?= a)).

(** The exact result of an operation: one that needs no rounding, or (-1)^s (n/d) 2^k. *)
Inductive exact := Special (v : fval) | Ratio (s : bool) (n d k : Z).
Definition exact_set (x : fval) : exact := match x with Num s m e => Ratio s m 1 e | _ => Special x end.
Definition exact_mul (x y : fval) : exact :=
  match x, y with
  | Num s m e, Num t n f => Ratio (xorb s t) (m * n) 1 (e + f)
  | NaN, _ | _, NaN | Inf _, Zero _ | Zero _, Inf _ => Special NaN
  | Inf s, (Inf t | Num t _ _) | Num s _ _, Inf t => Special (Inf (xorb s t))
  | Zero s, (Zero t | Num t _ _) | Num s _ _, Zero t => Special (Zero (xorb s t))
  end.
Definition exact_add (x y : fval) : exact :=
  match x, y with
  | NaN, _ | _, NaN => Special NaN
  | Inf s, Inf t => Special (if Bool.eqb s t then Inf s else NaN)
  | Inf s, _ | _, Inf s => Special (Inf s)
  | Zero s, Zero t => Special (Zero (s && t))
  | Zero _, Num s m e | Num s m e, Zero _ => Ratio s m 1 e
  | Num s m e, Num t n f =>
      let k := Z.min e f in
      let v := (if s then - m else m) * 2 ^ (e - k) + (if t then - n else n) * 2 ^ (f - k) in
      if v =? 0 then Special (Zero false) else Ratio (v <? 0) (Z.abs v) 1 k
  end.
Definition exact_div (x y : fval) : exact :=
  match x, y with
  | Num s m e, Num t n f => Ratio (xorb s t) m n (e - f)
  | NaN, _ | _, NaN | Inf _, Inf _ | Zero _, Zero _ => Special NaN
  | Inf s, (Zero t | Num t _ _) | Num s _ _, Zero t => Special (Inf (xorb s t))
  | Zero s, (Inf t | Num t _ _) | Num s _ _, Inf t => Special (Zero (xorb s t))
  end.

(** A number of p bits lies in the range. MPFR leaves the behaviour on operands outside it undefined (None). *)
Definition in_range (lo hi p : Z) (x : fval) : bool :=
  match x with Num _ _ e => (lo <=? e + p) && (e + p <=? hi) | _ => true end.
Definition mp_finish (lo hi p : Z) (x : exact) : fval * comparison :=
  match x with Special v => (v, Eq) | Ratio s n d k => mp_round_t lo hi p s n d k end.
(** mpfr_set, mpfr_mul, mpfr_add, mpfr_div (MPFR_RNDN), operands and destination of precision p. *)
Definition mpfr_set_t (lo hi p : Z) (x : fval) : option (fval * comparison) :=
  do _ <- assert_ (in_range lo hi p x); Some (mp_finish lo hi p (exact_set x)).
Definition mpfr_op_t (op : fval -> fval -> exact) (lo hi p : Z) (x y : fval) : option (fval * comparison) :=
  do _ <- assert_ (in_range lo hi p x && in_range lo hi p y); Some (mp_finish lo hi p (op x y)).
Definition mpfr_mul_t := mpfr_op_t exact_mul.
Definition mpfr_add_t := mpfr_op_t exact_add.
Definition mpfr_div_t := mpfr_op_t exact_div.

(** mpfr_subnormalize(x, t, MPFR_RNDN) under mpfr_set_emin(lo): a number whose exponent is below lo+p-1 is rounded again
    to as many bits as a subnormal number of that size has, j fewer than p. A tie goes by the ternary value t if the
    first rounding was inexact, to even otherwise. *)
Definition mpfr_subnormalize (lo p : Z) (r : fval * comparison) : fval :=
  match fst r with
  | Num s m e =>
      let j := lo + p - 1 - (e + p) in
      if j <=? 0 then Num s m e
      else
        let h := m / 2 ^ j in
        let l := m mod 2 ^ j in
        let up := match l ?= 2 ^ (j - 1) with
                  | Lt => false
                  | Gt => true
                  | Eq => match signed s (snd r) with Lt => true | Gt => false | Eq => Z.odd h end
                  end in
        let m' := (if up then h + 1 else h) * 2 ^ j in
        if m' =? 2 ^ p then Num s (2 ^ (p - 1)) (e + 1) else Num s m' e
  | v => v
  end.

(** mpfr_cmp and mpfr_cmp_d, as a comparison; 0 when an operand is NaN. mpfr_nan_p, mpfr_unordered_p. *)
Definition mpfr_cmp (x y : fval) : comparison :=
  match x, y with
  | NaN, _ | _, NaN => Eq
  | Inf true, Inf true | Inf false, Inf false | Zero _, Zero _ => Eq
  | Inf s, _ => if s then Lt else Gt
  | _, Inf s => if s then Gt else Lt
  | Zero _, Num s _ _ => if s then Gt else Lt
  | Num s _ _, Zero _ => if s then Lt else Gt
  | Num s m e, Num t n f =>
      let k := Z.min e f in
      (if s then - m else m) * 2 ^ (e - k) ?= (if t then - n else n) * 2 ^ (f - k)
  end.
Definition mpfr_nan_p (x : fval) : bool := match x with NaN => true | _ => false end.
Definition mpfr_unordered_p (x y : fval) : bool := mpfr_nan_p x || mpfr_nan_p y.

(** mpfr_set_d(dst, x, MPFR_RNDN) and whether its ternary value is not zero. *)
Definition mpfr_set_d (p : Z) (x : fval) : fval := mpfr_set p RNDN x.
Definition mpfr_set_d_inexact (p : Z) (x : fval) : bool := match mpfr_cmp (mpfr_set_d p x) x with Eq => false | _ => true end.

(** mpfr_nextabove, mpfr_nextbelow: the neighbour at precision p in the default range. *)
Definition mp_up (p m e : Z) : fval :=
  if m =? 2 ^ p - 1 then if e + p =? mp_emax then Inf false else Num false (2 ^ (p - 1)) (e + 1) else Num false (m + 1) e.
Definition mp_down (p m e : Z) : fval :=
  if m =? 2 ^ (p - 1) then if e + p =? mp_emin then Zero false else Num false (2 ^ p - 1) (e - 1) else Num false (m - 1) e.
Definition mpfr_nextabove (p : Z) (x : fval) : fval :=
  match x with
  | NaN => NaN
  | Inf s => if s then Num true (2 ^ p - 1) (mp_emax - p) else Inf false
  | Zero _ => Num false (2 ^ (p - 1)) (mp_emin - p)
  | Num s m e => if s then neg_spec (mp_down p m e) else mp_up p m e
  end.
Definition mpfr_nextbelow (p : Z) (x : fval) : fval := neg_spec (mpfr_nextabove p (neg_spec x)).
(** mpfr_urandomb: u/2^p for a random u in 0..2^p-1. *)
Definition mpfr_urandomb (p u : Z) : fval := if u =? 0 then Zero false else mp_round p RNDN false u 1 (- p).
