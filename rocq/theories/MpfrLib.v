(** The MPFR functions the code calls, as their manual states them: every operation computes the exact result and
    rounds it once to the precision of its destination, then fits it in MPFR's default exponent range. This is a
    contract for a library that is not in /repo, so it belongs to the trusted base. An MPFR number is an [fval]; its
    precision p is an explicit argument, and a number [Num s m e] of precision p has 2^(p-1) <= m < 2^p. Memory
    management (mpfr_init2, mpfr_clear) and the ternary return values are left out. *)
From Coq Require Import ZArith Bool.
From Verif Require Import Spec.
Open Scope Z_scope.

Inductive mp_mode := RNDN | RNDZ | RNDU | RNDD.

(** The default exponent range, mpfr.h: MPFR_EMAX_DEFAULT is 2^30-1, MPFR_EMIN_DEFAULT its opposite; a number
    of MPFR exponent x lies in [2^(x-1), 2^x). *)
Definition mp_emax : Z := 2 ^ 30 - 1.
Definition mp_emin : Z := - mp_emax.

(** Does the mode round a number of that sign away from zero? *)
Definition mp_away (mode : mp_mode) (s : bool) : bool :=
  match mode with RNDU => negb s | RNDD => s | _ => false end.

(** (-1)^s (n/d) 2^k rounded to p bits, n and d positive. *)
Definition mp_round (p : Z) (mode : mp_mode) (s : bool) (n d k : Z) : fval :=
  let e := mag n d - (p - 1) in
  let a := num2 n (- e) in
  let b := den2 d (- e) in
  let m := match mode with RNDN => rne_div a b | _ => if mp_away mode s then (a + b - 1) / b else a / b end in
  let m' := if m =? 2 ^ p then 2 ^ (p - 1) else m in
  let e' := (if m =? 2 ^ p then e + 1 else e) + k in
  if mp_emax <? e' + p then
    match mode with
    | RNDN => Inf s
    | _ => if mp_away mode s then Inf s else Num s (2 ^ p - 1) (mp_emax - p)
    end
  else if e' + p <? mp_emin then
    let up := match mode with
              | RNDN => den2 d (k - (mp_emin - 2)) <? num2 n (k - (mp_emin - 2))
              | _ => mp_away mode s
              end in
    if up then Num s (2 ^ (p - 1)) (mp_emin - p) else Zero s
  else Num s m' e'.

(** An integer times 2^k, possibly zero. *)
Definition mp_round_z (p : Z) (mode : mp_mode) (v k : Z) : fval :=
  if v =? 0 then Zero (match mode with RNDD => true | _ => false end) else mp_round p mode (v <? 0) (Z.abs v) 1 k.

(** mpfr_set: the same number at another precision. *)
Definition mpfr_set (p : Z) (mode : mp_mode) (x : fval) : fval :=
  match x with Num s m e => mp_round p mode s m 1 e | _ => x end.
(** mpfr_set_z_2exp(dst, z, e, mode): z 2^e; zero is +0. *)
Definition mpfr_set_z_2exp (p : Z) (mode : mp_mode) (z e : Z) : fval :=
  if z =? 0 then Zero false else mp_round p mode (z <? 0) (Z.abs z) 1 e.
Definition mpfr_neg (p : Z) (mode : mp_mode) (x : fval) : fval :=
  match x with
  | NaN => NaN
  | Inf s => Inf (negb s)
  | Zero s => Zero (negb s)
  | Num s m e => mp_round p mode (negb s) m 1 e
  end.
(** mpfr_mul_2si(dst, x, k, mode): x 2^k. *)
Definition mpfr_mul_2si (p : Z) (mode : mp_mode) (x : fval) (k : Z) : fval :=
  match x with Num s m e => mp_round p mode s m 1 (e + k) | _ => x end.
Definition mpfr_mul (p : Z) (mode : mp_mode) (x y : fval) : fval :=
  match x, y with
  | NaN, _ | _, NaN => NaN
  | Inf s, Inf t => Inf (xorb s t)
  | Inf s, Num t _ _ => Inf (xorb s t)
  | Inf _, Zero _ => NaN
  | Num s _ _, Inf t => Inf (xorb s t)
  | Zero _, Inf _ => NaN
  | Zero s, Zero t => Zero (xorb s t)
  | Zero s, Num t _ _ => Zero (xorb s t)
  | Num s _ _, Zero t => Zero (xorb s t)
  | Num s m e, Num t n f => mp_round p mode (xorb s t) (m * n) 1 (e + f)
  end.
(** mpfr_mul_si(dst, x, -1, mode): multiplication by the integer -1. *)
Definition mpfr_mul_neg1 (p : Z) (mode : mp_mode) (x : fval) : fval := mpfr_mul p mode x (Num true 1 0).
Definition mpfr_sqr (p : Z) (mode : mp_mode) (x : fval) : fval := mpfr_mul p mode x x.
(** A sum of two finite numbers as an integer times a power of two. *)
Definition mp_add_num (p : Z) (mode : mp_mode) (s : bool) (m e : Z) (t : bool) (n f : Z) : fval :=
  let k := Z.min e f in
  mp_round_z p mode ((if s then - m else m) * 2 ^ (e - k) + (if t then - n else n) * 2 ^ (f - k)) k.
Definition mpfr_add (p : Z) (mode : mp_mode) (x y : fval) : fval :=
  match x, y with
  | NaN, _ | _, NaN => NaN
  | Inf s, Inf t => if Bool.eqb s t then Inf s else NaN
  | Inf s, _ => Inf s
  | _, Inf t => Inf t
  | Zero s, Zero t => if Bool.eqb s t then Zero s else Zero (match mode with RNDD => true | _ => false end)
  | Zero _, Num t n f => mp_round p mode t n 1 f
  | Num s m e, Zero _ => mp_round p mode s m 1 e
  | Num s m e, Num t n f => mp_add_num p mode s m e t n f
  end.
Definition mpfr_div (p : Z) (mode : mp_mode) (x y : fval) : fval :=
  match x, y with
  | NaN, _ | _, NaN => NaN
  | Inf _, Inf _ => NaN
  | Zero _, Zero _ => NaN
  | Inf s, Zero t => Inf (xorb s t)
  | Inf s, Num t _ _ => Inf (xorb s t)
  | Num s _ _, Zero t => Inf (xorb s t)
  | Zero s, Inf t => Zero (xorb s t)
  | Zero s, Num t _ _ => Zero (xorb s t)
  | Num s _ _, Inf t => Zero (xorb s t)
  | Num s m e, Num t n f => mp_round p mode (xorb s t) m n (e - f)
  end.
(** mpfr_fma(dst, x, y, z, mode): x y + z rounded once. *)
Definition mpfr_fma (p : Z) (mode : mp_mode) (x y z : fval) : fval :=
  match x, y with
  | Num s m e, Num t n f =>
      match z with
      | NaN => NaN
      | Inf u => Inf u
      | Zero _ => mp_round p mode (xorb s t) (m * n) 1 (e + f)
      | Num u l g => mp_add_num p mode (xorb s t) (m * n) (e + f) u l g
      end
  | _, _ => (* one factor is not a regular number: the product is exact *)
      mpfr_add p mode (mpfr_mul p mode x y) z
  end.
(** The square root: m 2^e with the exponent made even and enough low bits for p bits of root; the root is never
    half way between two numbers of p bits. *)
Definition mp_sqrt_num (p : Z) (mode : mp_mode) (m e : Z) : fval :=
  let par := e mod 2 in
  let j := Z.max 0 (p + 1 - Z.log2 m / 2) in
  let n := m * 2 ^ (par + 2 * j) in
  let r := Z.sqrt n in
  (* one sticky bit below the integer root *)
  mp_round p mode false (2 * r + (if r * r =? n then 0 else 1)) 1 ((e - par) / 2 - j - 1).
Definition mpfr_sqrt (p : Z) (mode : mp_mode) (x : fval) : fval :=
  match x with
  | NaN => NaN
  | Zero s => Zero s
  | Inf s => if s then NaN else Inf false
  | Num s m e => if s then NaN else mp_sqrt_num p mode m e
  end.
(** mpfr_cmp(x,y) <> 0 for finite numbers. *)
Definition mpfr_differ (x y : fval) : bool :=
  match x, y with
  | Num s m e, Num t n f =>
      let k := Z.min e f in
      negb ((if s then - m else m) * 2 ^ (e - k) =? (if t then - n else n) * 2 ^ (f - k))
  | Zero _, Zero _ => false
  | _, _ => true
  end.
