(** Specification: what floating-point data mean and what correctly rounded
    operations are.  Nothing here refers to the model of the code. *)
From Coq Require Import ZArith Bool.
Open Scope Z_scope.

(** A floating-point datum.  [Num neg m e] is the real number (-1)^neg * m * 2^e, m>0. *)
Inductive fval : Type :=
| NaN
| Inf (neg : bool)
| Zero (neg : bool)
| Num (neg : bool) (m e : Z).

(** Nearest integer to n/d (d>0), ties to even. *)
Definition rne_div (n d : Z) : Z :=
  let q := n / d in
  let r := n mod d in
  if 2 * r <? d then q
  else if d <? 2 * r then q + 1
  else if Z.even q then q else q + 1.

(** Numerator and denominator of (n/d) * 2^k. *)
Definition num2 (n k : Z) : Z := n * 2 ^ (Z.max 0 k).
Definition den2 (d k : Z) : Z := d * 2 ^ (Z.max 0 (- k)).

(** floor(log2(n/d)) for n,d>0. *)
Definition mag (n d : Z) : Z :=
  let k := Z.log2 n - Z.log2 d in
  if num2 n (- k) <? den2 d (- k) then k - 1 else k.

(** n/d rounded to F+1 significant bits, to nearest, ties to even, unbounded exponent:
    returns (m,e) with 2^F <= m < 2^(F+1), meaning m*2^e. *)
Definition round_pos (F n d : Z) : Z * Z :=
  let e := mag n d - F in
  let m := rne_div (num2 n (- e)) (den2 d (- e)) in
  if m =? 2 ^ (F + 1) then (2 ^ F, e + 1) else (m, e).

(** Round towards zero instead. *)
Definition trunc_pos (F n d : Z) : Z * Z :=
  let e := mag n d - F in
  (num2 n (- e) / den2 d (- e), e).

Definition bias (E : Z) : Z := 2 ^ (E - 1) - 1.

(** Range of the exponent of the leading bit in a flopoco format: every exponent
    code 0 .. 2^E-1 is a normal number. *)
Definition emin (E : Z) : Z := - bias E.
Definition emax (E : Z) : Z := bias E + 1.

(** Fit a rounded number m*2^e (with F+1 bits) in an exponent range: flush to zero
    below, infinity above. *)
Definition finish (lo hi F : Z) (neg : bool) (me : Z * Z) : fval :=
  let '(m, e) := me in
  if e + F <? lo then Zero neg
  else if hi <? e + F then Inf neg
  else Num neg m e.

(** (-1)^neg * (n/d) * 2^k correctly rounded. *)
Definition round_range (lo hi F : Z) (neg : bool) (n d k : Z) : fval :=
  let '(m, e) := round_pos F n d in finish lo hi F neg (m, e + k).

Definition round_to (E F : Z) := round_range (emin E) (emax E) F.

(** Exact operations followed by one rounding; [rnd] is the rounding of the
    destination format. *)
Definition mul_gen (rnd : bool -> Z -> Z -> Z -> fval) (x y : fval) : fval :=
    match x, y with
    | NaN, _ | _, NaN => NaN
    | Inf _, Zero _ | Zero _, Inf _ => NaN
    | Inf s, Inf t | Inf s, Num t _ _ | Num s _ _, Inf t => Inf (xorb s t)
    | Zero s, Zero t | Zero s, Num t _ _ | Num s _ _, Zero t => Zero (xorb s t)
    | Num s m e, Num t n f => rnd (xorb s t) (m * n) 1 (e + f)
    end.

(** (-1)^s * m as an integer. *)
Definition sgn (s : bool) (m : Z) : Z := if s then - m else m.

Definition add_gen (rnd : bool -> Z -> Z -> Z -> fval) (x y : fval) : fval :=
    match x, y with
    | NaN, _ | _, NaN => NaN
    | Inf s, Inf t => if Bool.eqb s t then Inf s else NaN
    | Inf s, _ => Inf s
    | _, Inf t => Inf t
    | Zero s, Zero t => Zero (s && t)
    | Zero _, Num t n f => rnd t n 1 f
    | Num s m e, Zero _ => rnd s m 1 e
    | Num s m e, Num t n f =>
        let k := Z.min e f in
        let v := sgn s (m * 2 ^ (e - k)) + sgn t (n * 2 ^ (f - k)) in
        if v =? 0 then Zero false else rnd (v <? 0) (Z.abs v) 1 k
    end.

Definition div_gen (rnd : bool -> Z -> Z -> Z -> fval) (x y : fval) : fval :=
    match x, y with
    | NaN, _ | _, NaN => NaN
    | Inf _, Inf _ | Zero _, Zero _ => NaN
    | Inf s, Zero t | Inf s, Num t _ _ | Num s _ _, Zero t => Inf (xorb s t)
    | Zero s, Inf t | Zero s, Num t _ _ | Num s _ _, Inf t => Zero (xorb s t)
    | Num s m e, Num t n f => rnd (xorb s t) m n (e - f)
    end.

Definition convert_gen (rnd : bool -> Z -> Z -> Z -> fval) (x : fval) : fval :=
    match x with
    | Num s m e => rnd s m 1 e
    | _ => x
    end.

(** The operations of a flopoco format with E exponent and F fraction bits. *)
Definition mul_spec (E F : Z) := mul_gen (round_to E F).
Definition add_spec (E F : Z) := add_gen (round_to E F).
Definition div_spec (E F : Z) := div_gen (round_to E F).
Definition convert_spec (E F : Z) := convert_gen (round_to E F).

(** Negation. *)
Definition neg_spec (x : fval) : fval :=
  match x with
  | NaN => NaN
  | Inf s => Inf (negb s)
  | Zero s => Zero (negb s)
  | Num s m e => Num (negb s) m e
  end.

(** Decoding of a flopoco bit pattern: from the top, 2 flag bits (00 zero, 01 normal,
    10 infinity, 11 NaN), sign, E exponent bits (biased), F fraction bits. *)
Definition decode (E F x : Z) : fval :=
  let frac := x mod 2 ^ F in
  let ex := (x / 2 ^ F) mod 2 ^ E in
  let neg := Z.odd (x / 2 ^ (E + F)) in
  let flags := x / 2 ^ (E + F + 1) in
  if flags =? 0 then Zero neg
  else if flags =? 1 then Num neg (2 ^ F + frac) (ex - bias E - F)
  else if flags =? 2 then Inf neg
  else NaN.

(** Neither infinite nor NaN. *)
Definition finite_v (x : fval) : Prop := match x with NaN | Inf _ => False | _ => True end.

(** Order of data as real numbers (both non-NaN). [vcmp] is None when unordered. *)
Definition cmp_num (m e n f : Z) : comparison :=
  let k := Z.min e f in Z.compare (m * 2 ^ (e - k)) (n * 2 ^ (f - k)).

Definition vcmp (x y : fval) : option comparison :=
  match x, y with
  | NaN, _ | _, NaN => None
  | Inf s, Inf t =>
      Some (match s, t with true, false => Lt | false, true => Gt | _, _ => Eq end)
  | Inf s, _ => Some (if s then Lt else Gt)
  | _, Inf t => Some (if t then Gt else Lt)
  | Zero _, Zero _ => Some Eq
  | Zero _, Num t _ _ => Some (if t then Gt else Lt)
  | Num s _ _, Zero _ => Some (if s then Lt else Gt)
  | Num s m e, Num t n f => Some (cmp_num (sgn s m) e (sgn t n) f)
  end.

(** Same datum, up to the representation of a number as m*2^e. *)
Definition veq (x y : fval) : Prop :=
  match x, y with
  | NaN, NaN => True
  | Inf s, Inf t | Zero s, Zero t => s = t
  | Num s m e, Num t n f => s = t /\ cmp_num m e n f = Eq
  | _, _ => False
  end.

(** The line -inf < negative < -0 < +0 < positive < +inf, with the two zeros distinguished. *)
Definition below (x y : fval) : Prop :=
  vcmp x y = Some Lt \/ (x = Zero true /\ y = Zero false).

(** Decoding of an fp_ieee bit pattern: sign, E exponent bits, F fraction bits; the library
    has no denormals, patterns with a zero exponent are zeros. *)
Definition decode_ieee (E F x : Z) : fval :=
  let frac := x mod 2 ^ F in
  let ex := (x / 2 ^ F) mod 2 ^ E in
  let neg := Z.odd (x / 2 ^ (E + F)) in
  if ex =? 0 then Zero neg
  else if ex =? 2 ^ E - 1 then if frac =? 0 then Inf neg else NaN
  else Num neg (2 ^ F + frac) (ex - bias E - F).

(** Operations of an IEEE format: one exponent fewer at each end of the range. *)
Definition round_ieee (E F : Z) := round_range (emin E + 1) (emax E - 1) F.
Definition mul_ieee (E F : Z) := mul_gen (round_ieee E F).
Definition add_ieee (E F : Z) := add_gen (round_ieee E F).
Definition div_ieee (E F : Z) := div_gen (round_ieee E F).

(** IEEE predicates on data: NaN is unordered and unequal to everything. *)
Definition lt_spec (x y : fval) : bool := match vcmp x y with Some Lt => true | _ => false end.
Definition le_spec (x y : fval) : bool := match vcmp x y with Some Lt | Some Eq => true | _ => false end.
Definition gt_spec (x y : fval) : bool := match vcmp x y with Some Gt => true | _ => false end.
Definition ge_spec (x y : fval) : bool := match vcmp x y with Some Gt | Some Eq => true | _ => false end.
Definition eq_spec (x y : fval) : bool := match vcmp x y with Some Eq => true | _ => false end.

(** x is plus or minus a power of two 2^p, y has the opposite sign and
    2^(p-F-2) < |y| < 2^(p-F-1). (The case in which the single-path adder misrounds.) *)
Definition absorbed (F : Z) (x y : fval) : Prop :=
  exists s m e n f p, x = Num s m e /\ y = Num (negb s) n f /\ cmp_num m e 1 p = Eq /\
    cmp_num n f 1 (p - F - 2) = Gt /\ cmp_num n f 1 (p - F - 1) = Lt.
