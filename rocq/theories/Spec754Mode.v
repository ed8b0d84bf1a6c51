(** The rounding modes of IEEE 754 and round-to-odd, for the formats of Spec754.v. Nothing here refers to the model of the
    code. *)
From Coq Require Import ZArith Bool.
From Verif Require Import Spec Spec754.
Open Scope Z_scope.

(** To nearest, ties to even; toward zero; toward minus infinity; toward plus infinity; to nearest, ties away from zero; to
    odd: a result that is not exact is the one of its two neighbours whose last bit is one. *)
Inductive rmode := NearEven | MinMag | Min | Max | NearMaxMag | Odd.

(** The magnitude n/d of a number of the given sign, rounded to an integer. *)
Definition rnd_div (md : rmode) (neg : bool) (n d : Z) : Z :=
  let below := n / d in
  let above := if n mod d =? 0 then below else below + 1 in
  match md with
  | NearEven => rne_div n d
  | NearMaxMag => if 2 * (n mod d) <? d then below else below + 1
  | MinMag => below
  | Min => if neg then above else below
  | Max => if neg then below else above
  | Odd => if Z.odd below then below else above
  end.

(** What a result beyond the largest number becomes: infinity, or that number where the mode never goes away from zero. *)
Definition overflow754 (md : rmode) (E F : Z) (neg : bool) : fval :=
  let largest := Num neg (2 ^ (F + 1) - 1) (bias E - F) in
  match md with
  | NearEven | NearMaxMag => Inf neg
  | MinMag | Odd => largest
  | Min => if neg then Inf neg else largest
  | Max => if neg then largest else Inf neg
  end.

(** round754 (Spec754.v), in a given mode. *)
Definition round754m (md : rmode) (E F : Z) (neg : bool) (n d k : Z) : fval :=
  let q := Z.max (mag n d + k - F) (1 - bias E - F) in
  let m := rnd_div md neg (num2 n (k - q)) (den2 d (k - q)) in
  let m' := if m =? 2 ^ (F + 1) then 2 ^ F else m in
  let q' := if m =? 2 ^ (F + 1) then q + 1 else q in
  if m =? 0 then Zero neg else if bias E <? q' + F then overflow754 md E F neg else Num neg m' q'.

(** Sums that are exactly zero: the sign of both operands if they agree, otherwise + except toward minus infinity. *)
Definition zero_sum (md : rmode) : fval := Zero (match md with Min => true | _ => false end).

Definition add754m (md : rmode) (E F : Z) (x y : fval) : fval :=
  match x, y with
  | Zero s, Zero t => if Bool.eqb s t then Zero s else zero_sum md
  | Num s m e, Num t n f =>
      let k := Z.min e f in
      if sgn s (m * 2 ^ (e - k)) + sgn t (n * 2 ^ (f - k)) =? 0 then zero_sum md else add_gen (round754m md E F) x y
  | _, _ => add_gen (round754m md E F) x y
  end.
Definition mul754m (md : rmode) (E F : Z) := mul_gen (round754m md E F).
Definition div754m (md : rmode) (E F : Z) := div_gen (round754m md E F).
