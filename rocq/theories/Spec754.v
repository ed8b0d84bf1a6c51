(** IEEE 754 binary interchange formats with subnormal numbers: meaning of the bits, correct rounding, comparison.
    Nothing here refers to the model of the code. SpecFlocq754.v relates round754 to Flocq's rounding. *)
From Coq Require Import ZArith Bool.
From Verif Require Import Spec.
Open Scope Z_scope.

(** From the top: sign, E exponent bits (biased), F fraction bits. All ones in the exponent: infinity or NaN; zero in the
    exponent: zero or a subnormal number, without the leading one. *)
Definition decode754 (E F x : Z) : fval :=
  let frac := x mod 2 ^ F in
  let ex := (x / 2 ^ F) mod 2 ^ E in
  let neg := Z.odd (x / 2 ^ (E + F)) in
  if ex =? 2 ^ E - 1 then if frac =? 0 then Inf neg else NaN
  else if ex =? 0 then if frac =? 0 then Zero neg else Num neg frac (1 - bias E - F)
  else Num neg (2 ^ F + frac) (ex - bias E - F).

(** (-1)^neg * (n/d) * 2^k to nearest, ties to even: q is the exponent of the last place, F below the leading bit but not
    below that of the subnormal numbers. From 2^(bias+1) on, after rounding, infinity. *)
Definition round754 (E F : Z) (neg : bool) (n d k : Z) : fval :=
  let q := Z.max (mag n d + k - F) (1 - bias E - F) in
  let m := rne_div (num2 n (k - q)) (den2 d (k - q)) in
  let m' := if m =? 2 ^ (F + 1) then 2 ^ F else m in
  let q' := if m =? 2 ^ (F + 1) then q + 1 else q in
  if m =? 0 then Zero neg else if bias E <? q' + F then Inf neg else Num neg m' q'.

(** The operations: exact, then rounded once. *)
Definition add754 (E F : Z) := add_gen (round754 E F).
Definition mul754 (E F : Z) := mul_gen (round754 E F).
Definition div754 (E F : Z) := div_gen (round754 E F).

(** Comparison of the values: (-1)^s m 2^e against (-1)^t n 2^f at the common exponent. NaN is unordered. *)
Definition cmp754 (x y : fval) : option comparison :=
  match x, y with
  | NaN, _ | _, NaN => None
  | Inf s, Inf t => Some (match s, t with true, false => Lt | false, true => Gt | _, _ => Eq end)
  | Inf s, _ => Some (if s then Lt else Gt)
  | _, Inf t => Some (if t then Gt else Lt)
  | Zero _, Zero _ => Some Eq
  | Zero _, Num t _ _ => Some (if t then Gt else Lt)
  | Num s _ _, Zero _ => Some (if s then Lt else Gt)
  | Num s m e, Num t n f =>
      let k := Z.min e f in Some (sgn s (m * 2 ^ (e - k)) ?= sgn t (n * 2 ^ (f - k)))
  end.
Definition eq754 (x y : fval) : bool := match cmp754 x y with Some Eq => true | _ => false end.
Definition lt754 (x y : fval) : bool := match cmp754 x y with Some Lt => true | _ => false end.
Definition le754 (x y : fval) : bool := match cmp754 x y with Some Lt | Some Eq => true | _ => false end.
