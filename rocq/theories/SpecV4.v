(** The rounding rule that add_single_v4 turns out to implement. *)
From Coq Require Import ZArith Bool.
From Verif Require Import Spec.
Open Scope Z_scope.

(** n/d rounded towards zero, except that a tie with an even quotient goes up. *)
Definition skew_div (n d : Z) : Z :=
  let q := n / d in
  if (2 * (n mod d) =? d) && Z.even q then q + 1 else q.

(** The analogues of [round_pos], [round_to] and [add_spec] with that rule. *)
Definition skew_pos (F n d : Z) : Z * Z :=
  let e := mag n d - F in
  let m := skew_div (num2 n (- e)) (den2 d (- e)) in
  if m =? 2 ^ (F + 1) then (2 ^ F, e + 1) else (m, e).
Definition skew_to (E F : Z) (neg : bool) (n d k : Z) : fval :=
  let '(m, e) := skew_pos F n d in finish (emin E) (emax E) F neg (m, e + k).
Definition add_skew (E F : Z) := add_gen (skew_to E F).
