(** Specification of the fused multiply-add. Nothing here refers to the model of the code. *)
From Coq Require Import ZArith Bool.
From Verif Require Import Spec.
Open Scope Z_scope.

(** No rounding at all: the product and the sum as numbers of unlimited precision. *)
Definition no_rounding (neg : bool) (n d k : Z) : fval := Num neg n k.
Definition prod_exact := mul_gen no_rounding.
Definition sum_exact := add_gen no_rounding.

(** x*y + z rounded once to the format E, F. *)
Definition fma_spec (E F : Z) (x y z : fval) : fval := add_gen (round_to E F) (prod_exact x y) z.
