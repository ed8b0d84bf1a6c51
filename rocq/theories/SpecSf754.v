(** Small vocabulary for C77: clients of SoftFloat's addition. The library has no subtraction or negation for float32_t and
    float64_t, so a client changes the sign bit (the top bit of the word of W bits). *)
From Coq Require Import ZArith Reals.
From Verif Require Import Fw Spec Spec754 SpecFlocq.
Open Scope Z_scope.

Definition flip (W x : Z) : Z := Z.lxor x (2 ^ (W - 1)).
(** The real number a word stands for (zero for infinities and NaN, which [finite_v] excludes). *)
Notation real754 E F x := (rv (decode754 E F x)).
(** Fast2Sum and 2Sum over an addition. *)
Definition sf_fast_two_sum (W : Z) (add : Z -> Z -> option Z) (x y : Z) : option (Z * Z) :=
  do a <- add x y; do z <- add x (flip W a); do b <- add y z; Some (a, b).
Definition sf_two_sum (W : Z) (add : Z -> Z -> option Z) (x y : Z) : option (Z * Z) :=
  do a <- add x y; do x' <- add a (flip W x); do t <- add a (flip W x');
  do dx <- add x (flip W t); do dy <- add y (flip W x'); do b <- add dx dy; Some (a, b).
