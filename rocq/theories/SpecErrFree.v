(** Three classical programs a user of the library may write with its operators, for C76.
    They are not part of the repository: they are clients of [add] and [neg]
    (fp_flopoco_primitives.hpp:18-22, 57-61, the dual-path adder and neg_v1), [mul]
    (fp_flopoco_primitives.hpp, mul_v1) and [fma] (fp_flopoco_fma.hpp:18-65), all operands and
    results of one format. *)
From Coq Require Import ZArith Reals.
From Flocq Require Import Core.
From Verif Require Import Fw Spec SpecFlocq Flopoco Mul AddDual Fma.
Open Scope Z_scope.

Definition fp_add (E F x y : Z) : option Z := add_dual E F E F E F x y.
Definition fp_sub (E F x y : Z) : option Z := do n <- neg E F E F y; add_dual E F E F E F x n.
(** Fast2Sum (Dekker): a = x + y; b = y + (x - a). *)
Definition fast_two_sum (E F x y : Z) : option (Z * Z) :=
  do a <- fp_add E F x y; do z <- fp_sub E F x a; do b <- fp_add E F y z; Some (a, b).
(** 2Sum (Knuth, Moller). *)
Definition two_sum (E F x y : Z) : option (Z * Z) :=
  do a <- fp_add E F x y; do x' <- fp_sub E F a x; do t <- fp_sub E F a x';
  do dx <- fp_sub E F x t; do dy <- fp_sub E F y x'; do b <- fp_add E F dx dy; Some (a, b).
(** 2Product with a fused multiply-add: p = x * y; e = fma(x, y, -p). *)
Definition two_product (E F x y : Z) : option (Z * Z) :=
  do p <- mul E F E F F x y; do n <- neg E F E F p; do e <- fma E F E F E F E F x y n; Some (p, e).
(** The real number a word stands for (zero for infinities and NaN, which [finite_v] excludes). *)
Notation real E F x := (rv (decode E F x)).
(** Zero or at least 2^(emin+F) in magnitude, of any size. *)
Definition not_tiny (E F x : Z) : Prop :=
  finite_v (decode E F x) /\ (real E F x = 0%R \/ (bpow radix2 (emin E + F) <= Rabs (real E F x))%R).
