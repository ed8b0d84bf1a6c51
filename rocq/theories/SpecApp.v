(** What the example programs and kernels compute: sums and dot products accumulated from +0 in the given order with one
    rounding per operation, and the exact real sums they approximate. Nothing here refers to the model of the code. *)
From Coq Require Import ZArith List Reals.
From Verif Require Import Spec Spec754 SpecFlocq.
Open Scope Z_scope.

Definition sum_spec (E F : Z) (xs : list fval) : fval := fold_left (add_spec E F) xs (Zero false).
Definition dot_spec (E F : Z) (xys : list (fval * fval)) : fval :=
  sum_spec E F (map (fun xy => mul_spec E F (fst xy) (snd xy)) xys).

Definition Rsum (l : list R) : R := fold_right Rplus 0%R l.
Definition Rabssum (l : list R) : R := Rsum (map Rabs l).

(** The same dot product in IEEE 754 arithmetic, and the balanced sum of four products. *)
Definition dot754 (E F : Z) (xys : list (fval * fval)) : fval :=
  fold_left (add754 E F) (map (fun xy => mul754 E F (fst xy) (snd xy)) xys) (Zero false).
Definition par4 (add mul : fval -> fval -> fval) (x0 y0 x1 y1 x2 y2 x3 y3 : fval) : fval :=
  add (add (mul x0 y0) (mul x1 y1)) (add (mul x2 y2) (mul x3 y3)).
(** The exact dot product of the real values, and the same with absolute values. *)
Definition Rdot (xys : list (fval * fval)) : R := Rsum (map (fun xy => rv (fst xy) * rv (snd xy))%R xys).
Definition Rabsdot (xys : list (fval * fval)) : R := Rabssum (map (fun xy => rv (fst xy) * rv (snd xy))%R xys).
Definition Rdot4 (x0 y0 x1 y1 x2 y2 x3 y3 : fval) : R := (rv x0 * rv y0 + rv x1 * rv y1 + rv x2 * rv y2 + rv x3 * rv y3)%R.
Definition Rabsdot4 (x0 y0 x1 y1 x2 y2 x3 y3 : fval) : R :=
  (Rabs (rv x0 * rv y0) + Rabs (rv x1 * rv y1) + Rabs (rv x2 * rv y2) + Rabs (rv x3 * rv y3))%R.

(** A matrix of N rows and N columns whose entry in row r and column c satisfies P r c. *)
Definition entries (N : nat) (m : list (list Z)) (P : nat -> nat -> Z -> Prop) : Prop :=
  length m = N /\ forall r, (r < N)%nat -> exists row, nth_error m r = Some row /\ length row = N /\
    forall c, (c < N)%nat -> exists z, nth_error row c = Some z /\ P r c z.
(** Row r of one matrix against column c of another. *)
Definition row_col {A B : Type} (N : nat) (left : nat -> nat -> A) (right : nat -> nat -> B) (r c : nat) : list (A * B) :=
  map (fun i => (left r i, right i c)) (seq 0 N).
