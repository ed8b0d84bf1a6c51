(** What the composite kernels should compute. Nothing here refers to the model of the code. *)
From Coq Require Import ZArith List Reals.
From Flocq Require Import Core.
From Verif Require Import Fw Spec Spec754 SpecFlocq SpecApp.
Open Scope Z_scope.

(** Element (r,c) of an n by n matrix stored row by row. *)
Definition at_rc {A : Type} (d : A) (n : nat) (m : list A) (r c : nat) : A := nth (r * n + c)%nat m d.
(** Element (r,c) of the product of two integer matrices. *)
Definition Zsum (l : list Z) : Z := fold_right Z.add 0 l.
Definition product_at (n : nat) (a b : list Z) (r c : nat) : Z :=
  Zsum (map (fun i => at_rc 0 n a r i * at_rc 0 n b i c) (seq 0 n)).
(** m is the product. *)
Definition is_product (n : nat) (a b : list Z) (m : list (list Z)) : Prop :=
  length m = n /\ forall r c, (r < n)%nat -> (c < n)%nat -> exists row, nth_error m r = Some row /\ nth_error row c = Some (product_at n a b r c).

(** A dot product in a FloPoCo format: accumulated in order from +0, one rounding per operation, and so close to the exact one. *)
Definition dots (E F : Z) (ab : list (Z * Z)) (o : option Z) : Prop :=
  exists r, o = Some r /\ wf (E + F + 3) r /\ let xys := map (fun p => (decode E F (fst p), decode E F (snd p))) ab in
  decode E F r = dot_spec E F xys /\
  (finite_v (decode E F r) -> let u := bpow radix2 (- (F + 1)) in let n := length ab in
    (Rabs (rv (decode E F r) - Rdot xys) <= ((1 + u) ^ n - 1) * Rabsdot xys + 2 * INR n * (1 + u) ^ n * bpow radix2 (emin E))%R).
(** The pairs of row r and "column" c if the second matrix is read at r*i+c instead of i*n+c. *)
Definition mmm_pairs (n : nat) (a b : list Z) (r c : nat) : list (Z * Z) := map (fun i => (nth (r * n + i) a 0, nth (r * i + c) b 0)) (seq 0 n).
(** The cell of two products a turn, added to each other first, in IEEE 754 arithmetic, read in the same way. *)
Definition u2_754 (E F : Z) (n : nat) (a b : list fval) (r c : nat) : fval :=
  fold_left (fun acc k => add754 E F acc (add754 E F (mul754 E F (nth (r * n + 2 * k) a NaN) (nth (r * (2 * k) + c) b NaN)) (mul754 E F (nth (r * n + 2 * k + 1) a NaN) (nth (r * (2 * k + 1) + c) b NaN)))) (seq 0 (n / 2)) (Zero false).
