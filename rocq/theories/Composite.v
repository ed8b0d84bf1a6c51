(** Model of the composite kernels src/fp_ops/mp/fp/composite/*.cpp: function templates over a scalar type T. Arrays are
    lists; reading past the end is None, as are a failed assertion, an indeterminate value and a call that does not
    compile. n is not negative. Not modelled: fp_sum_array_u2.cpp and fp_sum_vec4_left.cpp, which are not C++ (`i++2`, an
    unbalanced parenthesis). *)
From Coq Require Import ZArith List Bool.
From Verif Require Import Fw Spec Spec754 App.
Import ListNotations.

(** What the templates use of T: `T acc;`, `T acc=0;`, + (and += which assigns the sum), *. *)
Record scalar (T : Type) := Scalar { dflt : option T; of_zero : option T; plus : T -> T -> option T; times : T -> T -> option T }.
Arguments dflt {T}. Arguments of_zero {T}. Arguments plus {T}. Arguments times {T}.

(** fp_flopoco_wrapper<E,F>, policy_flopoco.hpp:23-85: the default is zero; no constructor takes an int. *)
Definition wrapper (E F : Z) : scalar Z := Scalar Z (Some fl_default) None (fl_add E F) (fl_mul E F).
(** float and double, in IEEE 754 arithmetic without contraction: `T acc;` is indeterminate. *)
Definition native (E F : Z) : scalar fval :=
  Scalar fval None (Some (Zero false)) (fun x y => Some (add754 E F x y)) (fun x y => Some (mul754 E F x y)).
(** An exact type whose default is zero, as mpz_class. *)
Definition exact : scalar Z := Scalar Z (Some 0%Z) (Some 0%Z) (fun x y => Some (x + y)%Z) (fun x y => Some (x * y)%Z).

Section Kernels.
Context {T : Type} (S : scalar T).
Open Scope nat_scope.
(** a[i]*b[j] *)
Definition prod_at (a b : list T) (i j : nat) : option T := do x <- nth_error a i; do y <- nth_error b j; times S x y.

(** fp_sum_array_native_8_23, fp_sum_array.cpp:1-13. *)
Definition fp_sum_array (n : nat) (x : list T) : option T :=
  do acc <- dflt S; loop (fun acc i => do xi <- nth_error x i; plus S acc xi) acc (seq 0 n).
(** fp_dot_product, fp_dot_product.cpp:1-14. *)
Definition fp_dot_product (n : nat) (a b : list T) : option T :=
  do acc <- dflt S; loop (fun acc i => do p <- prod_at a b i i; plus S acc p) acc (seq 0 n).
(** fp_dot_product_u2, fp_dot_product_u2.cpp:1-17; the k-th turn has i=2k. *)
Definition fp_dot_product_u2 (n : nat) (a b : list T) : option T :=
  do _ <- assert_ (n mod 2 =? 0);
  do acc <- of_zero S;
  loop (fun acc k => let i := 2 * k in
    do p <- prod_at a b i i; do acc <- plus S acc p; do q <- prod_at a b (i + 1) (i + 1); plus S acc q) acc (seq 0 (n / 2)).
(** mmm, fp_mmm.cpp:1-18: the elements of res row by row. *)
Definition mmm_cell (n : nat) (a b : list T) (r c : nat) : option T :=
  do acc <- dflt S; loop (fun acc i => do p <- prod_at a b (r * n + i) (r * i + c); plus S acc p) acc (seq 0 n).
Definition mmm (n : nat) (a b : list T) : option (list (list T)) :=
  each (fun r => each (mmm_cell n a b r) (seq 0 n)) (seq 0 n).
(** mmm, fp_mmm_u2.cpp:1-20. *)
Definition mmm_u2_cell (n : nat) (a b : list T) (r c : nat) : option T :=
  do acc <- of_zero S;
  loop (fun acc k => let i := 2 * k in
    do p <- prod_at a b (r * n + i) (r * i + c); do q <- prod_at a b (r * n + i + 1) (r * (i + 1) + c);
    do s <- plus S p q; plus S acc s) acc (seq 0 (n / 2)).
Definition mmm_u2 (n : nat) (a b : list T) : option (list (list T)) :=
  do _ <- assert_ (n mod 2 =? 0);
  each (fun r => each (mmm_u2_cell n a b r) (seq 0 n)) (seq 0 n).
(** fp_sum_array_vec4_balanced, fp_sum_vec4_balanced.cpp:1-10. *)
Definition fp_sum_vec4_balanced (a b c d : T) : option T := do s <- plus S a b; do t <- plus S c d; plus S s t.
End Kernels.
