(** Model of the programs that use the library: the wrapper and conversions of policy_flopoco.hpp, the examples
    src/examples/sum.cpp and dot_product.cpp, and the benchmark kernels src/benchmarks/mat_mul/mat_mul_16x16.hpp and
    src/benchmarks/dot_product/dot_product_par4_tl.hpp with the traits of sweep_types.hpp. Arrays are lists or
    functions from indices; a failed assertion or a call that does not compile is None. *)
From Coq Require Import ZArith List Bool.
From Verif Require Import Fw Flopoco Mul AddDual AddSingle Div Ieee SoftFloat.
Import ListNotations.
Open Scope Z_scope.

(** fp_flopoco_wrapper<wE,wF>, policy_flopoco.hpp:23-85: the raw bits, and the operators. A default-constructed wrapper
    is the default fp_flopoco (fp_flopoco.hpp:32-34), whose bits are a default fw_uint: zero. *)
Definition fl_default : Z := 0.
Definition fl_mul (E F a b : Z) : option Z := mul E F E F F a b.
Definition fl_add (E F a b : Z) : option Z := add_dual E F E F E F a b.
Definition fl_div (E F a b : Z) : option Z := div E F E F E F a b.
Definition fl_cmp (op : Z -> Z -> Z -> Z -> Z -> Z -> option Z) (E F a b : Z) : option bool :=
  do r <- op E F E F a b; Some (to_bool r).

(** to<fp_flopoco_wrapper<wE,wF>>(float), policy_flopoco.hpp:231-248, without permission to lose anything: the static
    assertions, then convert, which exists only for equal formats. The float is its 32-bit word. *)
Definition to_fl (E F x : Z) : option Z :=
  do _ <- assert_ (8 <=? E);
  do _ <- assert_ (23 <=? F);
  do _ <- assert_ ((E =? 8) && (F =? 23));
  Some (to_flopoco 8 23 x).
(** to<float>(fp_flopoco_wrapper<wE,wF>), policy_flopoco.hpp:250-268. *)
Definition of_fl (E F x : Z) : option Z :=
  do _ <- assert_ (E <=? 8);
  do _ <- assert_ (F <=? 23);
  do _ <- assert_ ((E =? 8) && (F =? 23));
  Some (to_ieee 8 23 x).

(** A for loop over a list: the body updates the state or fails. *)
Fixpoint loop {A S : Type} (body : S -> A -> option S) (s : S) (l : list A) : option S :=
  match l with
  | [] => Some s
  | x :: rest => do s' <- body s x; loop body s' rest
  end.

(** sum, src/examples/sum.cpp:9-22; the array is the list of its n words. *)
Definition sum_body (acc x : Z) : option Z := do fx <- to_fl 8 23 x; fl_add 8 23 acc fx.
Definition sum_example (data : list Z) : option Z :=
  do acc <- loop sum_body fl_default data; of_fl 8 23 acc.

(** dot_product, src/examples/dot_product.cpp:9-24; the two arrays as one list of pairs. *)
Definition dot_body (acc : Z) (ab : Z * Z) : option Z :=
  do fa <- to_fl 8 23 (fst ab);
  do fb <- to_fl 8 23 (snd ab);
  do p <- fl_mul 8 23 fa fb;
  fl_add 8 23 acc p.
Definition dot_example (ab : list (Z * Z)) : option Z :=
  do acc <- loop dot_body fl_default ab; of_fl 8 23 acc.

(** flopoco_full_dot_traits<fp_flopoco<AE,AF>,fp_flopoco<LE,LF>,fp_flopoco<RE,RF>>, sweep_types.hpp. mul needs equal
    exponent widths of its operands (fp_flopoco_mul_v1.hpp:24). *)
Definition full_mul (AE AF LE LF RE RF x y : Z) : option Z :=
  do _ <- assert_ (LE =? RE);
  mul AE AF LE LF RF x y.
Definition full_add (AE AF a b : Z) : option Z := add_dual AE AF AE AF AE AF a b.
Definition full_add_mul (AE AF LE LF RE RF a x y : Z) : option Z :=
  do p <- full_mul AE AF LE LF RE RF x y; full_add AE AF a p.
Definition full_dot2 (AE AF LE LF RE RF x0 y0 x1 y1 : Z) : option Z :=
  do p <- full_mul AE AF LE LF RE RF x0 y0;
  do q <- full_mul AE AF LE LF RE RF x1 y1;
  full_add AE AF p q.

(** flopoco_round_dot_traits. TMF is the wider of the two operand fractions. *)
Definition round_add (AE AF a b : Z) : option Z := add_single AE AF AE AF AE AF a b.
Definition round_add_mul (AE AF LE LF RE RF a x y : Z) : option Z :=
  let TMF := Z.max LF RF in
  do _ <- assert_ (LE =? RE);
  do p <- mul AE TMF LE LF RF x y;
  add_single AE AF AE AF AE TMF a p.
Definition round_dot2 (AE AF LE LF RE RF x0 y0 x1 y1 : Z) : option Z :=
  let TMF := Z.max LF RF in
  do x0p <- promote AE LF LE LF x0;
  do x1p <- promote AE LF LE LF x1;
  do y0p <- promote AE RF RE RF y0;
  do y1p <- promote AE RF RE RF y1;
  do a0 <- mul AE TMF AE LF RF x0p y0p;
  do a1 <- mul AE TMF AE LF RF x1p y1p;
  do a0p <- promote AE AF AE TMF a0;
  do a1p <- promote AE AF AE TMF a1;
  add_single AE AF AE AF AE AF a0p a1p.

(** softfloat32_dot_traits: fp_softfloat.hpp's add and mul. *)
Definition soft_add_mul (U a x y : Z) : option Z := do p <- f32_mul U x y; f32_add U a p.
Definition soft_dot2 (U x0 y0 x1 y1 : Z) : option Z := do p <- f32_mul U x0 y0; do q <- f32_mul U x1 y1; f32_add U p q.

(** dot_product_par4, dot_product_par4_tl.hpp:8-24, for traits with the given dot2 and add. *)
Definition dot_par4 (dot2 : Z -> Z -> Z -> Z -> option Z) (add : Z -> Z -> option Z)
    (l0 r0 l1 r1 l2 r2 l3 r3 : Z) : option Z :=
  do a <- dot2 l0 r0 l1 r1; do b <- dot2 l2 r2 l3 r3; add a b.

(** mat_mul, mat_mul_16x16.hpp:7-24 with N for 16: the cell in row r, column c, then all cells row by row. *)
Definition cell (add_mul : Z -> Z -> Z -> option Z) (dflt : Z) (N : nat) (left right : nat -> nat -> Z) (r c : nat) : option Z :=
  loop (fun res i => add_mul res (left r i) (right i c)) dflt (seq 0 N).
Fixpoint each {A B : Type} (f : A -> option B) (l : list A) : option (list B) :=
  match l with
  | [] => Some []
  | a :: t => do b <- f a; do bs <- each f t; Some (b :: bs)
  end.
Definition mat_mul (add_mul : Z -> Z -> Z -> option Z) (dflt : Z) (N : nat) (left right : nat -> nat -> Z) : option (list (list Z)) :=
  each (fun r => each (cell add_mul dflt N left right r) (seq 0 N)) (seq 0 N).
