(** Model of the multi-operand adders of src/fp_ops/mp/compressor/: plain sums, bit heaps, row heaps. W is 32 in the add32
    files and 64 in the add64 files. *)
From Coq Require Import ZArith List.
From Verif Require Import Fw FwWord Heap.
Import ListNotations.
Open Scope Z_scope.

(** add32x8.cpp:18, add64x8.cpp:18. *)
Definition add_x8 (W x0 x1 x2 x3 x4 x5 x6 x7 : Z) : Z :=
  fadd W (fadd W (fadd W (fadd W (fadd W (fadd W (fadd W x0 x1) x2) x3) x4) x5) x6) x7.
(** fw_uint_to_bit_heap of a number of W bits. *)
Definition heap_of (W x : Z) : option heap := uint_to_bit_heap (Z.to_nat W) x.
(** compress recurses until no column is higher than two; 8 levels are more than eight operands need. *)
Definition compressed (h : heap) : option heap := compress 8 h.
(** add32x4_compressor.cpp:14-29. *)
Definition add_x4_compressor (W x0 x1 x2 x3 : Z) : option Z :=
  do bh_x0 <- heap_of W x0; do bh_x1 <- heap_of W x1; do bh_x2 <- heap_of W x2; do bh_x3 <- heap_of W x3;
  do bh_x01 <- merge_bit_heaps bh_x0 bh_x1; do bh_x23 <- merge_bit_heaps bh_x2 bh_x3;
  do bh_x0123 <- merge_bit_heaps bh_x01 bh_x23;
  do bh_c0123 <- compressed bh_x0123;
  bit_heap_collapse bh_c0123.
(** add32x8_compressor.cpp:18-45, add64x8_compressor.cpp:11-33. *)
Definition add_x8_compressor (W x0 x1 x2 x3 x4 x5 x6 x7 : Z) : option Z :=
  do bh_x0 <- heap_of W x0; do bh_x1 <- heap_of W x1; do bh_x2 <- heap_of W x2; do bh_x3 <- heap_of W x3;
  do bh_x4 <- heap_of W x4; do bh_x5 <- heap_of W x5; do bh_x6 <- heap_of W x6; do bh_x7 <- heap_of W x7;
  do bh_x01 <- merge_bit_heaps bh_x0 bh_x1; do bh_x23 <- merge_bit_heaps bh_x2 bh_x3;
  do bh_x45 <- merge_bit_heaps bh_x4 bh_x5; do bh_x67 <- merge_bit_heaps bh_x6 bh_x7;
  do bh_x0123 <- merge_bit_heaps bh_x01 bh_x23; do bh_x4567 <- merge_bit_heaps bh_x45 bh_x67;
  do bh_x01234567 <- merge_bit_heaps bh_x0123 bh_x4567;
  do bh_c01234567 <- compressed bh_x01234567;
  bit_heap_collapse bh_c01234567.
(** add32x4_row_heap.cpp:12-24. *)
Definition row_plus (a : Z * list Z) (b : Z * list Z) : option (Z * list Z) := row_add (fst a) (fst b) (snd a) (snd b).
Definition rows_of (W x : Z) : Z * list Z := (W, fw_uint_to_row_heap x).
Definition add_x4_row_heap (W x0 x1 x2 x3 : Z) : option Z :=
  do s <- row_plus (rows_of W x0) (rows_of W x1); do s <- row_plus s (rows_of W x2); do bh <- row_plus s (rows_of W x3);
  do bh_c <- row_compress 8 (fst bh) (snd bh);
  row_collapse (fst bh) bh_c.
(** add32x8_row_heap.cpp:18-36. *)
Definition add_x8_row_heap (W x0 x1 x2 x3 x4 x5 x6 x7 : Z) : option Z :=
  do s <- row_plus (rows_of W x0) (rows_of W x1); do s <- row_plus s (rows_of W x2); do s <- row_plus s (rows_of W x3);
  do s <- row_plus s (rows_of W x4); do s <- row_plus s (rows_of W x5); do s <- row_plus s (rows_of W x6);
  do bh <- row_plus s (rows_of W x7);
  do bh_c <- row_compress 8 (fst bh) (snd bh);
  row_collapse (fst bh) bh_c.
(** test_bit_heap_mul.cpp:20-44: the two numbers it prints twice. The constants are a and b, TILE is 3, the widths 17 and 24. *)
Definition bit_heap_mul_main (a b : Z) : option ((Z * Z) * (Z * Z)) :=
  do a <- m_of_int 17 a; do b <- m_of_int 24 b;
  do bh <- bit_heap_mul 3 17 24 a b;
  do fromUI <- m_mul 17 24 a b;
  do fromBH <- bit_heap_to_mpz bh;
  do c <- compress 40 bh; do rr <- bit_heap_collapse c;
  Some ((fromBH, m_to_mpz 41 fromUI), (m_to_mpz 41 rr, m_to_mpz 41 fromUI)).
