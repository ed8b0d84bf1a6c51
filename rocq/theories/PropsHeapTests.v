(** Sums of many numbers through heaps, and the test programs of the heaps (C86). *)
From Coq Require Import ZArith Bool List.
From Verif Require Import Fw SpecHeap Heap SpecHeapSum HeapTests HeapTestsProofs Inst.
Import ListNotations.
Open Scope Z_scope.

(** Numbers of any widths, merged in any order and with any brackets: the heap, its compressed form and the final adder all
    hold the exact sum, reduced to the width of the widest number; compression comes to an end. *)
Theorem C86_bit_heap_sum t : legal t -> exists h, run bit_of merge_bit_heaps t = Some h /\ bit_heap_to_mpz h = Some (exact t mod 2 ^ widest t) /\
  (exists n r, compress n h = Some r) /\
  forall n r, compress n h = Some r -> bit_heap_to_mpz r = Some (exact t mod 2 ^ widest t) /\ bit_heap_collapse r = Some (exact t mod 2 ^ widest t).
Proof. exact (bit_sum t). Qed.
Print Assumptions C86_bit_heap_sum.

(** The same for row heaps; compression needs two rows. *)
Theorem C86_row_heap_sum t : legal t -> exists rows, run row_one row_plus t = Some (widest t, rows) /\ row_heap_to_mpz (widest t) rows = exact t mod 2 ^ widest t /\
  (2 <= terms t -> exists n r, row_compress n (widest t) rows = Some r /\
    row_heap_to_mpz (widest t) r = exact t mod 2 ^ widest t /\ row_collapse (widest t) r = Some (exact t mod 2 ^ widest t)).
Proof. exact (row_sum t). Qed.
Print Assumptions C86_row_heap_sum.

(** (3 + 1) of two bits, whose sum needs three, plus 5 and 30 of five bits and 2 of two bits: 41, or 9 modulo 32. *)
Example C86_sum_instance :
  let t := Plus (Plus (One 2 3) (One 2 1)) (Plus (One 5 5) (Plus (One 5 30) (One 2 2))) in
  legal t /\ exact t = 41 /\ widest t = 5 /\ terms t = 5 /\
  (do h <- run bit_of merge_bit_heaps t; do r <- compress 4 h; bit_heap_collapse r) = Some 9 /\
  (do h <- run row_one row_plus t; do r <- row_compress 4 (fst h) (snd h); row_collapse (fst h) r) = Some 9.
Proof. vm_compute. repeat split; congruence. Qed.

(** test_bit_heap and test_row_heap, with and without QUICK, print no mismatch. *)
Theorem C86_bit_heap_test quick : bit_main bit_library quick = Some ([], 0).
Proof. exact (bit_main_ok quick). Qed.
Print Assumptions C86_bit_heap_test.
Example C86_bit_heap_test_at := C86_bit_heap_test true.
Theorem C86_row_heap_test quick : row_main row_library quick = Some ([], 0).
Proof. exact (row_main_ok quick). Qed.
Print Assumptions C86_row_heap_test.
Example C86_row_heap_test_at := C86_row_heap_test true.

(** The steps of the programs hold for operands of any widths, not only those the programs try. *)
Theorem C86_bit_heap_four WA WB WC WD b c d : 1 <= WA -> 1 <= WB -> 1 <= WC -> 1 <= WD -> 0 <= b < 2 ^ WB -> 0 <= c < 2 ^ WC -> 0 <= d < 2 ^ WD ->
  bit_level_4 bit_library WA WB WC WD b c d = Some [].
Proof. exact (bit_level_4_ok WA WB WC WD b c d). Qed.
Print Assumptions C86_bit_heap_four.
Example C86_bit_heap_four_at := C86_bit_heap_four 4 5 6 7 11 50 99 ltac:(hyp) ltac:(hyp) ltac:(hyp) ltac:(hyp) ltac:(hyp) ltac:(hyp) ltac:(hyp).
Theorem C86_row_heap_four WA WB WC WD b c d : 1 <= WA -> 1 <= WB -> 1 <= WC -> 1 <= WD -> 0 <= b < 2 ^ WB -> 0 <= c < 2 ^ WC -> 0 <= d < 2 ^ WD ->
  row_level_4 row_library WA WB WC WD b c d = Some [].
Proof. exact (row_level_4_ok WA WB WC WD b c d). Qed.
Print Assumptions C86_row_heap_four.
Example C86_four_instance : bit_level_4 bit_library 2 3 1 2 5 1 3 = Some [] /\ row_level_4 row_library 2 3 1 2 5 1 3 = Some [] /\
  bit_level_4 bit_wrong 1 3 1 2 5 1 3 = Some [(1, 2); (2, 3)].
Proof. vm_compute. repeat split; reflexivity. Qed.

(** That a wrong heap makes the programs fail is false: with a final adder that is off by one they print mismatches and still
    leave with status 0, the status of success. *)
Theorem C86_bit_heap_status_refuted : exists out, bit_main bit_wrong true = Some (out, 0) /\ out <> [].
Proof. exact bit_main_wrong. Qed.
Print Assumptions C86_bit_heap_status_refuted.
Theorem C86_row_heap_status_refuted : exists out, row_main row_wrong true = Some (out, 0) /\ out <> [].
Proof. exact row_main_wrong. Qed.
Print Assumptions C86_row_heap_status_refuted.
