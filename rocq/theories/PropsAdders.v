(** Properties of the multi-operand adders and of the multiplier program built from heaps (C68). *)
From Coq Require Import ZArith List Lia.
From Verif Require Import Fw FwWord Heap HeapProofs2 Adders AddersProofs.
Import ListNotations.
Open Scope Z_scope.

(** Four operands: the bit heap and the row heap give the sum modulo 2^W. *)
Theorem C68_four W x0 x1 x2 x3 : 1 <= W -> 0 <= x0 < 2 ^ W -> 0 <= x1 < 2 ^ W -> 0 <= x2 < 2 ^ W -> 0 <= x3 < 2 ^ W ->
  let sum := (x0 + x1 + x2 + x3) mod 2 ^ W in
  add_x4_compressor W x0 x1 x2 x3 = Some sum /\ add_x4_row_heap W x0 x1 x2 x3 = Some sum.
Proof. exact (fun H A B C D => conj (x4_compressor W x0 x1 x2 x3 H A B C D) (x4_row_heap W x0 x1 x2 x3 (Z.le_trans 0 1 W Z.le_0_1 H) A B C D)). Qed.
Print Assumptions C68_four.
Example C68_four_ex : add_x4_compressor 32 0xFFFFFFFF 0xFFFFFFFF 3 5 = Some 6 /\ add_x4_row_heap 32 0xFFFFFFFF 0xFFFFFFFF 3 5 = Some 6.
Proof. vm_compute. split; reflexivity. Qed.

(** Eight operands: the chain of sums, the bit heap and the row heap give the sum modulo 2^W. *)
Theorem C68_eight W x0 x1 x2 x3 x4 x5 x6 x7 : 1 <= W -> 0 <= x0 < 2 ^ W -> 0 <= x1 < 2 ^ W -> 0 <= x2 < 2 ^ W -> 0 <= x3 < 2 ^ W ->
  0 <= x4 < 2 ^ W -> 0 <= x5 < 2 ^ W -> 0 <= x6 < 2 ^ W -> 0 <= x7 < 2 ^ W ->
  let sum := (x0 + x1 + x2 + x3 + x4 + x5 + x6 + x7) mod 2 ^ W in
  add_x8 W x0 x1 x2 x3 x4 x5 x6 x7 = sum /\ add_x8_compressor W x0 x1 x2 x3 x4 x5 x6 x7 = Some sum /\ add_x8_row_heap W x0 x1 x2 x3 x4 x5 x6 x7 = Some sum.
Proof.
  exact (fun H a b c d e f g h => conj (x8_plain W x0 x1 x2 x3 x4 x5 x6 x7 (Z.le_trans 0 1 W Z.le_0_1 H))
    (conj (x8_compressor W x0 x1 x2 x3 x4 x5 x6 x7 H a b c d e f g h) (x8_row_heap W x0 x1 x2 x3 x4 x5 x6 x7 (Z.le_trans 0 1 W Z.le_0_1 H) a b c d e f g h))).
Qed.
Print Assumptions C68_eight.
Example C68_eight_ex : let m := 0xFFFFFFFFFFFFFFFF in
  add_x8 64 m m m m m m m 1 = m - 5 /\ add_x8_compressor 64 m m m m m m m 1 = Some (m - 5) /\ add_x8_row_heap 64 m m m m m m m 1 = Some (m - 5).
Proof. vm_compute. repeat split; reflexivity. Qed.

(** The heap of a product is no higher than the number of tiles, so enough levels of compression for that many bits give the product. *)
Theorem C68_product TILE WA WB a b n : 1 <= TILE -> 1 <= WA -> 1 <= WB -> 0 <= a < 2 ^ WA -> 0 <= b < 2 ^ WB ->
  (WA + TILE - 1) / TILE * ((WB + TILE - 1) / TILE) <= levels_height n ->
  (do h <- bit_heap_mul TILE WA WB a b; do r <- compress n h; bit_heap_collapse r) = Some (a * b).
Proof. exact (mul_complete TILE WA WB a b n). Qed.
Print Assumptions C68_product.
Example C68_product_ex : (17 + 3 - 1) / 3 * ((24 + 3 - 1) / 3) <= levels_height 10 /\
  (do h <- bit_heap_mul 3 17 24 100001 0x1234FF; do r <- compress 10 h; bit_heap_collapse r) = Some (100001 * 0x1234FF).
Proof. vm_compute. split; [discriminate|reflexivity]. Qed.

(** The multiplier program prints the product, from the heap and from its compressed form, beside the product. *)
Theorem C68_mul_program_partial a b : 0 <= a < 2 ^ 17 -> 0 <= b < 2 ^ 24 -> bit_heap_mul_main a b = Some ((a * b, a * b), (a * b, a * b)).
Proof. exact (mul_main_value a b). Qed.
Print Assumptions C68_mul_program_partial.
Example C68_mul_program_ex : bit_heap_mul_main 100001 0x1234FF = Some ((119322693215, 119322693215), (119322693215, 119322693215)).
Proof. vm_compute. reflexivity. Qed.

(** With any first constant that does not fit 17 bits it aborts; the one it is written with, 0x5678CC, is such a constant. *)
Theorem C68_mul_program_refuted a b : ~ 0 <= a < 2 ^ 17 -> - 2 ^ 31 <= a < 2 ^ 31 -> bit_heap_mul_main a b = None.
Proof. exact (mul_main_wide a b). Qed.
Print Assumptions C68_mul_program_refuted.
Example C68_mul_program_refuted_ex : bit_heap_mul_main 0x5678CC 0x1234FF = None.
Proof. vm_compute. reflexivity. Qed.
