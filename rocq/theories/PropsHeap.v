(** Bit heaps (C24, C25), multiplication by bit heap (C26), row heaps (C27). *)
From Coq Require Import ZArith Bool List Lia.
From Verif Require Import Fw SpecHeap Heap HeapProofs HeapProofs2 HeapProofs3 Inst.
Import ListNotations.
Open Scope Z_scope.

(** Columns of heights 2, 0, 5, 3: weights 8, 4, 2, 1. *)
Definition heap_ex : list (Z * Z) := [(2, 1); (0, 0); (5, 23); (3, 7)].
Lemma heap_ex_ok : heap_ok heap_ex.
Proof. split; [discriminate|]. repeat constructor; vm_compute; discriminate || reflexivity. Qed.

(** ** C24 *)
(** bit_heap_to_mpz adds up the weighted bits, modulo 2^width. *)
Theorem C24_to_mpz h : heap_ok h -> bit_heap_to_mpz h = Some (total h mod 2 ^ width h).
Proof. exact (to_mpz_ok h). Qed.
Print Assumptions C24_to_mpz.
Example C24_to_mpz_ex : heap_ok heap_ex /\ total heap_ex = 1 * 8 + 0 * 4 + 4 * 2 + 3 /\ bit_heap_to_mpz heap_ex = Some 3.
Proof. split; [exact heap_ex_ok|]. vm_compute. split; reflexivity. Qed.
(** A heap built from a number has that value, one bit a column. *)
Theorem C24_build W x : 1 <= W -> 0 <= x < 2 ^ W -> exists h, uint_to_bit_heap (Z.to_nat W) x = Some h /\ heap_ok h /\ width h = W /\
  (forall H, In H (heights h) -> H = 1) /\ bit_heap_to_mpz h = Some x.
Proof. exact (build_observed W x). Qed.
Print Assumptions C24_build.
Example C24_build_ex : uint_to_bit_heap 4 11 = Some [(1, 1); (1, 0); (1, 1); (1, 1)].
Proof. reflexivity. Qed.
(** Merging adds the values modulo the width, when the widths agree. *)
Theorem C24_merge a b : heap_ok a -> heap_ok b -> width a = width b ->
  exists h x y, merge_bit_heaps a b = Some h /\ bit_heap_to_mpz a = Some x /\ bit_heap_to_mpz b = Some y /\ bit_heap_to_mpz h = Some ((x + y) mod 2 ^ width a).
Proof. exact (merge_observed a b). Qed.
Print Assumptions C24_merge.
Example C24_merge_at := C24_merge heap_ex heap_ex ltac:(hyp) ltac:(hyp) ltac:(hyp).
(** In all cases it adds the sums of the weighted bits, and takes the larger width. *)
Theorem C24_merge_totals a b : heap_ok a -> heap_ok b ->
  exists h, merge_bit_heaps a b = Some h /\ heap_ok h /\ width h = Z.max (width a) (width b) /\ total h = total a + total b.
Proof. exact (merge_ok a b). Qed.
Print Assumptions C24_merge_totals.
Example C24_merge_ex : merge_bit_heaps heap_ex [(1, 1); (2, 2)] = Some [(2, 1); (0, 0); (6, 47); (5, 30)] /\ total [(2, 1); (0, 0); (6, 47); (5, 30)] = 19 + 3.
Proof. vm_compute. split; reflexivity. Qed.
(** Shifting left multiplies by a power of two. *)
Theorem C24_shift k a : 0 <= k -> heap_ok a -> exists h x, shift_left k a = Some h /\ heap_ok h /\ width h = width a + k /\
  bit_heap_to_mpz a = Some x /\ bit_heap_to_mpz h = Some (x * 2 ^ k).
Proof. exact (shift_observed k a). Qed.
Print Assumptions C24_shift.
Example C24_shift_ex : shift_left 2 [(1, 1); (2, 2)] = Some [(1, 1); (2, 2); (0, 0); (0, 0)] /\ bit_heap_to_mpz [(1, 1); (2, 2); (0, 0); (0, 0)] = Some 12.
Proof. vm_compute. split; reflexivity. Qed.
(** A negative shift does not compile. *)
Theorem C24_negative_shift k h : k < 0 -> shift_left k h = None.
Proof. exact (shift_left_negative k h). Qed.
Print Assumptions C24_negative_shift.
Example C24_negative_shift_at := C24_negative_shift (-1) heap_ex ltac:(hyp).
(** Padding keeps the sum of the weighted bits, and the value modulo the old width; the value itself
    when the bits do not overflow that width. *)
Theorem C24_pad W a : heap_ok a -> width a <= W -> exists h x y, pad_bit_heap W a = Some h /\
  bit_heap_to_mpz a = Some x /\ bit_heap_to_mpz h = Some y /\ y mod 2 ^ width a = x /\ (total a < 2 ^ width a -> y = x).
Proof. exact (pad_observed W a). Qed.
Print Assumptions C24_pad.
Example C24_pad_at := C24_pad 6 heap_ex ltac:(hyp) ltac:(hyp).
Theorem C24_pad_total W a : heap_ok a -> width a <= W ->
  exists h, pad_bit_heap W a = Some h /\ heap_ok h /\ width h = W /\ total h = total a /\ heights h = repeat 0 (Z.to_nat (W - width a)) ++ heights a.
Proof. exact (pad_ok W a). Qed.
Print Assumptions C24_pad_total.
Example C24_pad_total_at := C24_pad_total 6 heap_ex ltac:(hyp) ltac:(hyp).
(** To fewer columns it does not compile. *)
Theorem C24_pad_narrower W a : W < width a -> pad_bit_heap W a = None.
Proof. exact (pad_narrower W a). Qed.
Print Assumptions C24_pad_narrower.
Example C24_pad_narrower_at := C24_pad_narrower 2 heap_ex ltac:(hyp).
(** Padding does change the value of a heap that overflows its width: the overflow becomes visible. *)
Theorem C24_pad_keeps_value_refuted : exists a W h x y, heap_ok a /\ width a <= W /\ pad_bit_heap W a = Some h /\
  bit_heap_to_mpz a = Some x /\ bit_heap_to_mpz h = Some y /\ x <> y.
Proof.
  exists [(2, 3)], 2, [(0, 0); (2, 3)], 0, 2. split; [split; [discriminate|constructor; [cbn; lia|constructor]]|]. split; [vm_compute; discriminate|]. vm_compute. repeat split; congruence.
Qed.
Print Assumptions C24_pad_keeps_value_refuted.
(** So does merging heaps of different widths. *)
Theorem C24_merge_widths_refuted : exists a b h x y z, heap_ok a /\ heap_ok b /\ merge_bit_heaps a b = Some h /\
  bit_heap_to_mpz a = Some x /\ bit_heap_to_mpz b = Some y /\ bit_heap_to_mpz h = Some z /\ z <> (x + y) mod 2 ^ Z.max (width a) (width b).
Proof.
  exists [(2, 3)], [(1, 0); (1, 1)], [(1, 0); (3, 7)], 0, 1, 3. split; [split; [discriminate|constructor; [cbn; lia|constructor]]|]. split; [split; [discriminate|repeat constructor; cbn; lia]|]. vm_compute. repeat split; congruence.
Qed.
Print Assumptions C24_merge_widths_refuted.

(** ** C25 *)
(** One level of compressors keeps the value; the sum of weighted bits changes only by the carries out
    of the top column, and the heights follow the formula of the source. *)
Theorem C25_step h : heap_ok h -> exists c h', compress_step h = Some (c, h') /\ heap_ok h' /\ width h' = width h /\
  bit_heap_to_mpz h' = bit_heap_to_mpz h /\ heights h' = next_heights (heights h) /\ total h = total h' + ones (fst c) (snd c) * 2 ^ width h.
Proof. exact (step_observed h). Qed.
Print Assumptions C25_step.
Example C25_step_ex : option_map (fun r => (heights (snd r), bit_heap_to_mpz (snd r))) (compress_step heap_ex) = Some ([1; 2; 3; 1], Some 3).
Proof. vm_compute. reflexivity. Qed.
(** No level raises the height above two, and each lowers a height of three or more. *)
Theorem C25_step_height h c h' : heap_ok h -> compress_step h = Some (c, h') ->
  max_height h' <= Z.max (max_height h) 2 /\ (3 <= max_height h -> max_height h' < max_height h).
Proof. exact (step_max_observed h c h'). Qed.
Print Assumptions C25_step_height.
Example C25_step_height_at := C25_step_height heap_ex (1, 0) [(1, 1); (2, 2); (3, 7); (1, 1)] ltac:(hyp) ltac:(hyp).
(** The maximum height is the maximum. *)
Theorem C25_max_height h : heap_ok h -> forall B, max_height h <= B <-> Forall (fun H => H <= B) (heights h).
Proof. exact (max_height_spec h). Qed.
Print Assumptions C25_max_height.
Example C25_max_height_at := C25_max_height heap_ex ltac:(hyp).
(** Compression ends, for every heap ... *)
Theorem C25_compress_ends h : heap_ok h -> exists n r, compress n h = Some r.
Proof. exact (compress_total h). Qed.
Print Assumptions C25_compress_ends.
Example C25_compress_ends_at := C25_compress_ends heap_ex ltac:(hyp).
(** ... after n levels when no column is higher than 2, 3, 4, 6, 9, 13, ... (n = 0, 1, 2, ...) ... *)
Theorem C25_compress_levels n h : heap_ok h -> max_height h <= levels_height n -> exists r, compress n h = Some r.
Proof. exact (compress_levels n h). Qed.
Print Assumptions C25_compress_levels.
Example C25_compress_levels_at := C25_compress_levels 3%nat heap_ex ltac:(hyp) ltac:(hyp).
(** ... in a heap of the same width and value, no column higher than two; collapsing it gives the value. *)
Theorem C25_compress n h r : heap_ok h -> compress n h = Some r ->
  heap_ok r /\ max_height r <= 2 /\ width r = width h /\ bit_heap_to_mpz r = bit_heap_to_mpz h /\ bit_heap_collapse r = bit_heap_to_mpz h.
Proof. exact (compress_any n h r). Qed.
Print Assumptions C25_compress.
Example C25_compress_ex : map levels_height [0; 1; 2; 3; 4; 5]%nat = [2; 3; 4; 6; 9; 13] /\
  option_map heights (compress 3 heap_ex) = Some [2; 2; 1; 1] /\ bind (compress 3 heap_ex) bit_heap_collapse = Some 3.
Proof. vm_compute. repeat split; reflexivity. Qed.
(** Collapse gives the value of every heap no higher than two, and does not compile for others. *)
Theorem C25_collapse h : heap_ok h -> max_height h <= 2 -> bit_heap_collapse h = bit_heap_to_mpz h.
Proof. exact (fun Ok M => eq_trans (collapse_ok h Ok M) (eq_sym (to_mpz_ok h Ok))). Qed.
Print Assumptions C25_collapse.
Example C25_collapse_at := C25_collapse [(2, 3); (0, 0); (1, 1)] ltac:(hyp) ltac:(hyp).
Theorem C25_collapse_high h : heap_ok h -> 2 < max_height h -> bit_heap_collapse h = None.
Proof. exact (collapse_high h). Qed.
Print Assumptions C25_collapse_high.
Example C25_collapse_ex : bit_heap_collapse [(2, 3); (0, 0); (1, 1)] = Some 1 /\ bit_heap_collapse heap_ex = None.
Proof. vm_compute. split; reflexivity. Qed.

(** ** C26 *)
(** The heap of a product holds the product, exactly, and so does its compressed and collapsed form. *)
Theorem C26_mul TILE WA WB a b : 1 <= TILE -> 1 <= WA -> 1 <= WB -> 0 <= a < 2 ^ WA -> 0 <= b < 2 ^ WB ->
  exists h, bit_heap_mul TILE WA WB a b = Some h /\ heap_ok h /\ width h = WA + WB /\ total h = a * b /\ bit_heap_to_mpz h = Some (a * b) /\
    forall n, max_height h <= levels_height n -> exists r, compress n h = Some r /\ bit_heap_collapse r = Some (a * b).
Proof. exact (mul_value TILE WA WB a b). Qed.
Print Assumptions C26_mul.
Example C26_mul_ex : option_map heights (bit_heap_mul 3 5 7 29 117) = Some [1; 1; 1; 3; 3; 3; 4; 4; 3; 3; 2; 1] /\
  bind (bind (bit_heap_mul 3 5 7 29 117) (compress 2)) bit_heap_collapse = Some (29 * 117).
Proof. vm_compute. split; reflexivity. Qed.
(** With an operand of no bits it need not compile: the debugging output has no operator for a heap of
    one column. *)
Theorem C26_empty_operand_refuted TILE WB b : 1 <= TILE -> TILE < WB -> WB mod TILE = 1 mod TILE -> 0 <= b < 2 ^ WB -> bit_heap_mul TILE 0 WB 0 b = None.
Proof. exact (mul_empty_operand TILE WB b). Qed.
Print Assumptions C26_empty_operand_refuted.
Example C26_empty_operand_ex : bit_heap_mul 3 0 7 0 5 = None /\ option_map width (bit_heap_mul 3 0 8 0 5) = Some 8.
Proof. vm_compute. split; reflexivity. Qed.

(** ** C27 *)
(** row_heap_to_mpz is the sum of the rows modulo 2^W. *)
Theorem C27_to_mpz W rows : 0 <= W -> rows_ok W rows -> row_heap_to_mpz W rows = row_total rows mod 2 ^ W.
Proof. exact (row_to_mpz_ok W rows). Qed.
Print Assumptions C27_to_mpz.
Example C27_to_mpz_at := C27_to_mpz 8 [200; 100; 50; 25; 250] ltac:(hyp) ltac:(hyp).
(** Adding heaps of one width adds their values. *)
Theorem C27_add W a b : 0 <= W -> rows_ok W a -> rows_ok W b -> exists r, row_add W W a b = Some (W, r) /\ rows_ok W r /\
  row_heap_to_mpz W r = (row_heap_to_mpz W a + row_heap_to_mpz W b) mod 2 ^ W.
Proof. exact (row_add_observed W a b). Qed.
Print Assumptions C27_add.
Example C27_add_at := C27_add 8 [200; 100] [50; 25; 250] ltac:(hyp) ltac:(hyp) ltac:(hyp).
(** Of any widths: the rows are kept, and the wider width. *)
Theorem C27_add_widths WA WB a b : 0 <= WA -> 0 <= WB -> rows_ok WA a -> rows_ok WB b ->
  row_add WA WB a b = Some (Z.max WA WB, a ++ b) /\ rows_ok (Z.max WA WB) (a ++ b) /\ row_total (a ++ b) = row_total a + row_total b.
Proof. exact (row_add_ok WA WB a b). Qed.
Print Assumptions C27_add_widths.
Example C27_add_widths_at := C27_add_widths 8 6 [200; 100] [50; 25] ltac:(hyp) ltac:(hyp) ltac:(hyp) ltac:(hyp).
Theorem C27_add_uint WA WB a b : 0 <= WA -> 0 <= WB -> rows_ok WA a -> wf WB b ->
  row_add_uint WA WB a b = Some (Z.max WA WB, a ++ [b]) /\ rows_ok (Z.max WA WB) (a ++ [b]) /\ row_total (a ++ [b]) = row_total a + b.
Proof. exact (row_add_uint_ok WA WB a b). Qed.
Print Assumptions C27_add_uint.
Example C27_add_uint_at := C27_add_uint 8 6 [200; 100] 50 ltac:(hyp) ltac:(hyp) ltac:(hyp) ltac:(hyp).
(** Two rows or more are compressed to two with the same value, which collapse returns. *)
Theorem C27_compress W n rows : 0 <= W -> (2 <= length rows <= n + 2)%nat -> rows_ok W rows ->
  exists r, row_compress n W rows = Some r /\ rows_ok W r /\ length r = 2%nat /\ row_heap_to_mpz W r = row_heap_to_mpz W rows /\ row_collapse W r = Some (row_heap_to_mpz W rows).
Proof. exact (row_collapse_ok W n rows). Qed.
Print Assumptions C27_compress.
Example C27_ex : rows_ok 8 [200; 100; 50; 25; 250] /\ row_compress 3 8 [200; 100; 50; 25; 250] = Some [141; 228] /\
  row_collapse 8 [141; 228] = Some ((200 + 100 + 50 + 25 + 250) mod 256) /\ row_add 4 8 [15; 3] [200] = Some (8, [15; 3; 200]).
Proof. split; [repeat constructor; vm_compute; discriminate || reflexivity|]. vm_compute. repeat split; reflexivity. Qed.
(** One row or none cannot be compressed, and only two rows can be collapsed. *)
Theorem C27_too_few_rows_refuted n W rows : (length rows < 2)%nat -> row_compress n W rows = None.
Proof. exact (row_compress_short n W rows). Qed.
Print Assumptions C27_too_few_rows_refuted.
Theorem C27_collapse_needs_two W rows : length rows <> 2%nat -> row_collapse W rows = None.
Proof. exact (row_collapse_other W rows). Qed.
Print Assumptions C27_collapse_needs_two.
Example C27_collapse_needs_two_at := C27_collapse_needs_two 8 [200; 100; 50] ltac:(hyp).
(** Adding heaps of different widths does not add their values when the narrow one overflows. *)
Theorem C27_add_widths_refuted : exists WA WB a b W r, rows_ok WA a /\ rows_ok WB b /\ row_add WA WB a b = Some (W, r) /\
  row_heap_to_mpz W r <> (row_heap_to_mpz WA a + row_heap_to_mpz WB b) mod 2 ^ W.
Proof.
  exists 2, 4, [3; 3], [1], 4, [3; 3; 1]. split; [repeat constructor; vm_compute; discriminate || reflexivity|]. split; [repeat constructor; vm_compute; discriminate || reflexivity|]. vm_compute. split; [reflexivity|discriminate].
Qed.
Print Assumptions C27_add_widths_refuted.
