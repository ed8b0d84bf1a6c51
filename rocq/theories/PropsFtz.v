(** C78: the IEEE operators built on flopoco arithmetic (the ieee_on_flopoco policy) against SoftFloat (the softfloat policy), in
    binary32 and binary64. They compute what SoftFloat computes on operands flushed to zero, and flush the result. The words
    are described in SpecFtz.v. Closed under the global context. *)
From Coq Require Import ZArith Bool Lia.
From Verif Require Import Fw Spec SpecFtz Ieee SoftFloat FtzProofs2 Inst.
Open Scope Z_scope.

(** The sum: the same word as SoftFloat, with subnormal operands and results flushed to zero. *)
Theorem C78_f32_add U a b : 32 <= U -> 0 <= a < 2 ^ 32 -> 0 <= b < 2 ^ 32 ->
  exists r s, w_add 8 23 a b = Some r /\ f32_add U (flushed 8 23 a) (flushed 8 23 b) = Some s /\ ftz_result 8 23 s r.
Proof. exact (z32_add U a b). Qed.
Print Assumptions C78_f32_add.
Example C78_f32_add_at := C78_f32_add 32 0x40490FDB 0x00000007 ltac:(hyp) ltac:(hyp) ltac:(hyp).
(** The product. *)
Theorem C78_f32_mul U a b : 32 <= U -> 0 <= a < 2 ^ 32 -> 0 <= b < 2 ^ 32 ->
  exists r s, w_mul 8 23 a b = Some r /\ f32_mul U (flushed 8 23 a) (flushed 8 23 b) = Some s /\ ftz_result 8 23 s r.
Proof. exact (z32_mul U a b). Qed.
Print Assumptions C78_f32_mul.
Example C78_f32_mul_at := C78_f32_mul 32 0x40490FDB 0x00000007 ltac:(hyp) ltac:(hyp) ltac:(hyp).
(** The quotient. *)
Theorem C78_f32_div U a b : 32 <= U -> 0 <= a < 2 ^ 32 -> 0 <= b < 2 ^ 32 ->
  exists r s, w_div 8 23 a b = Some r /\ f32_div U (flushed 8 23 a) (flushed 8 23 b) = Some s /\ ftz_result 8 23 s r.
Proof. exact (z32_div U a b). Qed.
Print Assumptions C78_f32_div.
Example C78_f32_div_at := C78_f32_div 32 0x40490FDB 0x00000007 ltac:(hyp) ltac:(hyp) ltac:(hyp).
(** The comparisons agree on all words, infinities and NaN included. *)
Theorem C78_f32_compare a b : 0 <= a < 2 ^ 32 -> 0 <= b < 2 ^ 32 -> let x := flushed 8 23 a in let y := flushed 8 23 b in
  w_lt 8 23 a b = Some (f32_lt x y) /\ w_le 8 23 a b = Some (f32_le x y) /\ w_gt 8 23 a b = Some (f32_gt x y) /\ w_ge 8 23 a b = Some (f32_ge x y) /\
  w_eq 8 23 a b = Some (f32_eq x y) /\ w_ne 8 23 a b = Some (f32_ne x y).
Proof. exact (z32_cmp a b). Qed.
Print Assumptions C78_f32_compare.

(** 1/3 is the same word; 2^-126 * 0.5 is subnormal and flushed; the subnormal 2^-149 is an operand read as zero; infinity
    minus infinity is a NaN on both sides, in different words; 2^-126 * 1 is the smallest normal number on both. *)
Example C78_f32_instance : 32 <= 32 /\ w_div 8 23 1065353216 1077936128 = Some 1051372203 /\ f32_div 32 1065353216 1077936128 = Some 1051372203 /\ flushed 8 23 1065353216 = 1065353216 /\
  w_mul 8 23 8388608 1056964608 = Some 0 /\ f32_mul 32 8388608 1056964608 = Some 4194304 /\ subnormal 8 23 4194304 = true /\
  flushed 8 23 2147483649 = 2147483648 /\ w_add 8 23 2147483649 2147483648 = Some 2147483648 /\ f32_add 32 2147483648 2147483648 = Some 2147483648 /\
  w_add 8 23 2139095040 4286578688 = Some 2147483647 /\ f32_add 32 2139095040 4286578688 = Some 4290772992 /\ nan_word 8 23 4290772992 = true /\
  w_mul 8 23 8388608 1065353216 = Some 8388608 /\ f32_mul 32 8388608 1065353216 = Some 8388608 /\ smallest_normal 8 23 8388608 = true /\
  w_lt 8 23 1 2 = Some false /\ f32_lt 1 2 = true /\ w_le 8 23 2139095040 2139095040 = Some true.
Proof. decide_example. Qed.

(** The sum: the same word as SoftFloat, with subnormal operands and results flushed to zero. *)
Theorem C78_f64_add a b : 0 <= a < 2 ^ 64 -> 0 <= b < 2 ^ 64 ->
  exists r s, w_add 11 52 a b = Some r /\ f64_add (flushed 11 52 a) (flushed 11 52 b) = Some s /\ ftz_result 11 52 s r.
Proof. exact (z64_add a b). Qed.
Print Assumptions C78_f64_add.
Example C78_f64_add_at := C78_f64_add 0x400921FB54442D18 0x0000000000000007 ltac:(hyp) ltac:(hyp).
(** The product. *)
Theorem C78_f64_mul a b : 0 <= a < 2 ^ 64 -> 0 <= b < 2 ^ 64 ->
  exists r s, w_mul 11 52 a b = Some r /\ f64_mul (flushed 11 52 a) (flushed 11 52 b) = Some s /\ ftz_result 11 52 s r.
Proof. exact (z64_mul a b). Qed.
Print Assumptions C78_f64_mul.
Example C78_f64_mul_at := C78_f64_mul 0x400921FB54442D18 0x0000000000000007 ltac:(hyp) ltac:(hyp).
(** The quotient. *)
Theorem C78_f64_div a b : 0 <= a < 2 ^ 64 -> 0 <= b < 2 ^ 64 ->
  exists r s, w_div 11 52 a b = Some r /\ f64_div (flushed 11 52 a) (flushed 11 52 b) = Some s /\ ftz_result 11 52 s r.
Proof. exact (z64_div a b). Qed.
Print Assumptions C78_f64_div.
Example C78_f64_div_at := C78_f64_div 0x400921FB54442D18 0x0000000000000007 ltac:(hyp) ltac:(hyp).
(** The comparisons agree on all words, infinities and NaN included. *)
Theorem C78_f64_compare a b : 0 <= a < 2 ^ 64 -> 0 <= b < 2 ^ 64 -> let x := flushed 11 52 a in let y := flushed 11 52 b in
  w_lt 11 52 a b = Some (f64_lt x y) /\ w_le 11 52 a b = Some (f64_le x y) /\ w_gt 11 52 a b = Some (f64_gt x y) /\ w_ge 11 52 a b = Some (f64_ge x y) /\
  w_eq 11 52 a b = Some (f64_eq x y) /\ w_ne 11 52 a b = Some (f64_ne x y).
Proof. exact (z64_cmp a b). Qed.
Print Assumptions C78_f64_compare.

Example C78_f64_instance : w_div 11 52 4607182418800017408 4613937818241073152 = Some 4599676419421066581 /\ f64_div 4607182418800017408 4613937818241073152 = Some 4599676419421066581 /\
  w_mul 11 52 4503599627370496 4602678819172646912 = Some 0 /\ f64_mul 4503599627370496 4602678819172646912 = Some 2251799813685248 /\ subnormal 11 52 2251799813685248 = true /\
  flushed 11 52 1 = 0 /\ w_add 11 52 1 4607182418800017408 = Some 4607182418800017408 /\ w_eq 11 52 1 0 = Some true /\ f64_eq 1 0 = false.
Proof. decide_example. Qed.

(** That the two policies agree on normal operands whenever SoftFloat's result is not subnormal is false: the product of
    1 - 2^-24 and 2^-126 is rounded up to the smallest normal number by SoftFloat, and flushed to zero by the operator. *)
Theorem C78_normal_results_agree_refuted : exists a b r s, 0 <= a < 2 ^ 32 /\ 0 <= b < 2 ^ 32 /\ subnormal 8 23 a = false /\ subnormal 8 23 b = false /\
  w_mul 8 23 a b = Some r /\ f32_mul 32 a b = Some s /\ nan_word 8 23 s = false /\ subnormal 8 23 s = false /\ r <> s.
Proof. exists 1065353215, 8388608, 0, 8388608. vm_compute. intuition discriminate. Qed.
Print Assumptions C78_normal_results_agree_refuted.
