(** Properties of the synthesis back ends of fw_uint<W>, over ac_int and over ap_uint (C67): they compute what the software back
    end computes, at every width of at least one bit and with no upper bound on it, and where they do not. *)
From Coq Require Import ZArith Bool List Lia String.
From Verif Require Import Fw FwWord HlsInt Hls FwWordProofs FwWordProofs2 FwWordProofs3 HlsProofs HlsProofs2 HlsProofs3.
Import ListNotations.
Open Scope Z_scope.

(** Sums and differences wrap at the width, also with an int operand, negative or not. *)
Theorem C67_add_sub W a b : 1 <= W ->
  let s := Some ((a + b) mod 2 ^ W) in let d := Some ((a - b) mod 2 ^ W) in
  (ac_add W a b = s /\ ac_add_int W a b = s /\ ac_sub W a b = d /\ ac_sub_int W a b = d) /\
  (ap_add W a b = s /\ ap_add_int W a b = s /\ ap_sub W a b = d /\ ap_sub_int W a b = d).
Proof. exact (add_all W a b). Qed.
Print Assumptions C67_add_sub.
Example C67_add_sub_ex : ac_sub 200 3 5 = Some (2 ^ 200 - 2) /\ ap_add_int 7 3 (-5) = Some 126 /\ ap_add 200 (2 ^ 200 - 1) 2 = Some 1.
Proof. vm_compute. intuition (reflexivity || congruence). Qed.

(** Products and squares are exact, in the sum of the widths. *)
Theorem C67_mul W O a b : 1 <= W -> 1 <= O -> 0 <= a < 2 ^ W -> 0 <= b < 2 ^ O ->
  (ac_mul W O a b = Some (a * b) /\ ac_square W a = Some (a * a)) /\ (ap_mul W O a b = Some (a * b) /\ ap_square W a = Some (a * a)).
Proof. exact (mul_all W O a b). Qed.
Print Assumptions C67_mul.
Example C67_mul_ex : ac_mul 100 9 (2 ^ 100 - 1) 511 = Some ((2 ^ 100 - 1) * 511) /\ ap_square 100 (2 ^ 100 - 1) = Some ((2 ^ 100 - 1) ^ 2).
Proof. vm_compute. intuition (reflexivity || congruence). Qed.

(** Complement, and, or, exclusive or, also with an int that fits. *)
Theorem C67_bitwise W a b : 1 <= W -> 0 <= a < 2 ^ W -> 0 <= b < 2 ^ W ->
  let n := Some (2 ^ W - 1 - a) in let c := Some (Z.land a b) in let o := Some (Z.lor a b) in let x := Some (Z.lxor a b) in
  (ac_not W a = n /\ ac_and W a b = c /\ ac_or W a b = o /\ ac_xor W a b = x /\ ac_and_int W a b = c /\ ac_or_int W a b = o /\ ac_xor_int W a b = x) /\
  (ap_not W a = n /\ ap_and W a b = c /\ ap_or W a b = o /\ ap_xor W a b = x /\ ap_and_int W a b = c /\ ap_or_int W a b = o /\ ap_xor_int W a b = x).
Proof. exact (logic_all W a b). Qed.
Print Assumptions C67_bitwise.
Example C67_bitwise_ex : ac_not 200 5 = Some (2 ^ 200 - 6) /\ ap_xor 5 21 6 = Some 19 /\ ap_or_int 5 21 31 = Some 31.
Proof. vm_compute. intuition (reflexivity || congruence). Qed.

(** A negative int is refused by the three bitwise operators in both back ends. *)
Theorem C67_bitwise_negative_int W a b : b < 0 -> ac_and_int W a b = None /\ ac_or_int W a b = None /\ ac_xor_int W a b = None /\ ap_and_int W a b = None /\ ap_or_int W a b = None /\ ap_xor_int W a b = None.
Proof. exact (logic_neg W a b). Qed.
Print Assumptions C67_bitwise_negative_int.
Example C67_bitwise_negative_int_ex : ac_and_int 8 3 (-1) = None /\ m_and_int 8 3 (-1) = None.
Proof. vm_compute. intuition (reflexivity || congruence). Qed.

(** Comparisons compare the values. *)
Theorem C67_compare W a b :
  h_lt W a b = Some (Z.b2z (a <? b)) /\ h_le W a b = Some (Z.b2z (a <=? b)) /\ h_eq W a b = Some (Z.b2z (a =? b)) /\
  h_ge W a b = Some (Z.b2z (b <=? a)) /\ h_gt W a b = Some (Z.b2z (b <? a)) /\ h_ne W a b = Some (Z.b2z (negb (a =? b))).
Proof. exact (cmp_all W a b). Qed.
Print Assumptions C67_compare.
Example C67_compare_ex : h_lt 200 (2 ^ 199) (2 ^ 199 + 1) = Some 1 /\ h_ge 200 3 4 = Some 0.
Proof. vm_compute. intuition (reflexivity || congruence). Qed.

(** ... also with an int that is not negative, whatever the width. *)
Theorem C67_compare_int W a b : 0 <= b ->
  h_lt_int W a b = Some (Z.b2z (a <? b)) /\ h_le_int W a b = Some (Z.b2z (a <=? b)) /\ h_eq_int W a b = Some (Z.b2z (a =? b)) /\
  h_ge_int W a b = Some (Z.b2z (b <=? a)) /\ h_gt_int W a b = Some (Z.b2z (b <? a)) /\ h_ne_int W a b = Some (Z.b2z (negb (a =? b))).
Proof. exact (cmp_int_all W a b). Qed.
Print Assumptions C67_compare_int.
Example C67_compare_int_ex : h_eq_int 3 7 7 = Some 1 /\ h_lt_int 3 7 100 = Some 1.
Proof. vm_compute. intuition (reflexivity || congruence). Qed.

(** Shifts by a distance below the width shift zeros in; any other distance is refused. *)
Theorem C67_shift W a d : 0 <= a < 2 ^ W ->
  let inside := (0 <=? d) && (d <? W) in
  let r := if inside then Some (a / 2 ^ d) else None in let l := if inside then Some ((a * 2 ^ d) mod 2 ^ W) else None in
  (ac_shr W a d = r /\ ap_shr W a d = r) /\ (ac_shl W a d = l /\ ap_shl W a d = l).
Proof. exact (fun H => conj (shr_ok W a d H) (shl_ok W a d H)). Qed.
Print Assumptions C67_shift.
Example C67_shift_ex : ac_shl 200 (2 ^ 199 + 3) 197 = Some (3 * 2 ^ 197) /\ ap_shr 200 (2 ^ 199) 199 = Some 1 /\ ap_shr 200 1 200 = None.
Proof. vm_compute. intuition (reflexivity || congruence). Qed.

(** Slices inside the value. *)
Theorem C67_slice W h l x : 0 <= l <= h -> h < W -> 0 <= x < 2 ^ W ->
  ac_get_bits W h l x = Some ((x / 2 ^ l) mod 2 ^ (h - l + 1)) /\ ap_get_bits W h l x = Some ((x / 2 ^ l) mod 2 ^ (h - l + 1)).
Proof. exact (get_bits_all W h l x). Qed.
Print Assumptions C67_slice.
Example C67_slice_ex : ac_get_bits 200 150 148 (5 * 2 ^ 148) = Some 5 /\ ap_get_bits 200 150 148 (5 * 2 ^ 148) = Some 5.
Proof. vm_compute. intuition (reflexivity || congruence). Qed.

(** Concatenation puts the left operand above the right one. *)
Theorem C67_concat A B a b : 1 <= A -> 1 <= B -> 0 <= a < 2 ^ A -> 0 <= b < 2 ^ B ->
  ac_concat A B a b = Some (a * 2 ^ B + b) /\ ap_concat A B a b = Some (a * 2 ^ B + b).
Proof. exact (concat_all A B a b). Qed.
Print Assumptions C67_concat.
Example C67_concat_ex : ac_concat 100 100 3 (2 ^ 100 - 1) = Some (2 ^ 102 - 1) /\ ap_concat 2 3 1 5 = Some 13.
Proof. vm_compute. intuition (reflexivity || congruence). Qed.

(** Construction from int, uint32_t and uint64_t accepts exactly the values that fit. *)
Theorem C67_of_int W v : 1 <= W ->
  (let r := if (0 <=? v) && (v <? 2 ^ W) then Some v else None in h_of_int ac_overflow W v = r /\ h_of_int ap_overflow W v = r) /\
  (0 <= v -> let r := if v <? 2 ^ W then Some v else None in
    (h_of_uint64 ac_overflow W v = r /\ h_of_uint32 ac_overflow W v = r) /\ (h_of_uint64 ap_overflow W v = r /\ h_of_uint32 ap_overflow W v = r)).
Proof. exact (fun H => conj (of_int_all W v H) (of_unsigned_all W v H)). Qed.
Print Assumptions C67_of_int.
Example C67_of_int_ex : h_of_int ac_overflow 5 31 = Some 31 /\ h_of_int ap_overflow 5 32 = None /\ h_of_uint64 ac_overflow 64 (2 ^ 64 - 1) = Some (2 ^ 64 - 1).
Proof. vm_compute. intuition (reflexivity || congruence). Qed.

(** Values come out unchanged as C integers and as mpz. *)
Theorem C67_to_numbers W x : 1 <= W -> 0 <= x < 2 ^ W ->
  (W <= 64 -> h_to_uint64 W x = Some x) /\ (W <= 32 -> h_to_uint32 W x = Some x) /\ (W <= 31 -> ap_to_int W x = x) /\ h_to_mpz W x = x.
Proof. exact (to_int_all W x). Qed.
Print Assumptions C67_to_numbers.
Example C67_to_numbers_ex : h_to_mpz 200 (2 ^ 200 - 12345) = 2 ^ 200 - 12345 /\ h_to_uint64 64 (2 ^ 64 - 1) = Some (2 ^ 64 - 1) /\ h_to_uint64 65 1 = None.
Proof. vm_compute. intuition (reflexivity || congruence). Qed.

(** The text of a value, read back, is the value. *)
Theorem C67_text W x : 1 <= W -> 0 <= x < 2 ^ W -> exists s, m_to_string W x = append "0b" s /\ h_of_binary W s = Some x.
Proof. exact (h_binary_round W x). Qed.
Print Assumptions C67_text.
Example C67_text_ex : h_of_binary 13 "10001_00000001" = Some (2 ^ 12 + 2 ^ 8 + 1) /\ m_to_string 13 (2 ^ 12 + 2 ^ 8 + 1) = "0b10001_00000001"%string.
Proof. vm_compute. intuition (reflexivity || congruence). Qed.

(** checked_cast keeps the value and refuses a change of width. *)
Theorem C67_checked_cast WD WS x : 1 <= WS -> 0 <= x < 2 ^ WS -> h_checked_cast WD WS x = if WD =? WS then Some x else None.
Proof. intros H Hx. destruct (Z.eqb_spec WD WS) as [->|N]; [exact (h_checked_cast_ok WS x H Hx)|exact (h_checked_cast_bad WD WS x N)]. Qed.
Print Assumptions C67_checked_cast.
Example C67_checked_cast_ex : h_checked_cast 200 200 (2 ^ 199) = Some (2 ^ 199) /\ h_checked_cast 8 7 3 = None.
Proof. vm_compute. intuition (reflexivity || congruence). Qed.

(** take_lsbs, drop_lsbs, take_msbs and drop_msbs over either back end. *)
Theorem C67_parts K W B x : K = ac_backend \/ K = ap_backend -> 1 <= B < W -> 0 <= x < 2 ^ W ->
  k_take_lsbs K W B x = Some (x mod 2 ^ B) /\ k_drop_lsbs K W B x = Some (x / 2 ^ B) /\
  k_take_msbs K W B x = Some (x / 2 ^ (W - B)) /\ k_drop_msbs K W B x = Some (x mod 2 ^ (W - B)).
Proof. exact (fun HK => parts_all K W B x (either_good K HK)). Qed.
Print Assumptions C67_parts.
Example C67_parts_ex : k_take_msbs ac_backend 200 3 (5 * 2 ^ 197 + 1) = Some 5 /\ k_drop_msbs ap_backend 200 3 (5 * 2 ^ 197 + 1) = Some 1.
Proof. vm_compute. intuition (reflexivity || congruence). Qed.

(** zpad_hi, opad_hi, zpad_lo and opad_lo over either back end; the padding may be empty. *)
Theorem C67_pads K P W x : K = ac_backend \/ K = ap_backend -> 0 <= P -> 1 <= W -> 0 <= x < 2 ^ W ->
  k_zpad_hi K P W x = Some x /\ k_opad_hi K P W x = Some ((2 ^ P - 1) * 2 ^ W + x) /\
  k_zpad_lo K P W x = Some (x * 2 ^ P) /\ k_opad_lo K P W x = Some (x * 2 ^ P + (2 ^ P - 1)).
Proof. exact (fun HK => pads_all K P W x (either_good K HK)). Qed.
Print Assumptions C67_pads.
Example C67_pads_ex : k_opad_hi ac_backend 2 100 7 = Some (3 * 2 ^ 100 + 7) /\ k_opad_lo ap_backend 0 5 7 = Some 7.
Proof. vm_compute. intuition (reflexivity || congruence). Qed.

(** resize and extu over either back end. *)
Theorem C67_resize K W B x : K = ac_backend \/ K = ap_backend -> 1 <= W -> 1 <= B -> 0 <= x < 2 ^ W ->
  k_resize K W B x = Some (x mod 2 ^ B) /\ (W <= B -> k_extu K W B x = Some x).
Proof. exact (fun HK => resize_all K W B x (either_good K HK)). Qed.
Print Assumptions C67_resize.
Example C67_resize_ex : k_resize ac_backend 200 3 (2 ^ 199 + 5) = Some 5 /\ k_resize ap_backend 3 200 5 = Some 5.
Proof. vm_compute. intuition (reflexivity || congruence). Qed.

(** Sums with a carry, add_sub, copybit and select over either back end. *)
Theorem C67_carries K W x y (c : bool) : K = ac_backend \/ K = ap_backend -> 1 <= W -> 0 <= x < 2 ^ W -> 0 <= y < 2 ^ W ->
  k_add_with_cin K W x y (Z.b2z c) = Some ((x + y + Z.b2z c) mod 2 ^ W) /\
  k_add_cin K W x (Z.b2z c) = Some ((x + Z.b2z c) mod 2 ^ W) /\
  k_add_sub K W (Z.b2z c) x y = Some ((if c then x - y else x + y) mod 2 ^ W) /\
  k_copybit K W (Z.b2z c) = Some (if c then 2 ^ W - 1 else 0) /\
  k_select K (Z.b2z c) x y = Some (if c then x else y).
Proof. exact (fun HK => carries_all K W x y c (either_good K HK)). Qed.
Print Assumptions C67_carries.
Example C67_carries_ex : k_add_sub ac_backend 200 1 3 5 = Some (2 ^ 200 - 2) /\ k_add_with_cin ap_backend 1 1 1 1 = Some 1.
Proof. vm_compute. intuition (reflexivity || congruence). Qed.

(** concat_array over either back end: element i of n occupies bits W*i and up. *)
Theorem C67_concat_array K W xs : K = ac_backend \/ K = ap_backend -> 1 <= W -> Forall (fun x => 0 <= x < 2 ^ W) xs -> xs <> [] ->
  k_concat_array K W xs = Some (fold_right (fun x r => r * 2 ^ W + x) 0 xs).
Proof. exact (fun HK => concat_array_all K W xs (either_good K HK)). Qed.
Print Assumptions C67_concat_array.
Example C67_concat_array_ex : k_concat_array ac_backend 100 [1; 2; 3] = Some (1 + 2 * 2 ^ 100 + 3 * 2 ^ 200).
Proof. vm_compute. intuition (reflexivity || congruence). Qed.

(** At the widths the software back end has, from 1 to 128 bits, all three compute the same. *)
Theorem C67_software W a b d h l : 1 <= W <= 128 -> 0 <= a < 2 ^ W -> 0 <= b < 2 ^ W ->
  (forall f, In f [ac_add W; ap_add W] -> f a b = m_add W a b) /\ (forall f, In f [ac_sub W; ap_sub W] -> f a b = m_sub W a b) /\
  (W <= 64 -> forall f, In f [ac_mul W W; ap_mul W W] -> f a b = m_mul W W a b) /\
  (W <= 64 -> forall f, In f [ac_square W; ap_square W] -> f a = m_square W a) /\
  (forall f, In f [ac_not W; ap_not W] -> f a = m_not W a) /\ (forall f, In f [ac_and W; ap_and W] -> f a b = m_and W a b) /\
  (forall f, In f [ac_or W; ap_or W] -> f a b = m_or W a b) /\ (forall f, In f [ac_xor W; ap_xor W] -> f a b = m_xor W a b) /\
  (forall f, In f [ac_shr W; ap_shr W] -> f a d = m_shr W a d) /\ (forall f, In f [ac_shl W; ap_shl W] -> f a d = m_shl W a d) /\
  (0 <= l <= h -> h < W -> forall f, In f [ac_get_bits W h l; ap_get_bits W h l] -> f a = m_get_bits W h l a) /\
  (W <= 64 -> forall f, In f [ac_concat W W; ap_concat W W] -> f a b = m_concat W W a b) /\
  (- 2 ^ 31 <= d < 2 ^ 31 -> forall f, In f [h_of_int ac_overflow W; h_of_int ap_overflow W] -> f d = m_of_int W d) /\
  h_lt W a b = m_cmp Z.ltb a b /\ h_le W a b = m_cmp Z.leb a b /\ h_eq W a b = m_cmp Z.eqb a b /\ h_to_mpz W a = m_to_mpz W a.
Proof. exact (software_all W a b d h l). Qed.
Print Assumptions C67_software.
Example C67_software_ex : ac_add 128 (2 ^ 128 - 1) 3 = m_add 128 (2 ^ 128 - 1) 3 /\ ap_shl 65 5 63 = m_shl 65 5 63 /\ m_shl 65 5 63 = Some (2 ^ 63 + 0).
Proof. vm_compute. intuition (reflexivity || congruence). Qed.

(** Construction from mpz is right for values an unsigned long (of UL bits) holds. Missing: the values above, next. *)
Theorem C67_of_mpz_partial UL W x : 32 <= UL -> 1 <= W -> 0 <= x < 2 ^ W -> x < 2 ^ UL -> ac_of_mpz UL W x = Some x /\ ap_of_mpz UL W x = Some x.
Proof. exact (of_mpz_all UL W x). Qed.
Print Assumptions C67_of_mpz_partial.
Example C67_of_mpz_partial_ex : ac_of_mpz 64 200 (2 ^ 64 - 1) = Some (2 ^ 64 - 1) /\ ap_of_mpz 64 31 (2 ^ 31 - 1) = Some (2 ^ 31 - 1).
Proof. vm_compute. intuition (reflexivity || congruence). Qed.

(** Every value that fits the width but not an unsigned long loses its high bits, silently: the test that selects the short path is the wrong way round. *)
Theorem C67_of_mpz_refuted UL W x : 32 <= UL -> UL < W -> 2 ^ UL <= x < 2 ^ W ->
  ac_of_mpz UL W x = Some (x mod 2 ^ UL) /\ ap_of_mpz UL W x = Some (x mod 2 ^ UL) /\ x mod 2 ^ UL <> x.
Proof. exact (of_mpz_lost UL W x). Qed.
Print Assumptions C67_of_mpz_refuted.
Example C67_of_mpz_refuted_ex : ac_of_mpz 64 65 (2 ^ 64 + 3) = Some 3 /\ m_of_mpz 65 (2 ^ 64 + 3) = Some (2 ^ 64 + 3).
Proof. vm_compute. intuition (reflexivity || congruence). Qed.

(** A zero-width value may hold a stray bit in these back ends; concatenation and padding ignore it. *)
Theorem C67_zero_width K P W s x : K = ac_backend \/ K = ap_backend -> s = 0 \/ s = 1 -> 1 <= W -> 1 <= P -> 0 <= x < 2 ^ W ->
  k_concat K 0 W s x = Some x /\ k_concat K W 0 x s = Some x /\ k_zpad_hi K P 0 s = Some 0 /\ k_opad_lo K P 0 s = Some (2 ^ P - 1).
Proof. exact (fun HK => zero_width_hidden K P W s x (either_good K HK)). Qed.
Print Assumptions C67_zero_width.
Example C67_zero_width_ex : k_concat ac_backend 0 5 1 9 = Some 9 /\ k_zpad_hi ap_backend 3 0 1 = Some 0.
Proof. vm_compute. intuition (reflexivity || congruence). Qed.

(** Comparison and multiplication do not: og<0>() differs from zg<0>(), and its product with any x is x. In the software back end they are equal and the product is 0. The value 1 is accepted at width 0. *)
Theorem C67_zero_width_refuted K x W : K = ac_backend \/ K = ap_backend -> 1 <= W -> 0 <= x < 2 ^ W ->
  (exists o z, k_og K 0 = Some o /\ k_zg K 0 = Some z /\ h_eq 0 o z = Some 0 /\ ac_mul 0 W o x = Some x /\ ap_mul 0 W o x = Some x /\ k_of_int K 0 1 = Some 1) /\
  (exists o z, k_og software 0 = Some o /\ k_zg software 0 = Some z /\ m_cmp Z.eqb o z = Some 1 /\ (W <= 128 -> m_mul 0 W o x = Some 0) /\ k_of_int software 0 1 = None).
Proof. exact (zero_width_differs K x W). Qed.
Print Assumptions C67_zero_width_refuted.
Example C67_zero_width_refuted_ex : k_og ac_backend 0 = Some 1 /\ ac_mul 0 5 1 23 = Some 23 /\ m_mul 0 5 0 23 = Some 0.
Proof. vm_compute. intuition (reflexivity || congruence). Qed.

(** The empty slice above the top bit is refused over ap_uint, and gives 0 over ac_int. *)
Theorem C67_empty_top_slice_refuted W x : 1 <= W -> 0 <= x < 2 ^ W -> ap_get_bits W (W - 1) W x = None /\ ac_get_bits W (W - 1) W x = Some 0.
Proof. exact (empty_top W x). Qed.
Print Assumptions C67_empty_top_slice_refuted.
Example C67_empty_top_slice_refuted_ex : ap_get_bits 8 7 8 255 = None /\ ac_get_bits 8 7 8 255 = Some 0.
Proof. vm_compute. intuition (reflexivity || congruence). Qed.

(** Or with an int that is all ones at the width: the synthesis back ends compute it, the software one aborts. *)
Theorem C67_or_int_refuted W a : 1 <= W <= 128 -> 0 <= a < 2 ^ W -> ac_or_int W a (2 ^ W - 1) = Some (2 ^ W - 1) /\ ap_or_int W a (2 ^ W - 1) = Some (2 ^ W - 1) /\ m_or_int W a (2 ^ W - 1) = None.
Proof. exact (or_ones W a). Qed.
Print Assumptions C67_or_int_refuted.
Example C67_or_int_refuted_ex : ac_or_int 4 9 15 = Some 15 /\ m_or_int 4 9 15 = None.
Proof. vm_compute. intuition (reflexivity || congruence). Qed.
