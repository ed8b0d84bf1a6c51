(** Properties of fw_uint: slicing and joining (C33), arithmetic (C34), text and mpz (C35), the
    128-bit fallback word (C36), random values (C47), look-up tables (C48), thls_ctLog2Ceil (C49). *)
From Coq Require Import ZArith Bool List Ascii String Lia.
From Verif Require Import Fw SpecFw FwWord FwPair FwWordProofs FwWordProofs2 FwWordProofs3 FwPairProofs Inst.
Import ListNotations.
Open Scope Z_scope.

(** ** C33 *)
(** Bit i of a slice is bit lo+i of the value, and the slice is within its width. *)
Theorem C33_slice_bits W h l x : 0 <= W <= 128 -> 0 <= l <= h -> h < W -> 0 <= x < 2 ^ W ->
  exists r, m_get_bits W h l x = Some r /\ 0 <= r < 2 ^ (h - l + 1) /\
    forall i, 0 <= i -> Z.testbit r i = if i <=? h - l then Z.testbit x (l + i) else false.
Proof. exact (slice_bits W h l x). Qed.
Print Assumptions C33_slice_bits.
Example C33_slice_bits_ex : m_get_bits 70 68 33 (2 ^ 69 - 2 ^ 34 + 5) = Some (2 ^ 36 - 2).
Proof. vm_compute. reflexivity. Qed.

(** A slice that reaches outside the value aborts. *)
Theorem C33_slice_outside_aborts W h l x : h >= W \/ l < 0 -> m_get_bits W h l x = None.
Proof. exact (slice_outside W h l x). Qed.
Print Assumptions C33_slice_outside_aborts.
Example C33_slice_outside_ex : m_get_bits 8 8 0 3 = None /\ m_get_bits 8 7 0 3 = Some 3.
Proof. vm_compute. split; reflexivity. Qed.

(** The empty slice above the top bit shifts a full word by its own width: undefined. *)
Theorem C33_empty_top_slice_refuted W x : W = 32 \/ W = 64 \/ W = 128 -> m_get_bits W (W - 1) W x = None.
Proof. exact (empty_top_slice W x). Qed.
Print Assumptions C33_empty_top_slice_refuted.
Example C33_empty_top_slice_ex : m_get_bits 31 30 31 5 = Some 0 /\ m_get_bits 32 31 32 5 = None.
Proof. vm_compute. split; reflexivity. Qed.

(** A slice of a concatenation that lies in one part is the slice of that part. *)
Theorem C33_slice_of_concat A B a b h l : 0 <= A -> 0 <= B -> A + B <= 128 -> 0 <= a < 2 ^ A -> 0 <= b < 2 ^ B ->
  exists c, m_concat A B a b = Some c /\ 0 <= c < 2 ^ (A + B) /\
    (0 <= l <= h -> h < B -> m_get_bits (A + B) h l c = m_get_bits B h l b) /\
    (B <= l <= h -> h < A + B -> m_get_bits (A + B) h l c = m_get_bits A (h - B) (l - B) a).
Proof. exact (slice_of_concat A B a b h l). Qed.
Print Assumptions C33_slice_of_concat.
Example C33_slice_of_concat_ex : m_concat 40 30 (2 ^ 39 + 5) 77 = Some (2 ^ 69 + 5 * 2 ^ 30 + 77).
Proof. vm_compute. reflexivity. Qed.

(** Taking a concatenation apart gives the parts back; concatenation is a * 2^B + b. *)
Theorem C33_parts_of_concat A B a b : 0 <= A -> 0 <= B -> A + B <= 128 -> 0 <= a < 2 ^ A -> 0 <= b < 2 ^ B ->
  exists c, m_concat A B a b = Some c /\ c = a * 2 ^ B + b /\
    m_take_msbs (A + B) A c = Some a /\ m_drop_lsbs (A + B) B c = Some a /\
    m_take_lsbs (A + B) B c = Some b /\ m_drop_msbs (A + B) A c = Some b.
Proof. exact (parts_of_concat A B a b). Qed.
Print Assumptions C33_parts_of_concat.
Example C33_parts_of_concat_ex : m_concat 0 128 0 (2 ^ 128 - 1) = Some (2 ^ 128 - 1) /\ m_concat 128 0 7 0 = Some 7.
Proof. vm_compute. split; reflexivity. Qed.

(** Joining the upper and lower part of a value gives the value. *)
Theorem C33_concat_of_parts W k x : 0 <= k <= W -> W <= 128 -> 0 <= x < 2 ^ W ->
  exists h l, m_take_msbs W (W - k) x = Some h /\ m_take_lsbs W k x = Some l /\ 0 <= h < 2 ^ (W - k) /\ 0 <= l < 2 ^ k /\
    m_concat (W - k) k h l = Some x.
Proof. exact (concat_of_parts W k x). Qed.
Print Assumptions C33_concat_of_parts.
Example C33_concat_of_parts_ex : m_take_msbs 9 4 300 = Some 9 /\ m_take_lsbs 9 5 300 = Some 12.
Proof. vm_compute. split; reflexivity. Qed.

(** Single bits from either end. *)
Theorem C33_single_bits W x : 1 <= W <= 128 -> 0 <= x < 2 ^ W ->
  (forall b, 0 <= b < W -> m_get_bit W b x = Some (Z.b2z (Z.testbit x b))) /\
  m_take_lsb W x = Some (Z.b2z (Z.odd x)) /\ m_drop_lsb W x = Some (x / 2) /\
  m_take_msb W x = Some (if x <? 2 ^ (W - 1) then 0 else 1) /\
  m_drop_msb W x = Some (x mod 2 ^ (W - 1)).
Proof. exact (single_bits W x). Qed.
Print Assumptions C33_single_bits.
Example C33_single_bits_ex : m_take_msb 8 200 = Some 1 /\ m_drop_msb 8 200 = Some 72.
Proof. vm_compute. split; reflexivity. Qed.

(** Padding and resizing. *)
Theorem C33_padding P W x : 0 <= P -> 0 <= W -> P + W <= 128 -> 0 <= x < 2 ^ W ->
  m_zpad_hi P W x = Some x /\ m_extu W (P + W) x = Some x /\ m_zpad_lo P W x = Some (x * 2 ^ P) /\
  m_opad_hi P W x = Some ((2 ^ P - 1) * 2 ^ W + x) /\ m_opad_lo P W x = Some (x * 2 ^ P + (2 ^ P - 1)).
Proof.
  intros. rewrite m_zpad_hi_ok, m_zpad_lo_ok, m_opad_hi_ok, m_opad_lo_ok, m_extu_ok by lia. repeat split.
Qed.
Print Assumptions C33_padding.
Example C33_padding_ex : m_opad_hi 3 4 5 = Some 117 /\ m_opad_lo 3 4 5 = Some 47.
Proof. vm_compute. split; reflexivity. Qed.
Theorem C33_resize W B x : 0 <= W <= 128 -> 0 <= B <= 128 -> 0 <= x < 2 ^ W ->
  m_resize W B x = Some (x mod 2 ^ B) /\ (x < 2 ^ B -> m_resize W B x = Some x).
Proof.
  intros. rewrite m_resize_ok by lia. split; [reflexivity|]. intros. rewrite Z.mod_small by lia. reflexivity.
Qed.
Print Assumptions C33_resize.
Example C33_resize_ex : m_resize 8 5 200 = Some 8 /\ m_resize 8 70 200 = Some 200.
Proof. vm_compute. split; reflexivity. Qed.
(** concat_array joins its elements, the last one on top. *)
Theorem C33_concat_array W xs : 0 <= W -> xs <> [] -> W * Z.of_nat (List.length xs) <= 128 ->
  Forall (fun x => 0 <= x < 2 ^ W) xs -> m_concat_array W xs = Some (number (2 ^ W) (rev xs)).
Proof. exact (concat_array_ok W xs). Qed.
Print Assumptions C33_concat_array.
Example C33_concat_array_ex : m_concat_array 8 [1; 2; 3] = Some (3 * 65536 + 2 * 256 + 1).
Proof. vm_compute. reflexivity. Qed.

(** ** C34 *)
Theorem C34_add_sub_wrap W a b : 0 <= W <= 128 ->
  m_add W a b = Some ((a + b) mod 2 ^ W) /\ m_sub W a b = Some ((a - b) mod 2 ^ W) /\
  m_add_int W a b = Some ((a + b) mod 2 ^ W) /\ m_sub_int W a b = Some ((a - b) mod 2 ^ W).
Proof. intros. rewrite m_add_ok, m_sub_ok, m_add_int_ok, m_sub_int_ok by lia. repeat split. Qed.
Print Assumptions C34_add_sub_wrap.
Example C34_add_sub_wrap_ex : m_add 64 (2 ^ 64 - 1) 2 = Some 1 /\ m_sub_int 7 0 1 = Some 127 /\ m_add_int 128 0 (-1) = Some (2 ^ 128 - 1).
Proof. vm_compute. repeat split. Qed.
Theorem C34_mul_exact W O a b : 0 <= W -> 0 <= O -> O + W <= 128 -> 0 <= a < 2 ^ W -> 0 <= b < 2 ^ O ->
  m_mul W O a b = Some (a * b) /\ a * b < 2 ^ (O + W).
Proof.
  intros. split; [apply m_mul_ok; lia|]. destruct (Z.ltb_spec (a * b) (2 ^ (O + W))); [lia|].
  pose proof (m_mul_ok W O a b ltac:(lia) ltac:(lia) ltac:(lia) ltac:(lia) ltac:(lia)) as E.
  unfold m_mul in E. rewrite Z.pow_add_r in * by lia.
  pose proof (Z.mul_le_mono_nonneg_r a (2 ^ W) b ltac:(lia) ltac:(lia)).
  pose proof (Z.mul_lt_mono_pos_l (2 ^ W) b (2 ^ O) ltac:(lia)). lia.
Qed.
Print Assumptions C34_mul_exact.
Example C34_mul_exact_ex : m_mul 40 40 (2 ^ 40 - 1) (2 ^ 40 - 1) = Some ((2 ^ 40 - 1) * (2 ^ 40 - 1)).
Proof. vm_compute. reflexivity. Qed.
Theorem C34_square_exact W a : 0 <= W -> 2 * W <= 128 -> 0 <= a < 2 ^ W -> m_square W a = Some (a * a).
Proof. exact (m_square_ok W a). Qed.
Print Assumptions C34_square_exact.
Example C34_square_exact_ex : m_square 33 (2 ^ 33 - 1) = Some ((2 ^ 33 - 1) * (2 ^ 33 - 1)).
Proof. vm_compute. reflexivity. Qed.
Theorem C34_carry_adders W x y (c s : bool) : 1 <= W <= 128 -> 0 <= x < 2 ^ W -> 0 <= y < 2 ^ W ->
  m_add_with_cin W x y (Z.b2z c) = Some ((x + y + Z.b2z c) mod 2 ^ W) /\
  m_add_cin W x (Z.b2z c) = Some ((x + Z.b2z c) mod 2 ^ W) /\
  m_add_sub W (Z.b2z s) x y = Some ((if s then x - y else x + y) mod 2 ^ W).
Proof.
  intros. rewrite m_add_with_cin_ok, m_add_cin_ok, m_add_sub_ok by (destruct c; cbn; lia). repeat split.
Qed.
Print Assumptions C34_carry_adders.
Example C34_carry_adders_ex : m_add_sub 8 1 3 5 = Some 254 /\ m_add_with_cin 8 255 255 1 = Some 255.
Proof. vm_compute. split; reflexivity. Qed.
Theorem C34_comparisons a b W : 0 <= W <= 128 ->
  (m_cmp Z.ltb a b = Some 1 <-> a < b) /\ (m_cmp Z.leb a b = Some 1 <-> a <= b) /\ (m_cmp Z.eqb a b = Some 1 <-> a = b) /\
  (0 <= b < 2 ^ 31 -> (m_cmp_int W Z.ltb a b = Some 1 <-> a < b) /\ (m_cmp_int W Z.leb a b = Some 1 <-> a <= b) /\
     (m_cmp_int W Z.eqb a b = Some 1 <-> a = b)) /\
  (b < 0 -> forall c, m_cmp_int W c a b = None).
Proof.
  intros. rewrite !m_cmp_ok.
  destruct (Z.ltb_spec a b), (Z.leb_spec a b), (Z.eqb_spec a b); cbn [Z.b2z]; try lia;
    (split; [split; [intros E; try discriminate E; lia|intros; try reflexivity; lia]|]);
    (split; [split; [intros E; try discriminate E; lia|intros; try reflexivity; lia]|]);
    (split; [split; [intros E; try discriminate E; lia|intros; try reflexivity; lia]|]);
    (split; [intros; rewrite !m_cmp_int_ok by lia; destruct (Z.ltb_spec a b), (Z.leb_spec a b), (Z.eqb_spec a b); cbn [Z.b2z]; try lia;
      (repeat split; intros E; try discriminate E; try reflexivity; lia)|
     intros; unfold m_cmp_int, assert_, bind; destruct (Z.leb_spec 0 b); [lia|reflexivity]]).
Qed.
Print Assumptions C34_comparisons.
Example C34_comparisons_ex : m_cmp Z.ltb (2 ^ 100) (2 ^ 101) = Some 1 /\ m_cmp_int 8 Z.eqb 5 5 = Some 1.
Proof. vm_compute. split; reflexivity. Qed.
(** Bitwise operators act bit by bit on the W bits, and the results stay within W bits. *)
Theorem C34_bitwise W a b : 0 <= W <= 128 -> 0 <= a < 2 ^ W -> 0 <= b < 2 ^ W ->
  exists n c d e, m_not W a = Some n /\ m_and W a b = Some c /\ m_or W a b = Some d /\ m_xor W a b = Some e /\
    n = 2 ^ W - 1 - a /\ 0 <= c < 2 ^ W /\ 0 <= d < 2 ^ W /\ 0 <= e < 2 ^ W /\
    forall i, 0 <= i < W -> Z.testbit n i = negb (Z.testbit a i) /\ Z.testbit c i = andb (Z.testbit a i) (Z.testbit b i) /\
      Z.testbit d i = orb (Z.testbit a i) (Z.testbit b i) /\ Z.testbit e i = xorb (Z.testbit a i) (Z.testbit b i).
Proof. exact (bitwise_all W a b). Qed.
Print Assumptions C34_bitwise.
Example C34_bitwise_ex : m_not 8 5 = Some 250 /\ m_xor 8 12 10 = Some 6.
Proof. vm_compute. split; reflexivity. Qed.
(** With an int operand the bitwise operators agree with the ones on fw_uint, except that
    [x | (2^W-1)] aborts: its assertion excludes the largest value. *)
Theorem C34_bitwise_int W a b : 0 <= W <= 128 -> 0 <= a < 2 ^ W -> 0 <= b < 2 ^ W - 1 ->
  m_and_int W a b = m_and W a b /\ m_or_int W a b = m_or W a b /\ m_xor_int W a b = m_xor W a b.
Proof.
  intros. rewrite m_and_int_ok, m_or_int_ok, m_xor_int_ok, m_and_ok, m_or_ok, m_xor_ok by lia. repeat split.
Qed.
Print Assumptions C34_bitwise_int.
Example C34_bitwise_int_ex : m_or_int 8 5 254 = Some 255.
Proof. vm_compute. reflexivity. Qed.
Theorem C34_or_int_all_ones_refuted W a : 0 <= W <= 128 -> 0 <= a < 2 ^ W ->
  m_or W a (2 ^ W - 1) = Some (2 ^ W - 1) /\ m_or_int W a (2 ^ W - 1) = None.
Proof. exact (or_all_ones W a). Qed.
Print Assumptions C34_or_int_all_ones_refuted.
Example C34_or_int_all_ones_ex : m_or_int 8 5 255 = None.
Proof. vm_compute. reflexivity. Qed.
Theorem C34_shifts W a d : 0 <= W <= 128 -> 0 <= a < 2 ^ W ->
  (0 <= d < W -> m_shr W a d = Some (a / 2 ^ d) /\ m_shl W a d = Some ((a * 2 ^ d) mod 2 ^ W)) /\
  (~ 0 <= d < W -> m_shr W a d = None /\ m_shl W a d = None).
Proof.
  intros. split; intros.
  - rewrite m_shr_ok, m_shl_ok by lia. split; reflexivity.
  - apply m_shift_bad. lia.
Qed.
Print Assumptions C34_shifts.
Example C34_shifts_ex : m_shl 8 200 1 = Some 144 /\ m_shr 8 200 7 = Some 1 /\ m_shr 8 200 8 = None.
Proof. vm_compute. repeat split. Qed.
Theorem C34_select_copybit {A : Type} W (b : bool) (v d : A) : 0 <= W <= 128 ->
  m_select (Z.b2z b) v d = Some (if b then v else d) /\ m_copybit W (Z.b2z b) = Some (if b then 2 ^ W - 1 else 0).
Proof. intros. rewrite m_select_ok, m_copybit_ok by lia. split; reflexivity. Qed.
Print Assumptions C34_select_copybit.
Example C34_select_copybit_ex : m_copybit 66 1 = Some (2 ^ 66 - 1).
Proof. vm_compute. reflexivity. Qed.
(** The functions of Fw.v, on which the floating-point models are built, are what the machine
    words compute, for every width the class accepts. *)
Theorem C34_word_level_agrees :
  (forall W a b, 0 <= W <= 128 -> m_add W a b = Some (fadd W a b) /\ m_sub W a b = Some (fsub W a b)) /\
  (forall W O a b, 0 <= W -> 0 <= O -> O + W <= 128 -> wf W a -> wf O b -> m_mul W O a b = Some (fmul a b)) /\
  (forall W a b, 0 <= W <= 128 -> wf W a -> wf W b ->
     m_not W a = Some (fnot W a) /\ m_and W a b = Some (fand a b) /\ m_or W a b = Some (for_ W a b) /\
     m_xor W a b = Some (fxor W a b)) /\
  (forall W a d, 0 <= W <= 128 -> wf W a -> m_shr W a d = fshr W a d /\ m_shl W a d = fshl W a d) /\
  (forall W h l x, 0 <= W <= 128 -> l <= h -> wf W x -> m_get_bits W h l x = get_bits W h l x) /\
  (forall A B a b, 0 <= A -> 0 <= B -> A + B <= 128 -> wf A a -> wf B b -> m_concat A B a b = Some (cat B a b)) /\
  (forall W, 0 <= W <= 128 -> m_zg W = Some (zg W) /\ m_og W = Some (og W)) /\
  (forall W v, 0 <= W <= 128 -> - 2 ^ 31 <= v < 2 ^ 31 -> m_of_int W v = of_int W v) /\
  (forall WD WS x, 0 <= WS <= 128 -> wf WS x -> m_checked_cast WD WS x = checked_cast WD WS x) /\
  (forall a b, m_cmp Z.eqb a b = Some (feq a b) /\ m_cmp (fun x y => negb (x =? y)) a b = Some (fne a b) /\
     m_cmp Z.ltb a b = Some (flt a b) /\ m_cmp Z.leb a b = Some (fle a b) /\
     m_cmp (fun x y => y <? x) a b = Some (fgt a b) /\ m_cmp (fun x y => y <=? x) a b = Some (fge a b)) /\
  (forall x, m_to_int x = to_int x).
Proof. exact fw_agrees_proof. Qed.
Print Assumptions C34_word_level_agrees.
Example C34_word_level_agrees_ex : m_shl 128 3 127 = fshl 128 3 127 /\ m_get_bits 65 64 1 (2 ^ 64) = get_bits 65 64 1 (2 ^ 64).
Proof. vm_compute. split; reflexivity. Qed.

(** ** C35 *)
Theorem C35_string_round_trip W x : 0 <= W <= 128 -> 0 <= x < 2 ^ W -> m_of_string W (m_to_string W x) = Some x.
Proof. exact (string_round_trip W x). Qed.
Print Assumptions C35_string_round_trip.
Example C35_string_round_trip_ex : m_to_string 10 513 = "0b10_00000001"%string.
Proof. vm_compute. reflexivity. Qed.
(** The printed digits are the W binary digits of the value. *)
Theorem C35_to_string_digits W x : 0 <= W -> 0 <= x < 2 ^ W -> exists s ds,
  m_to_string W x = append "0b" s /\ bindigits s = Some ds /\ Z.of_nat (List.length ds) = W /\ bits_number ds = x /\
  ends_in_separator s = false.
Proof. exact (to_string_bits W x). Qed.
Print Assumptions C35_to_string_digits.
Example C35_to_string_digits_ex : bits_number [true; false; true] = 5.
Proof. vm_compute. reflexivity. Qed.
(** A binary text is accepted only if it has exactly W digits, and then has their value. *)
Theorem C35_binary_text_accepted W s v : 0 <= W <= 128 -> m_of_string W (append "0b" s) = Some v ->
  exists ds, bindigits s = Some ds /\ Z.of_nat (List.length ds) = W /\ v = bits_number ds.
Proof. exact (bin_ctor_sound W s v). Qed.
Print Assumptions C35_binary_text_accepted.
Example C35_binary_text_accepted_at := C35_binary_text_accepted 4 "0110"%string 6 ltac:(hyp) ltac:(hyp).
Theorem C35_binary_text_complete W s ds : 0 < W <= 128 -> bindigits s = Some ds -> Z.of_nat (List.length ds) = W ->
  ends_in_separator s = false -> m_of_string W (append "0b" s) = Some (bits_number ds).
Proof. exact (bin_ctor_complete W s ds). Qed.
Print Assumptions C35_binary_text_complete.
Example C35_binary_text_ex : m_of_string 5 "0b1_01_10" = Some 22 /\ m_of_string 5 "0b10110_" = None /\ m_of_string 5 "0b101101" = None
  /\ m_of_string 5 "0b1011" = None /\ m_of_string 5 "0b10x10" = None.
Proof. vm_compute. repeat split. Qed.
(** A decimal text gives its value when that fits. When it does not fit the constructor aborts,
    except at the widths 32 and 64, where the stream stores the largest value: finding. *)
Theorem C35_decimal_text W s ds : 0 <= W <= 64 -> decdigits s = Some ds ->
  m_of_string W s = if number 10 ds <? 2 ^ W then Some (number 10 ds)
                    else if (W =? 32) || (W =? 64) then Some (2 ^ W - 1) else None.
Proof. exact (dec_ctor W s ds). Qed.
Print Assumptions C35_decimal_text.
Example C35_decimal_text_ex : m_of_string 10 "1023" = Some 1023 /\ m_of_string 10 "1024" = None /\
  m_of_string 32 "4294967296" = Some 4294967295.
Proof. vm_compute. repeat split. Qed.
Theorem C35_decimal_out_of_range_rejected_refuted :
  ~ (forall W s ds, 0 <= W <= 64 -> decdigits s = Some ds -> 2 ^ W <= number 10 ds -> m_of_string W s = None).
Proof. exact dec_not_rejected. Qed.
Print Assumptions C35_decimal_out_of_range_rejected_refuted.
Theorem C35_mpz_round_trip W x : 0 < W <= 128 -> 0 <= x < 2 ^ W -> m_to_mpz W x = x /\ m_of_mpz W (m_to_mpz W x) = Some x.
Proof. exact (mpz_round_trip W x). Qed.
Print Assumptions C35_mpz_round_trip.
Example C35_mpz_round_trip_ex : m_of_mpz 70 (2 ^ 69 + 2 ^ 33 + 1) = Some (2 ^ 69 + 2 ^ 33 + 1).
Proof. vm_compute. reflexivity. Qed.
Theorem C35_mpz_too_large_rejected W x : 0 < W <= 128 -> 2 ^ W <= x -> m_of_mpz W x = None.
Proof. exact (mpz_large W x). Qed.
Print Assumptions C35_mpz_too_large_rejected.
Example C35_mpz_too_large_ex : m_of_mpz 70 (2 ^ 70) = None.
Proof. vm_compute. reflexivity. Qed.
(** A negative mpz is not rejected but stored as its absolute value. *)
Theorem C35_mpz_negative_rejected_refuted W x : 0 < W <= 128 -> - 2 ^ W < x < 0 -> m_of_mpz W x = Some (- x).
Proof. exact (mpz_negative W x). Qed.
Print Assumptions C35_mpz_negative_rejected_refuted.
Example C35_mpz_negative_ex : m_of_mpz 8 (-5) = Some 5.
Proof. vm_compute. reflexivity. Qed.
(** Width zero: the value cannot be rebuilt from its own mpz. *)
Theorem C35_mpz_round_trip_width0_refuted : m_to_mpz 0 0 = 0 /\ forall x, m_of_mpz 0 x = None.
Proof. exact (conj eq_refl of_mpz_width0). Qed.
Print Assumptions C35_mpz_round_trip_width0_refuted.
Theorem C35_int_in_range W v : 0 <= W <= 128 -> - 2 ^ 31 <= v < 2 ^ 31 ->
  m_of_int W v = if (0 <=? v) && (v <? 2 ^ W) then Some v else None.
Proof. exact (of_int_spec W v). Qed.
Print Assumptions C35_int_in_range.
Example C35_int_in_range_ex : m_of_int 8 255 = Some 255 /\ m_of_int 8 256 = None /\ m_of_int 8 (-1) = None.
Proof. vm_compute. repeat split. Qed.
Theorem C35_uint64 W x : 0 <= W <= 128 -> 0 <= x < 2 ^ 64 ->
  m_from_uint64 W x = (if x <? 2 ^ W then Some x else None) /\ m_to_uint64 x = Some x.
Proof. exact (uint64_spec W x). Qed.
Print Assumptions C35_uint64.
Example C35_uint64_at := C35_uint64 12 4095 ltac:(hyp) ltac:(hyp).
Theorem C35_to_uint64_range x : 0 <= x -> m_to_uint64 x = if x <? 2 ^ 64 then Some x else None.
Proof. exact (to_uint64_spec x). Qed.
Print Assumptions C35_to_uint64_range.
Example C35_uint64_ex : m_from_uint64 63 (2 ^ 63) = None /\ m_from_uint64 64 (2 ^ 63) = Some (2 ^ 63) /\ m_to_uint64 (2 ^ 64) = None.
Proof. vm_compute. repeat split. Qed.

(** ** C36 *)
(** The pair denotes hi * 2^64 + lo. *)
Theorem C36_pair_arithmetic a b : okp a -> okp b ->
  (okp (p_add a b) /\ hi (p_add a b) * 2 ^ 64 + lo (p_add a b) = ((hi a * 2 ^ 64 + lo a) + (hi b * 2 ^ 64 + lo b)) mod 2 ^ 128) /\
  (okp (p_sub a b) /\ hi (p_sub a b) * 2 ^ 64 + lo (p_sub a b) = ((hi a * 2 ^ 64 + lo a) - (hi b * 2 ^ 64 + lo b)) mod 2 ^ 128).
Proof. intros A B. exact (conj (p_add_ok a b A B) (p_sub_ok a b A B)). Qed.
Print Assumptions C36_pair_arithmetic.
Example C36_pair_arithmetic_at := C36_pair_arithmetic {| hi := 5; lo := 2 ^ 64 - 1 |} {| hi := 2 ^ 63; lo := 77 |} ltac:(hyp) ltac:(hyp).
Theorem C36_pair_bitwise a b : okp a -> okp b ->
  (okp (p_and a b) /\ pval (p_and a b) = Z.land (pval a) (pval b)) /\ (okp (p_or a b) /\ pval (p_or a b) = Z.lor (pval a) (pval b)) /\
  (okp (p_xor a b) /\ pval (p_xor a b) = Z.lxor (pval a) (pval b)).
Proof. intros A B. exact (conj (p_and_ok a b A B) (conj (p_or_ok a b A B) (p_xor_ok a b A B))). Qed.
Print Assumptions C36_pair_bitwise.
Example C36_pair_bitwise_at := C36_pair_bitwise {| hi := 5; lo := 2 ^ 64 - 1 |} {| hi := 2 ^ 63; lo := 77 |} ltac:(hyp) ltac:(hyp).
Theorem C36_pair_shifts a s : okp a -> 0 <= s < 128 ->
  (okp (p_shr a s) /\ pval (p_shr a s) = pval a / 2 ^ s) /\ (okp (p_shl a s) /\ pval (p_shl a s) = (pval a * 2 ^ s) mod 2 ^ 128).
Proof. intros A S. exact (conj (p_shr_ok a s A S) (p_shl_ok a s A S)). Qed.
Print Assumptions C36_pair_shifts.
Example C36_pair_shifts_at := C36_pair_shifts {| hi := 5; lo := 2 ^ 64 - 1 |} 67 ltac:(hyp) ltac:(hyp).
Theorem C36_pair_comparisons a b : okp a -> okp b ->
  p_eq a b = (pval a =? pval b) /\ p_lt a b = (pval a <? pval b) /\ p_le a b = (pval a <=? pval b) /\
  p_gt a b = (pval b <? pval a) /\ p_ge a b = (pval b <=? pval a).
Proof. exact (p_cmp_ok a b). Qed.
Print Assumptions C36_pair_comparisons.
Example C36_pair_comparisons_at := C36_pair_comparisons {| hi := 5; lo := 2 ^ 64 - 1 |} {| hi := 2 ^ 63; lo := 77 |} ltac:(hyp) ltac:(hyp).
Theorem C36_pair_mask W : 65 <= W <= 128 -> okp (p_mask W) /\ pval (p_mask W) = 2 ^ W - 1.
Proof. exact (p_mask_ok W). Qed.
Print Assumptions C36_pair_mask.
Example C36_pair_ex : okp (mk 3 (2 ^ 64 - 1)) /\ pval (p_add (mk 3 (2 ^ 64 - 1)) (mk 0 1)) = 4 * 2 ^ 64 /\
  p_shl (mk 3 (2 ^ 64 - 1)) 4 = mk 63 (2 ^ 64 - 16).
Proof. vm_compute. intuition congruence. Qed.
(** Multiplication is right modulo 2^128 when no product of two 32-bit limbs reaches 2^32. The
    full claim has no such hypothesis; it is refuted below. *)
Theorem C36_pair_mul_partial a b : okp a -> okp b -> fits (lo a) (lo b) -> fits (lo a) (hi b) -> fits (hi a) (lo b) ->
  okp (p_mul a b) /\ pval (p_mul a b) = (pval a * pval b) mod 2 ^ 128.
Proof. exact (p_mul_ok a b). Qed.
Print Assumptions C36_pair_mul_partial.
Example C36_pair_mul_partial_ex : fits 65535 (2 ^ 32 + 65535) /\ pval (p_mul (mk 0 65535) (mk 0 (2 ^ 32 + 65535))) = 65535 * (2 ^ 32 + 65535).
Proof. vm_compute. intuition congruence. Qed.
(** The product of two 32-bit numbers keeps its lower 32 bits only. *)
Theorem C36_pair_mul_drops_upper_half a b : 0 <= a < 2 ^ 32 -> 0 <= b < 2 ^ 32 ->
  p_mul (mk 0 a) (mk 0 b) = mk 0 ((a * b) mod 2 ^ 32).
Proof. exact (p_mul_small a b). Qed.
Print Assumptions C36_pair_mul_drops_upper_half.
Example C36_pair_mul_drops_ex : p_mul (mk 0 65536) (mk 0 65536) = mk 0 0.
Proof. vm_compute. reflexivity. Qed.
Theorem C36_pair_mul_refuted : ~ (forall a b, okp a -> okp b -> pval (p_mul a b) = (pval a * pval b) mod 2 ^ 128).
Proof. exact p_mul_not_ok. Qed.
Print Assumptions C36_pair_mul_refuted.

(** ** C47 *)
(** A random W-bit value is the top W bits of the ceil(W/32) words taken from the generator, the
    first word uppermost; no other word is consumed. *)
Theorem C47_random_takes_top_bits W ws rest : 0 <= W <= 128 -> Z.of_nat (List.length ws) = (W + 31) / 32 ->
  Forall (fun w => 0 <= w < 2 ^ 32) ws ->
  m_random W (ws ++ rest) = Some (number (2 ^ 32) ws / 2 ^ (32 * Z.of_nat (List.length ws) - W), rest).
Proof. exact (random_ok W ws rest). Qed.
Print Assumptions C47_random_takes_top_bits.
Example C47_random_ex : m_random 40 [1; 2 ^ 31; 9] = Some (384, [9]).
Proof. vm_compute. reflexivity. Qed.
(** Every value of W bits is produced by some words. *)
Theorem C47_random_reaches_every_value W v rest : 0 <= W <= 128 -> 0 <= v < 2 ^ W ->
  exists ws, Z.of_nat (List.length ws) = (W + 31) / 32 /\ Forall (fun w => 0 <= w < 2 ^ 32) ws /\
    m_random W (ws ++ rest) = Some (v, rest).
Proof. exact (random_onto W v rest). Qed.
Print Assumptions C47_random_reaches_every_value.
Example C47_random_reaches_every_value_at := C47_random_reaches_every_value 70 (2 ^ 69 + 5) [1; 2] ltac:(hyp) ltac:(hyp).

(** ** C48 *)
Theorem C48_lut_returns_initialiser WD WA init : 0 <= WD <= 128 -> 0 <= WA <= 30 ->
  (forall i, 0 <= i < 2 ^ WA -> 0 <= init i < 2 ^ WD) ->
  exists t, m_lut WD WA init = Some t /\ forall a, 0 <= a < 2 ^ WA -> m_lut_get t a = Some (init a).
Proof. exact (lut_ok WD WA init). Qed.
Print Assumptions C48_lut_returns_initialiser.
Example C48_lut_ex : (do t <- m_lut 8 3 (fun i => i * i); m_lut_get t 7) = Some 49 /\ m_lut 5 3 (fun i => i * i) = None.
Proof. vm_compute. split; reflexivity. Qed.

(** ** C49 *)
(** thls_ctLog2Ceil(x) is the number of binary digits of x: it exceeds the ceiling of the
    logarithm at every power of two. *)
Theorem C49_ctLog2Ceil_digits n x : 0 <= x < 2 ^ Z.of_nat n ->
  exists r, ctLog2Ceil_rec (S n) x 0 = Some r /\ x < 2 ^ r /\ (0 < r -> 2 ^ (r - 1) <= x).
Proof. exact (log2ceil_digits n x). Qed.
Print Assumptions C49_ctLog2Ceil_digits.
Example C49_ctLog2Ceil_ex : ctLog2Ceil_rec 32 5 0 = Some 3 /\ ctLog2Ceil_rec 32 8 0 = Some 4.
Proof. vm_compute. split; reflexivity. Qed.
Theorem C49_ctLog2Ceil_is_ceiling_refuted k n : 0 <= k < Z.of_nat n -> ctLog2Ceil_rec (S n) (2 ^ k) 0 = Some (k + 1).
Proof. exact (log2ceil_power k n). Qed.
Print Assumptions C49_ctLog2Ceil_is_ceiling_refuted.
