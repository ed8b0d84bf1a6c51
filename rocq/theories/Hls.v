(** Model of the back ends of fw_uint<W> used for synthesis: include/thls/tops/fw_uint_on_ac_uint.hpp (ac below) and
    include/thls/tops/fw_uint_on_ap_uint.hpp (ap below), over the contract of HlsInt.v. A value is the content of the member
    bits, which has at least one bit also when W is 0. Lines are those of the ac and of the ap file. *)
From Coq Require Import ZArith Bool List String Ascii.
From Verif Require Import Fw FwWord HlsInt.
Import ListNotations.
Open Scope Z_scope.

(** SafeW: ac 35, ap 41. *)
Definition SafeW (W : Z) : Z := if W <=? 0 then 1 else W.
(** The member bits holding v. *)
Definition hbits (W v : Z) : bint := Bint (SafeW W) false v.
(** Storing a number in bits: the constructors at ac 46-65 and 145-149, ap 47-66 and 153-157. *)
Definition store (W : Z) (x : bint) : Z := bv (conv (SafeW W) false x).
(** ... the ones that assert. *)
Definition checked_store (W : Z) (x : bint) : option Z := do _ <- assert_ (0 <=? W); Some (store W x).

(** overflow(): ac 39-42; thls_ctLog2Ceil as in FwWord.v. ap 92 writes 1 shifted by SafeW. *)
Definition log2Ceil (x : Z) : option Z := ctLog2Ceil_rec (S (Z.to_nat x)) x 0.
Definition ac_overflow (W : Z) : option bint :=
  do l <- log2Ceil (SafeW W + 1); Some (bshl (conv (SafeW W + 1) false (of_cint 1)) (bv (conv l false (of_cint (SafeW W))))).
Definition ap_overflow (W : Z) : option bint := Some (bshl (conv (SafeW W + 1) false (of_cint 1)) (SafeW W)).
(** fw_uint(int), (uint32_t), (uint64_t), from_uint64: ac 76-101, ap 87-112. [over] is the bound above. *)
Definition h_of_int (over : Z -> option bint) (W v : Z) : option Z :=
  do _ <- assert_ (0 <=? W); do _ <- assert_ (0 <=? v); do o <- over W; do _ <- assert_ (blt (of_cuint64 v) o);
  Some (store W (of_cint v)).
Definition h_of_uint32 (over : Z -> option bint) (W v : Z) : option Z :=
  do _ <- assert_ (0 <=? W); do o <- over W; do _ <- assert_ (blt (of_cuint v) o); Some (store W (of_cuint v)).
Definition h_of_uint64 (over : Z -> option bint) (W v : Z) : option Z :=
  do _ <- assert_ (0 <=? W); do o <- over W; do _ <- assert_ (blt (of_cuint64 v) o); Some (store W (of_cuint64 v)).
(** fw_uint<1>(bool): ac 69-74, ap 70-85. *)
Definition h_of_bool (b : bool) : option Z := checked_store 1 (of_cbool b).

(** operator+, operator-: ac 188-207 (through from-bits constructors), ap 195-215. The overloads with an int. *)
Definition ac_add (W a b : Z) : option Z := Some (store W (badd (hbits W a) (hbits W b))).
Definition ac_add_int (W a b : Z) : option Z := Some (store W (badd (hbits W a) (of_cint b))).
Definition ac_sub (W a b : Z) : option Z := Some (store W (bsub (hbits W a) (hbits W b))).
Definition ac_sub_int (W a b : Z) : option Z := Some (store W (bsub (hbits W a) (of_cint b))).
Definition ap_add (W a b : Z) : option Z := checked_store W (conv (SafeW W) false (badd (hbits W a) (hbits W b))).
Definition ap_add_int (W a b : Z) : option Z := checked_store W (conv (SafeW W) false (badd (hbits W a) (of_cint b))).
Definition ap_sub (W a b : Z) : option Z := checked_store W (conv (SafeW W) false (bsub (hbits W a) (hbits W b))).
Definition ap_sub_int (W a b : Z) : option Z := checked_store W (conv (SafeW W) false (bsub (hbits W a) (of_cint b))).
(** operator*: ac 209-214, ap 217-224. square: ac 479-485, ap 486-492. *)
Definition ac_mul (W O a b : Z) : option Z := Some (store (O + W) (bmul (hbits W a) (hbits O b))).
Definition ap_mul (W O a b : Z) : option Z := checked_store (O + W) (conv (SafeW (O + W)) false (bmul (hbits W a) (hbits O b))).
Definition safe_sq (W : Z) : Z := if W <=? 0 then 1 else 2 * W.
Definition ac_square (W a : Z) : option Z := Some (store (2 * W) (conv (safe_sq W) false (bmul (hbits W a) (hbits W a)))).
Definition ap_square (W a : Z) : option Z := checked_store (2 * W) (conv (safe_sq W) false (conv (safe_sq W) false (bmul (hbits W a) (hbits W a)))).
(** Comparisons: ac 216-268, ap 226-278. *)
Definition h_lt (W a b : Z) : option Z := h_of_bool (blt (hbits W a) (hbits W b)).
Definition h_le (W a b : Z) : option Z := h_of_bool (ble (hbits W a) (hbits W b)).
Definition h_eq (W a b : Z) : option Z := h_of_bool (beq (hbits W a) (hbits W b)).
Definition h_ge (W a b : Z) : option Z := h_of_bool (ble (hbits W b) (hbits W a)).
Definition h_gt (W a b : Z) : option Z := h_of_bool (blt (hbits W b) (hbits W a)).
Definition h_ne (W a b : Z) : option Z := h_of_bool (negb (beq (hbits W a) (hbits W b))).
Definition h_lt_int (W a o : Z) : option Z := do _ <- assert_ (0 <=? o); h_of_bool (blt (hbits W a) (of_cint o)).
Definition h_le_int (W a o : Z) : option Z := do _ <- assert_ (0 <=? o); h_of_bool (ble (hbits W a) (of_cint o)).
Definition h_eq_int (W a o : Z) : option Z := do _ <- assert_ (0 <=? o); h_of_bool (beq (hbits W a) (of_cint o)).
Definition h_ge_int (W a o : Z) : option Z := do _ <- assert_ (0 <=? o); h_of_bool (ble (of_cint o) (hbits W a)).
Definition h_gt_int (W a o : Z) : option Z := do _ <- assert_ (0 <=? o); h_of_bool (blt (of_cint o) (hbits W a)).
Definition h_ne_int (W a o : Z) : option Z := do _ <- assert_ (0 <=? o); h_of_bool (negb (beq (hbits W a) (of_cint o))).
(** operator~ & | ^: ac 273-307, ap 283-319. The ap file's ^ with an int builds fw_uint from a signed number directly, which
    constructor that selects is left to the compiler; taken to be the one of the other operators. *)
Definition ac_not (W a : Z) : option Z := Some (store W (bnot (hbits W a))).
Definition ac_and (W a b : Z) : option Z := Some (store W (band (hbits W a) (hbits W b))).
Definition ac_or (W a b : Z) : option Z := Some (store W (bor (hbits W a) (hbits W b))).
Definition ac_xor (W a b : Z) : option Z := Some (store W (bxor (hbits W a) (hbits W b))).
Definition ac_and_int (W a b : Z) : option Z := do _ <- assert_ (0 <=? b); Some (store W (band (hbits W a) (of_cint b))).
Definition ac_or_int (W a b : Z) : option Z := do _ <- assert_ (0 <=? b); Some (store W (bor (hbits W a) (of_cint b))).
Definition ac_xor_int (W a b : Z) : option Z := do _ <- assert_ (0 <=? b); Some (store W (bxor (hbits W a) (of_cint b))).
Definition ap_not (W a : Z) : option Z := checked_store W (conv (SafeW W) false (bnot (hbits W a))).
Definition ap_and (W a b : Z) : option Z := checked_store W (conv (SafeW W) false (band (hbits W a) (hbits W b))).
Definition ap_or (W a b : Z) : option Z := checked_store W (conv (SafeW W) false (bor (hbits W a) (hbits W b))).
Definition ap_xor (W a b : Z) : option Z := checked_store W (conv (SafeW W) false (bxor (hbits W a) (hbits W b))).
Definition ap_and_int (W a b : Z) : option Z := do _ <- assert_ (0 <=? b); checked_store W (conv (SafeW W) false (band (hbits W a) (of_cint b))).
Definition ap_or_int (W a b : Z) : option Z := do _ <- assert_ (0 <=? b); checked_store W (conv (SafeW W) false (bor (hbits W a) (of_cint b))).
Definition ap_xor_int (W a b : Z) : option Z := do _ <- assert_ (0 <=? b); checked_store W (conv (SafeW W) false (bxor (hbits W a) (of_cint b))).
(** operator>>, operator<<: ac 310-324 (the distance goes through a number of thls_ctLog2Ceil(W) bits), ap 322-334. *)
Definition ac_shr (W a d : Z) : option Z :=
  do _ <- assert_ ((0 <=? d) && (d <? W)); do l <- log2Ceil W; checked_store W (bshr (hbits W a) (bv (conv l false (of_cint d)))).
Definition ac_shl (W a d : Z) : option Z :=
  do _ <- assert_ ((0 <=? d) && (d <? W)); do l <- log2Ceil W; checked_store W (bshl (hbits W a) (bv (conv l false (of_cint d)))).
Definition ap_shr (W a d : Z) : option Z := do _ <- assert_ ((0 <=? d) && (d <? W)); checked_store W (conv (SafeW W) false (bshr (hbits W a) d)).
Definition ap_shl (W a d : Z) : option Z := do _ <- assert_ ((0 <=? d) && (d <? W)); checked_store W (conv (SafeW W) false (bshl (hbits W a) d)).

(** to_uint64, to_uint32, to_bool: ac 364-380, ap 374-390. to_int, ap 369-372, keeps the low 32 bits; in the ac file,
    359-362, it needs a conversion which ac_int does not have. *)
Definition h_to_uint64 (W a : Z) : option Z := do _ <- assert_ (W <=? 64); Some (to_bits 64 (hbits W a)).
Definition h_to_uint32 (W a : Z) : option Z := do _ <- assert_ (W <=? 32); Some (to_bits 32 (hbits W a)).
Definition h_to_bool (W a : Z) : option bool := do _ <- assert_ (W =? 1); Some (a =? 1).
Definition ap_to_int (W a : Z) : Z := low_bits 32 true a.

(** get_bits: ac 384-390, ap 394-399. *)
Definition ac_get_bits (W hi lo x : Z) : option Z :=
  do r <- ac_slc (SafeW (hi - lo + 1)) lo (hbits W x); checked_store (hi - lo + 1) r.
Definition ap_get_bits (W hi lo x : Z) : option Z :=
  do r <- ap_range hi lo (hbits W x); checked_store (hi - lo + 1) (conv (SafeW (hi - lo + 1)) false r).
(** concat: ac 401-453, ap 410-460. *)
Definition h_concat (two : Z -> Z -> Z -> Z -> option Z) (WA WB a b : Z) : option Z :=
  if WA =? 0 then if WB =? 0 then Some a else do _ <- assert_ (0 <? WB); Some b
  else if WB =? 0 then do _ <- assert_ (0 <? WA); Some a
  else do _ <- assert_ (0 <? WA); do _ <- assert_ (0 <? WB); two WA WB a b.
Definition ac_concat : Z -> Z -> Z -> Z -> option Z := h_concat (fun WA WB a b =>
  do r <- ac_set_slc (conv (WA + WB) false (of_cint 0)) 0 (hbits WB b);
  do r <- ac_set_slc r WB (hbits WA a);
  Some (store (WA + WB) r)).
Definition ap_concat : Z -> Z -> Z -> Z -> option Z := h_concat (fun WA WB a b =>
  checked_store (WA + WB) (conv (WA + WB) false (ap_pair (hbits WA a) (hbits WB b)))).
(** checked_cast: ac 467-477, ap 474-484. *)
Definition h_checked_cast (WD WS s : Z) : option Z :=
  do _ <- assert_ (WD =? WS); checked_store WD (conv (SafeW WD) false (hbits WS s)).

(** fw_uint(mpz_t): ac 159-185, ap 166-192. UL is the width of unsigned long; mpz_get_ui keeps that many low bits of the
    absolute value. [n] bounds the loop. *)
Definition mpz_get_ui (UL x : Z) : Z := Z.abs x mod 2 ^ UL.
Fixpoint ac_of_mpz_loop (n : nat) (UL A tmp offset : Z) (acc : bint) : option bint :=
  if tmp =? 0 then Some acc
  else match n with
       | O => None
       | S n =>
           let curr := mk 32 false (mpz_get_ui UL (Z.rem tmp (2 ^ 32))) in
           do acc <- ac_set_slc acc offset curr;
           ac_of_mpz_loop n UL A (Z.quot tmp (2 ^ 32)) (offset + 32) acc
       end.
Fixpoint ap_of_mpz_loop (n : nat) (UL W tmp offset : Z) (acc : bint) : option bint :=
  if tmp =? 0 then Some acc
  else match n with
       | O => None
       | S n =>
           let curr := mk 32 false (mpz_get_ui UL (Z.rem tmp (2 ^ 32))) in
           ap_of_mpz_loop n UL W (Z.quot tmp (2 ^ 32)) (offset + 32) (conv (SafeW W) false (bor acc (bshl curr offset)))
       end.
Definition ac_of_mpz (UL W x : Z) : option Z :=
  do _ <- assert_ (0 <=? W);
  do _ <- assert_ (sizeinbase2 x <=? W);
  if 32 <=? W then Some (store W (Bint UL false (mpz_get_ui UL x)))
  else let A := (SafeW W + 31) / 32 * 32 in
       do acc <- ac_of_mpz_loop 2 UL A x 0 (conv A false (of_cint 0)); Some (store W acc).
Definition ap_of_mpz (UL W x : Z) : option Z :=
  do _ <- assert_ (0 <=? W);
  do _ <- assert_ (sizeinbase2 x <=? W);
  if 32 <=? W then Some (store W (Bint UL false (mpz_get_ui UL x)))
  else do acc <- ap_of_mpz_loop 2 UL W x 0 (conv (SafeW W) false (of_cint 0)); Some (store W acc).
(** to_mpz_t: ac 339-356, ap 349-366. *)
Fixpoint h_to_mpz_loop (n : nat) (W todo bits offset res : Z) : Z :=
  match n with
  | O => res
  | S n =>
      if 0 <? todo then
        let curr := wrap 32 (to_bits 64 (bshr (hbits W bits) offset)) in
        h_to_mpz_loop n W (todo - 32) bits (offset + 32) (res + curr * 2 ^ offset)
      else res
  end.
Definition h_to_mpz (W bits : Z) : Z := h_to_mpz_loop (Z.to_nat W) W W bits 0 0.
(** fw_uint(char const * ), binary texts: ac 107-135, ap 118-146, as in the software back end but in a number of SafeW bits.
    Hexadecimal and decimal texts are handed to the library. to_string, ac 327-337, ap 337-347, is m_to_string. *)
Definition h_of_binary (W : Z) (s : string) : option Z :=
  do _ <- assert_ (0 <=? W); parse_bin (SafeW W) (Z.to_nat W) 0 s.

(** ** The functions of fw_uint.hpp over a back end *)
Record backend := Backend {
  k_of_int : Z -> Z -> option Z; k_not : Z -> Z -> option Z; k_add : Z -> Z -> Z -> option Z;
  k_get_bits : Z -> Z -> Z -> Z -> option Z; k_concat : Z -> Z -> Z -> Z -> option Z; k_to_bool : Z -> Z -> option bool
}.
Definition software : backend := Backend m_of_int m_not m_add m_get_bits m_concat m_to_bool.
Definition ac_backend : backend := Backend (h_of_int ac_overflow) ac_not ac_add ac_get_bits ac_concat h_to_bool.
Definition ap_backend : backend := Backend (h_of_int ap_overflow) ap_not ap_add ap_get_bits ap_concat h_to_bool.
(** zg, og: lines 247-261. *)
Definition k_zg (K : backend) (W : Z) : option Z := k_of_int K W 0.
Definition k_og (K : backend) (W : Z) : option Z := do z <- k_zg K W; k_not K W z.
(** take_lsbs, drop_lsbs, take_msbs, drop_msbs: lines 314-360. *)
Definition k_take_lsbs (K : backend) (W B x : Z) : option Z :=
  do _ <- assert_ (0 <=? B); do _ <- assert_ (B <=? W);
  if B =? 0 then k_zg K B else k_get_bits K W (B - 1) 0 x.
Definition k_drop_lsbs (K : backend) (W B x : Z) : option Z :=
  do _ <- assert_ (0 <=? B); do _ <- assert_ (B <=? W);
  if B =? W then k_zg K (W - B) else k_get_bits K W (W - 1) B x.
Definition k_take_msbs (K : backend) (W B x : Z) : option Z :=
  do _ <- assert_ (0 <=? B); do _ <- assert_ (B <=? W);
  if B =? 0 then k_zg K B else k_get_bits K W (W - 1) (W - B) x.
Definition k_drop_msbs (K : backend) (W B x : Z) : option Z :=
  do _ <- assert_ (0 <=? B); do _ <- assert_ (B <=? W);
  if B =? W then k_zg K (W - B) else k_get_bits K W (W - 1 - B) 0 x.
(** zpad_hi, opad_hi, zpad_lo, opad_lo: lines 371-393; extu, resize: 396-408. *)
Definition k_zpad_hi (K : backend) (P W x : Z) : option Z := do z <- k_zg K P; k_concat K P W z x.
Definition k_opad_hi (K : backend) (P W x : Z) : option Z := do z <- k_og K P; k_concat K P W z x.
Definition k_zpad_lo (K : backend) (P W x : Z) : option Z := do z <- k_zg K P; k_concat K W P x z.
Definition k_opad_lo (K : backend) (P W x : Z) : option Z := do z <- k_og K P; k_concat K W P x z.
Definition k_extu (K : backend) (W B x : Z) : option Z := do _ <- assert_ (W <=? B); k_zpad_hi K (B - W) W x.
Definition k_resize (K : backend) (W B x : Z) : option Z :=
  do y <- k_zpad_hi K (ctMax 0 (B - W)) W x; k_take_lsbs K (ctMax 0 (B - W) + W) B y.
(** select, copybit: lines 431-438, 553-557; add_with_cin, add_sub, add_cin: 410-428. *)
Definition k_select {A : Type} (K : backend) (c : Z) (v d : A) : option A := do b <- k_to_bool K 1 c; Some (if b then v else d).
Definition k_copybit (K : backend) (W b : Z) : option Z := do o <- k_og K W; do z <- k_zg K W; k_select K b o z.
Definition k_add_with_cin (K : backend) (W x y cin : Z) : option Z :=
  do s <- k_add K W x y; do c <- k_zpad_hi K (W - 1) 1 cin; k_add K W s c.
Definition k_add_sub (K : backend) (W doSub x y : Z) : option Z :=
  do ny <- k_not K W y; do y' <- k_select K doSub ny y; k_add_with_cin K W x y' doSub.
Definition k_add_cin (K : backend) (W x cin : Z) : option Z := do c <- k_zpad_hi K (W - 1) 1 cin; k_add K W x c.
(** concat_array<HI,LO>: lines 663-682, on the list x[LO], ..., x[HI]. *)
Fixpoint k_concat_array (K : backend) (W : Z) (xs : list Z) : option Z :=
  match xs with
  | [] => None
  | [x] => Some x
  | x :: rest => do r <- k_concat_array K W rest; k_concat K (W * Z.of_nat (List.length rest)) W r x
  end.
