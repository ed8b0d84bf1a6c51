(** Model of the storage level of fw_uint<W>: the machine word [bits_t] behind the values of
    Fw.v, its masks and the assertions of its constructors
    (include/thls/tops/fw_uint_on_masked_uint.hpp). FwWordProofs.v shows that on values in
    range these functions never assert and agree with the functions of Fw.v, which the models
    of the floating-point operators use. *)
From Coq Require Import ZArith Bool List Ascii String.
From Verif Require Import Fw.
Import ListNotations.
Open Scope Z_scope.

(** bits_holder<W>::bits_w: lines 28-56; uint32_t up to 32 bits, uint64_t up to 64, then
    unsigned __int128. *)
Definition word (W : Z) : Z := if W <=? 32 then 32 else if W <=? 64 then 64 else 128.
(** Conversion of an integer to an unsigned type of N bits. *)
Definition wrap (N x : Z) : Z := x mod 2 ^ N.

(** ALL_ONES, MASK: lines 367-368. *)
Definition all_ones (N : Z) : Z := wrap N (0 - 1).
Definition MASK (W : Z) : Z :=
  if W <=? 0 then 0 else Z.shiftr (all_ones (word W)) (if W <? 0 then 0 else word W - W).

(** fw_uint(bits_t v, init_from_bits): lines 399-406 (also from_bits, 451-454). *)
Definition from_bits (W v : Z) : option Z :=
  do _ <- assert_ (0 <=? W); do _ <- assert_ (0 <=? v); do _ <- assert_ (v <=? MASK W);
  Some (Z.land v (MASK W)).
(** fw_uint(): lines 372-376. *)
Definition m_default (W : Z) : option Z := do _ <- assert_ (0 <=? W); Some 0.
(** fw_uint(int v): lines 389-396. *)
Definition m_of_int (W v : Z) : option Z :=
  do _ <- assert_ (0 <=? W); do _ <- assert_ (0 <=? v); do _ <- assert_ (wrap (word W) v <=? MASK W);
  Some (wrap (word W) v).
(** from_uint64: lines 456-460; x is a uint64_t. *)
Definition m_from_uint64 (W x : Z) : option Z :=
  do _ <- assert_ (if 64 <=? W then true else x <? 2 ^ ctMin 63 W);
  from_bits W (wrap (word W) x).

(** operator+, -: lines 492-510. *)
Definition m_add (W a b : Z) : option Z := from_bits W (Z.land (wrap (word W) (a + b)) (MASK W)).
Definition m_sub (W a b : Z) : option Z := from_bits W (Z.land (wrap (word W) (a - b)) (MASK W)).
(** operator+(int), operator-(int): lines 497-510; the int is converted to the word first. *)
Definition m_add_int (W a b : Z) : option Z := from_bits W (Z.land (wrap (word W) (a + wrap (word W) b)) (MASK W)).
Definition m_sub_int (W a b : Z) : option Z := from_bits W (Z.land (wrap (word W) (a - wrap (word W) b)) (MASK W)).
(** operator*: lines 512-517; square: 747-752. *)
Definition m_mul (W O a b : Z) : option Z :=
  from_bits (O + W) (wrap (word (O + W)) (wrap (word (O + W)) a * wrap (word (O + W)) b)).
Definition m_square (W a : Z) : option Z :=
  from_bits (2 * W) (wrap (word (2 * W)) (wrap (word (2 * W)) a * wrap (word (2 * W)) a)).

(** Comparisons: lines 519-571; with an int they first assert that it is not negative and
    convert it to the word (operator< to unsigned). *)
Definition m_cmp (c : Z -> Z -> bool) (a b : Z) : option Z := m_of_int 1 (Z.b2z (c a b)).
Definition m_cmp_int (W : Z) (c : Z -> Z -> bool) (a o : Z) : option Z :=
  do _ <- assert_ (0 <=? o); m_of_int 1 (Z.b2z (c a (wrap (word W) o))).

(** operator~ & | ^: lines 576-612. *)
Definition m_not (W a : Z) : option Z := from_bits W (Z.lxor a (MASK W)).
Definition m_and (W a b : Z) : option Z := from_bits W (Z.land a b).
Definition m_or (W a b : Z) : option Z := from_bits W (Z.land (Z.lor a b) (MASK W)).
Definition m_xor (W a b : Z) : option Z := from_bits W (Z.land (Z.lxor a b) (MASK W)).
Definition m_and_int (W a b : Z) : option Z := do _ <- assert_ (0 <=? b); from_bits W (Z.land a b).
(** line 598: the assertion is b < MASK(), not b <= MASK(). *)
Definition m_or_int (W a b : Z) : option Z :=
  do _ <- assert_ ((0 <=? b) && (b <? MASK W)); from_bits W (Z.land (Z.lor a b) (MASK W)).
Definition m_xor_int (W a b : Z) : option Z :=
  do _ <- assert_ (0 <=? b); from_bits W (Z.land (Z.lxor a b) (MASK W)).

(** operator>> and <<: lines 614-625. *)
Definition m_shr (W a d : Z) : option Z :=
  do _ <- assert_ ((0 <=? d) && (d <? W)); from_bits W (Z.shiftr a d).
Definition m_shl (W a d : Z) : option Z :=
  do _ <- assert_ ((0 <=? d) && (d <? W)); from_bits W (Z.land (wrap (word W) (Z.shiftl a d)) (MASK W)).

(** get_bits: lines 696-708; the shifted word is converted to the result's word. The shift is
    undefined when its distance is not less than the width of the word. *)
Definition m_get_bits (W hi lo x : Z) : option Z :=
  do _ <- assert_ (hi <? W); do _ <- assert_ (0 <=? lo); do _ <- assert_ (lo <? word W);
  from_bits (hi - lo + 1) (Z.land (wrap (word (hi - lo + 1)) (Z.shiftr x (if lo <? 0 then 0 else lo))) (MASK (hi - lo + 1))).
(** concat: lines 714-725. *)
Definition m_concat (WA WB a b : Z) : option Z :=
  let S := if (WB <? 0) || (WA =? 0) then 0 else WB in
  from_bits (WA + WB) (Z.lor (wrap (word (WA + WB)) (Z.shiftl (wrap (word (WA + WB)) a) S)) (wrap (word (WA + WB)) b)).
(** checked_cast: lines 736-745. *)
Definition m_checked_cast (WD WS s : Z) : option Z := do _ <- assert_ (WD =? WS); from_bits WD s.

(** to_int, to_uint64, to_uint32, to_bool: lines 641-663. *)
Definition m_to_int (x : Z) : option Z := do _ <- assert_ (x <=? 2 ^ 31 - 1); Some x.
Definition m_to_uint64 (x : Z) : option Z := do _ <- assert_ (x =? wrap 64 x); Some (wrap 64 x).
Definition m_to_uint32 (W x : Z) : option Z := do _ <- assert_ (W <=? 32); Some (wrap 32 x).
Definition m_to_bool (W x : Z) : option bool := do _ <- assert_ (W =? 1); Some (x =? 1).

(** to_string: lines 628-638. [n] is the number of bits still to be written, [i] the next one. *)
Fixpoint to_string_loop (n : nat) (i bits : Z) (acc : string) : string :=
  match n with
  | O => acc
  | S n =>
      let acc := if (i mod 8 =? 0) && negb (i =? 0) then String "_" acc else acc in
      to_string_loop n (i + 1) bits (String (if Z.land (Z.shiftr bits i) 1 =? 1 then "1"%char else "0"%char) acc)
  end.
Definition m_to_string (W bits : Z) : string := append "0b" (to_string_loop (Z.to_nat W) 0 bits EmptyString).

(** fw_uint(char const * ): lines 408-447. None is an exception or a failed assertion. The binary
    branch: [left] digits are still expected (W - done). The value is shifted in the word. *)
Fixpoint parse_bin (N : Z) (left : nat) (bits : Z) (s : string) : option Z :=
  match left, s with
  | O, EmptyString => Some bits
  | O, String _ _ => None (* trailing characters, line 435 *)
  | S _, EmptyString => None (* not enough digits, line 421 *)
  | S left', String c s' =>
      if Ascii.eqb c "_" then parse_bin N left bits s'
      else if Ascii.eqb c "0" then parse_bin N left' (wrap N (wrap N (Z.shiftl bits 1) + 0)) s'
      else if Ascii.eqb c "1" then parse_bin N left' (wrap N (wrap N (Z.shiftl bits 1) + 1)) s'
      else None
  end.
(** The decimal branch, lines 437-443: [>>] of a string of decimal digits into an unsigned
    type of N bits. On overflow it stores the largest value, with no digit zero. Only strings
    that consist of digits are modelled, and only N <= 64 (there is no [>>] for __int128). *)
Definition digit (c : ascii) : option Z :=
  let n := Z.of_nat (nat_of_ascii c) in if (48 <=? n) && (n <=? 57) then Some (n - 48) else None.
Fixpoint parse_dec (acc : Z) (s : string) : option Z :=
  match s with
  | EmptyString => Some acc
  | String c s' => do d <- digit c; parse_dec (acc * 10 + d) s'
  end.
Definition m_of_string (W : Z) (s : string) : option Z :=
  do _ <- assert_ (0 <=? W);
  if prefix "0b" s then parse_bin (word W) (Z.to_nat W) 0 (substring 2 (String.length s - 2) s)
  else
    do v <- parse_dec 0 s;
    let bits := if v <? 2 ^ word W then v else 2 ^ word W - 1 in
    do _ <- assert_ (bits <=? MASK W); Some (Z.land bits (MASK W)).

(** mpz_sizeinbase(x,2): the number of binary digits of |x|, and 1 for zero. *)
Definition sizeinbase2 (x : Z) : Z := if x =? 0 then 1 else Z.log2 (Z.abs x) + 1.
(** fw_uint(mpz_t): lines 464-489. Truncating division by 2^offset, remainder by 2^32, and
    mpz_get_ui, which returns the absolute value. [n] bounds the loop, which runs
    ceil(W/32) times. *)
Fixpoint of_mpz_loop (n : nat) (W x offset bits : Z) : Z :=
  match n with
  | O => bits
  | S n =>
      if offset <? W then
        let tmp := Z.rem (Z.quot x (2 ^ offset)) (2 ^ 32) in
        let limb := wrap 32 (Z.abs tmp) in
        of_mpz_loop n W x (offset + 32) (Z.lor bits (wrap (word W) (Z.shiftl limb offset)))
      else bits
  end.
Definition m_of_mpz (W x : Z) : option Z :=
  do _ <- assert_ (0 <=? W);
  do _ <- assert_ (sizeinbase2 x <=? W);
  let bits := of_mpz_loop 5 W x 0 0 in
  do _ <- assert_ (bits <=? MASK W); Some (Z.land bits (MASK W)).

(** to_mpz_t: lines 667-685. *)
Fixpoint to_mpz_loop (n : nat) (W bits offset res : Z) : Z :=
  match n with
  | O => res
  | S n =>
      if offset <? W then
        to_mpz_loop n W bits (offset + 32) (res + Z.land (Z.shiftr bits offset) (2 ^ 32 - 1) * 2 ^ offset)
      else res
  end.
Definition m_to_mpz (W bits : Z) : Z := to_mpz_loop 5 W bits 0 0.

(** ** The functions of include/thls/tops/fw_uint.hpp on top of that storage *)

(** zg, og: lines 247-250, 258-261. *)
Definition m_zg (W : Z) : option Z := m_of_int W 0.
Definition m_og (W : Z) : option Z := do z <- m_zg W; m_not W z.
(** get_bit, take_lsb, drop_lsb, take_msb, drop_msb: lines 282-311. *)
Definition m_get_bit (W b x : Z) : option Z := m_get_bits W b b x.
Definition m_take_lsb (W x : Z) : option Z := m_get_bit W 0 x.
Definition m_drop_lsb (W x : Z) : option Z := m_get_bits W (W - 1) 1 x.
Definition m_take_msb (W x : Z) : option Z := m_get_bit W (W - 1) x.
Definition m_drop_msb (W x : Z) : option Z := m_get_bits W (W - 2) 0 x.
(** take_lsbs, drop_lsbs, take_msbs, drop_msbs: lines 314-360. *)
Definition m_take_lsbs (W B x : Z) : option Z :=
  do _ <- assert_ (0 <=? B); do _ <- assert_ (B <=? W);
  if B =? 0 then m_zg B else m_get_bits W (B - 1) 0 x.
Definition m_drop_lsbs (W B x : Z) : option Z :=
  do _ <- assert_ (0 <=? B); do _ <- assert_ (B <=? W);
  if B =? W then m_zg (W - B) else m_get_bits W (W - 1) B x.
Definition m_take_msbs (W B x : Z) : option Z :=
  do _ <- assert_ (0 <=? B); do _ <- assert_ (B <=? W);
  if B =? 0 then m_zg B else m_get_bits W (W - 1) (W - B) x.
Definition m_drop_msbs (W B x : Z) : option Z :=
  do _ <- assert_ (0 <=? B); do _ <- assert_ (B <=? W);
  if B =? W then m_zg (W - B) else m_get_bits W (W - 1 - B) 0 x.
(** zpad_hi, opad_hi, zpad_lo, opad_lo: lines 371-393. *)
Definition m_zpad_hi (P W x : Z) : option Z := do z <- m_zg P; m_concat P W z x.
Definition m_opad_hi (P W x : Z) : option Z := do z <- m_og P; m_concat P W z x.
Definition m_zpad_lo (P W x : Z) : option Z := do z <- m_zg P; m_concat W P x z.
Definition m_opad_lo (P W x : Z) : option Z := do z <- m_og P; m_concat W P x z.
(** extu, resize: lines 396-408. *)
Definition m_extu (W B x : Z) : option Z := do _ <- assert_ (W <=? B); m_zpad_hi (B - W) W x.
Definition m_resize (W B x : Z) : option Z :=
  do y <- m_zpad_hi (ctMax 0 (B - W)) W x; m_take_lsbs (ctMax 0 (B - W) + W) B y.
(** select on a fw_uint<1>: lines 431-438; copybit: 553-557. *)
Definition m_select {A : Type} (c : Z) (v d : A) : option A := do b <- m_to_bool 1 c; Some (if b then v else d).
Definition m_copybit (W b : Z) : option Z := do o <- m_og W; do z <- m_zg W; m_select b o z.
(** add_with_cin, add_sub, add_cin: lines 410-428. *)
Definition m_add_with_cin (W x y cin : Z) : option Z :=
  do s <- m_add W x y; do c <- m_zpad_hi (W - 1) 1 cin; m_add W s c.
Definition m_add_sub (W doSub x y : Z) : option Z :=
  do ny <- m_not W y; do y' <- m_select doSub ny y; m_add_with_cin W x y' doSub.
Definition m_add_cin (W x cin : Z) : option Z := do c <- m_zpad_hi (W - 1) 1 cin; m_add W x c.
(** concat_array<HI,LO>: lines 663-682, on the list x[LO], ..., x[HI]. *)
Fixpoint m_concat_array (W : Z) (xs : list Z) : option Z :=
  match xs with
  | [] => None
  | [x] => Some x
  | x :: rest => do r <- m_concat_array W rest; m_concat (W * Z.of_nat (List.length rest)) W r x
  end.

(** random_fw_uint: lines 703-735, on the list of the 32-bit words the generator delivers. *)
Fixpoint random_impl (n : nat) (W : Z) (rng : list Z) : option (Z * list Z) :=
  match n with
  | O => Some (0, rng)
  | S n =>
      let LW := if 32 <=? W then 32 else W in
      match rng with
      | [] => None
      | w :: rng =>
          let bits := if LW <? 32 then Z.shiftr w (32 - LW) else w in
          do h <- from_bits LW bits;
          do r <- random_impl n (W - LW) rng;
          let '(l, rng) := r in
          do v <- m_concat LW (W - LW) h l; Some (v, rng)
      end
  end.
Definition m_random (W : Z) (rng : list Z) : option (Z * list Z) :=
  random_impl (Z.to_nat ((W + 31) / 32)) W rng.

(** lut<WD,WA>: lines 685-705; built from a function, read at an address. *)
Definition m_lut (WD WA : Z) (init : Z -> Z) : option (list Z) :=
  fold_right (fun i acc => do v <- m_of_int WD (init (Z.of_nat i)); do l <- acc; Some (v :: l))
    (Some []) (seq 0 (Z.to_nat (2 ^ WA))).
Definition m_lut_get (entries : list Z) (addr : Z) : option Z :=
  do i <- m_to_int addr; nth_error entries (Z.to_nat i).

(** thls_ctLog2Ceil: lines 131-141; [n] bounds the recursion. *)
Fixpoint ctLog2Ceil_rec (n : nat) (x p : Z) : option Z :=
  match n with O => None | S n => if x <? 2 ^ p then Some p else ctLog2Ceil_rec n x (p + 1) end.
