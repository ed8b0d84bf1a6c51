(** The bit-accurate integer types of the synthesis tools, ac_int<W,S> (Mentor) and ap_int_base<W,S> (Xilinx), as their
    manuals describe them. This is a contract: neither library is in /repo. The two agree on everything here except slices
    and concatenation. *)
From Coq Require Import ZArith Bool.
From Verif Require Import Fw.
Open Scope Z_scope.

(** A number of w bits, signed or not, with its value. *)
Record bint := Bint { bw : Z; bsg : bool; bv : Z }.
(** The value with the w low bits of v. *)
Definition low_bits (w : Z) (s : bool) (v : Z) : Z :=
  let r := v mod 2 ^ w in if s && (2 ^ (w - 1) <=? r) then r - 2 ^ w else r.
Definition mk (w : Z) (s : bool) (v : Z) : bint := Bint w s (low_bits w s v).
(** Construction of a number of one type from one of another, and assignment: the low bits are kept. *)
Definition conv (w : Z) (s : bool) (x : bint) : bint := mk w s (bv x).
(** C integers and bool as operands. *)
Definition of_cint (v : Z) : bint := Bint 32 true v.
Definition of_cuint (v : Z) : bint := Bint 32 false v.
Definition of_cuint64 (v : Z) : bint := Bint 64 false v.
Definition of_cbool (b : bool) : bint := Bint 1 false (Z.b2z b).

(** The width of an operand once both are signed, if one is. *)
Definition wide (a b : bint) : Z := if bsg b && negb (bsg a) then bw a + 1 else bw a.
Definition logic_w (a b : bint) : Z := Z.max (wide a b) (wide b a).
Definition either (a b : bint) : bool := bsg a || bsg b.
(** Sums, differences and products are exact; differences are signed. *)
Definition badd (a b : bint) : bint := mk (logic_w a b + 1) (either a b) (bv a + bv b).
Definition bsub (a b : bint) : bint := mk (logic_w a b + 1) true (bv a - bv b).
Definition bmul (a b : bint) : bint := mk (bw a + bw b) (either a b) (bv a * bv b).
Definition bnot (a : bint) : bint := mk (if bsg a then bw a else bw a + 1) true (- bv a - 1).
Definition band (a b : bint) : bint := mk (logic_w a b) (either a b) (Z.land (bv a) (bv b)).
Definition bor (a b : bint) : bint := mk (logic_w a b) (either a b) (Z.lor (bv a) (bv b)).
Definition bxor (a b : bint) : bint := mk (logic_w a b) (either a b) (Z.lxor (bv a) (bv b)).
(** Shifts by a distance that is not negative keep the type of the left operand. *)
Definition bshr (a : bint) (d : Z) : bint := mk (bw a) (bsg a) (bv a / 2 ^ d).
Definition bshl (a : bint) (d : Z) : bint := mk (bw a) (bsg a) (bv a * 2 ^ d).
(** Comparisons compare values. *)
Definition blt (a b : bint) : bool := bv a <? bv b.
Definition ble (a b : bint) : bool := bv a <=? bv b.
Definition beq (a b : bint) : bool := bv a =? bv b.
(** to_ulong, to_uint64, and the conversions to C types: the low bits. *)
Definition to_bits (n : Z) (a : bint) : Z := bv a mod 2 ^ n.

(** ac_int: slc<WS>(lo) reads WS bits from position lo, zeros above the top of an unsigned number; set_slc writes. *)
Definition ac_slc (ws lo : Z) (a : bint) : option bint := if 0 <=? lo then Some (mk ws (bsg a) (bv a / 2 ^ lo)) else None.
Definition ac_set_slc (a : bint) (lo : Z) (x : bint) : option bint :=
  if (0 <=? lo) && (lo + bw x <=? bw a)
  then Some (mk (bw a) (bsg a) (bv a - (bv a / 2 ^ lo mod 2 ^ bw x) * 2 ^ lo + (bv x mod 2 ^ bw x) * 2 ^ lo)) else None.
(** ap_uint: range(hi,lo) reads the bits from lo to hi; both must be positions in the number. With hi < lo the bits from hi
    to lo are read in reverse order. (a,b) puts the bits of a above those of b. *)
Fixpoint reversed (n : nat) (v : Z) : Z :=
  match n with O => 0 | S n => v mod 2 * 2 ^ Z.of_nat n + reversed n (v / 2) end.
Definition ap_range (hi lo : Z) (a : bint) : option bint :=
  if (0 <=? lo) && (lo <? bw a) && (0 <=? hi) && (hi <? bw a)
  then Some (if lo <=? hi then mk (hi - lo + 1) false (bv a / 2 ^ lo)
             else mk (lo - hi + 1) false (reversed (Z.to_nat (lo - hi + 1)) (bv a / 2 ^ hi mod 2 ^ (lo - hi + 1)))) else None.
Definition ap_pair (a b : bint) : bint := mk (bw a + bw b) false (bv a mod 2 ^ bw a * 2 ^ bw b + bv b mod 2 ^ bw b).
