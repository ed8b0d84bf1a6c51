(** Model of the fixed-width unsigned integer class [fw_uint<W>]
    (include/thls/tops/fw_uint.hpp and its default backend
    include/thls/tops/fw_uint_on_masked_uint.hpp).

    A value of [fw_uint<W>] is its [bits] member, a [Z] in [0,2^W).  The template
    parameter W is an explicit argument.  Operations that contain an assertion
    which can depend on a width or on a value return [option]; [None] is
    "assertion failure or undefined behaviour".

    Simplification: [bits_t] is a machine word of bits_w>=W bits; sums and
    differences are computed in [Z] and masked with MASK(), which gives the same
    residue because bits_w>=W.  The static assertion W<=128 is not modelled. *)
From Coq Require Import ZArith Bool List.
Open Scope Z_scope.

(** Option monad; [None] = assertion failure / undefined behaviour. *)
Definition bind {A B : Type} (x : option A) (f : A -> option B) : option B :=
  match x with Some a => f a | None => None end.
Notation "'do' x <- a ; b" := (bind a (fun x => b))
  (at level 200, x name, a at level 100, b at level 200, right associativity).

(** assert(c): fw_uint code uses plain <assert.h> assertions. *)
Definition assert_ (c : bool) : option unit := if c then Some tt else None.

(** MASK(): fw_uint_on_masked_uint.hpp:367-368. *)
Definition mask (W : Z) : Z := if W <=? 0 then 0 else Z.ones W.

(** The set of values a fw_uint<W> can hold. *)
Definition wf (W x : Z) : Prop := 0 <= x < 2 ^ W.

(** fw_uint(int v): fw_uint_on_masked_uint.hpp:389-396; also cg<W>(x), fw_uint.hpp:267-271. *)
Definition of_int (W v : Z) : option Z :=
  if (0 <=? W) && (0 <=? v) && (v <=? mask W) then Some v else None.

(** zg<W>(), og<W>(): fw_uint.hpp:245-260. *)
Definition zg (W : Z) : Z := 0.
Definition og (W : Z) : Z := Z.lxor 0 (mask W).

(** operator+ (both overloads): fw_uint_on_masked_uint.hpp:492-500. *)
Definition fadd (W a b : Z) : Z := Z.land (a + b) (mask W).
(** operator- (both overloads): fw_uint_on_masked_uint.hpp:502-510. *)
Definition fsub (W a b : Z) : Z := Z.land (a - b) (mask W).
(** operator*, full_mul, square: fw_uint_on_masked_uint.hpp:512-517, fw_uint.hpp:363-367,
    fw_uint_on_masked_uint.hpp:747-752: the result has the full width. *)
Definition fmul (a b : Z) : Z := a * b.

(** operator~ & | ^: fw_uint_on_masked_uint.hpp:577-611. *)
Definition fnot (W a : Z) : Z := Z.lxor a (mask W).
Definition fand (a b : Z) : Z := Z.land a b.
Definition for_ (W a b : Z) : Z := Z.land (Z.lor a b) (mask W).
Definition fxor (W a b : Z) : Z := Z.land (Z.lxor a b) (mask W).

(** operator>> and operator<<: fw_uint_on_masked_uint.hpp:614-625, with their assertion. *)
Definition fshr (W a d : Z) : option Z :=
  if (0 <=? d) && (d <? W) then Some (Z.shiftr a d) else None.
Definition fshl (W a d : Z) : option Z :=
  if (0 <=? d) && (d <? W) then Some (Z.land (Z.shiftl a d) (mask W)) else None.

(** get_bits<HI,LO>: fw_uint_on_masked_uint.hpp:696-708, with its assertions. *)
Definition get_bits (W hi lo x : Z) : option Z :=
  if (hi <? W) && (0 <=? lo)
  then Some (Z.land (Z.shiftr x lo) (mask (hi - lo + 1))) else None.
(** get_bit<B>: fw_uint.hpp:282-286. *)
Definition get_bit (W b x : Z) : option Z := get_bits W b b x.

(** The slice itself, for the places where the assertion of [get_bits] is
    obviously true (e.g. the field accessors of fp_flopoco). *)
Definition bits (hi lo x : Z) : Z := Z.land (Z.shiftr x lo) (mask (hi - lo + 1)).

(** concat(a,b) with b of width WB: fw_uint_on_masked_uint.hpp:714-725.
    (The special shift S=0 for WA==0 is irrelevant: then a.bits is 0.) *)
Definition cat (WB a b : Z) : Z := Z.lor (Z.shiftl a WB) b.

(** zpad_hi, opad_hi, zpad_lo, opad_lo: fw_uint.hpp:371-393 (x has width W). *)
Definition zpad_hi (P W x : Z) : Z := cat W (zg P) x.
Definition opad_hi (P W x : Z) : Z := cat W (og P) x.
Definition zpad_lo (P W x : Z) : Z := cat P x (zg P).
Definition opad_lo (P W x : Z) : Z := cat P x (og P).

(** take_lsbs/drop_lsbs/take_msbs/drop_msbs<B>: fw_uint.hpp:314-360. *)
Definition take_lsbs (W B x : Z) : option Z :=
  if (0 <=? B) && (B <=? W)
  then if B =? 0 then Some (zg B) else get_bits W (B - 1) 0 x else None.
Definition drop_lsbs (W B x : Z) : option Z :=
  if (0 <=? B) && (B <=? W)
  then if B =? W then Some (zg (W - B)) else get_bits W (W - 1) B x else None.
Definition take_msbs (W B x : Z) : option Z :=
  if (0 <=? B) && (B <=? W)
  then if B =? 0 then Some (zg B) else get_bits W (W - 1) (W - B) x else None.
Definition drop_msbs (W B x : Z) : option Z :=
  if (0 <=? B) && (B <=? W)
  then if B =? W then Some (zg (W - B)) else get_bits W (W - 1 - B) 0 x else None.
(** take_lsb, drop_lsb, take_msb, drop_msb: fw_uint.hpp:289-311. *)
Definition take_lsb (W x : Z) : option Z := get_bit W 0 x.
Definition drop_lsb (W x : Z) : option Z := get_bits W (W - 1) 1 x.
Definition take_msb (W x : Z) : option Z := get_bit W (W - 1) x.
Definition drop_msb (W x : Z) : option Z := get_bits W (W - 2) 0 x.

(** resize<B>: fw_uint.hpp:403-408; extu<B>: fw_uint.hpp:396-401 (static_assert B>=W). *)
Definition resize (W B x : Z) : option Z :=
  take_lsbs (Z.max 0 (B - W) + W) B (zpad_hi (Z.max 0 (B - W)) W x).
Definition extu (W B x : Z) : option Z :=
  if W <=? B then Some (zpad_hi (B - W) W x) else None.

(** checked_cast<WD>: fw_uint_on_masked_uint.hpp:736-745. *)
Definition checked_cast (WD WS x : Z) : option Z :=
  if WD =? WS then Some (Z.land x (mask WD)) else None.

(** select(c,a,b): fw_uint.hpp:430-448 (n-ary versions are nested). The condition is a
    fw_uint<1>, whose to_bool() is bits==1 (fw_uint_on_masked_uint.hpp:659-663). *)
Definition to_bool (c : Z) : bool := c =? 1.
Definition select {A : Type} (c : Z) (a b : A) : A := if to_bool c then a else b.
(** copybit<W>(b): fw_uint.hpp:553-557. *)
Definition copybit (W b : Z) : Z := select b (og W) (zg W).

(** add_with_cin, add_sub, add_cin: fw_uint.hpp:410-428. *)
Definition add_with_cin (W x y cin : Z) : Z :=
  fadd W (fadd W x y) (zpad_hi (W - 1) 1 cin).
Definition add_sub (W doSub x y : Z) : Z :=
  add_with_cin W x (select doSub (fnot W y) y) doSub.
Definition add_cin (W x cin : Z) : Z := fadd W x (zpad_hi (W - 1) 1 cin).

(** Comparisons: fw_uint_on_masked_uint.hpp:519-571; the result is a fw_uint<1> built
    from a C++ bool. *)
Definition feq (a b : Z) : Z := Z.b2z (a =? b).
Definition fne (a b : Z) : Z := Z.b2z (negb (a =? b)).
Definition flt (a b : Z) : Z := Z.b2z (a <? b).
Definition fle (a b : Z) : Z := Z.b2z (a <=? b).
Definition fgt (a b : Z) : Z := Z.b2z (b <? a).
Definition fge (a b : Z) : Z := Z.b2z (b <=? a).

(** to_int: fw_uint_on_masked_uint.hpp:641-645 (assert bits <= INT_MAX). *)
Definition to_int (x : Z) : option Z := if x <=? 2 ^ 31 - 1 then Some x else None.

(** concat_array<HI,LO>: fw_uint.hpp:663-682, on the list x[LO..HI] (lowest index first). *)
Fixpoint concat_array (W : Z) (xs : list Z) : Z :=
  match xs with
  | nil => 0
  | x :: nil => x
  | x :: rest => cat W (concat_array W rest) x
  end.

(** thls_ctMax / thls_ctMin: fw_uint.hpp:125-129. *)
Definition ctMax (a b : Z) : Z := if b <? a then a else b.
Definition ctMin (a b : Z) : Z := if a <? b then a else b.

(** Closes a conjunction of closed decidable facts by evaluation (used by the Examples). *)
Ltac decide_example := repeat apply conj; vm_compute; first [reflexivity | discriminate | exact I].
