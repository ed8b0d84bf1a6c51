(** Model of the pair of 64-bit words that stands in for a 128-bit word on compilers without
    one (include/thls/tops/fw_uint_on_masked_uint.hpp:58-188). *)
From Coq Require Import ZArith Bool.
Open Scope Z_scope.

Record pair128 := mk { hi : Z; lo : Z }. (* lines 64-65 *)
(** A value the program can hold: both halves are 64-bit words. *)
Definition okp (p : pair128) : Prop := 0 <= hi p < 2 ^ 64 /\ 0 <= lo p < 2 ^ 64.
Definition u64 (x : Z) : Z := x mod 2 ^ 64.
Definition u32 (x : Z) : Z := x mod 2 ^ 32.

(** Constructors: lines 77-95. The one from int stores lo(x) and clears hi, whatever the sign. *)
Definition p_int (x : Z) : pair128 := mk 0 (u64 x).
Definition p_u64 (x : Z) : pair128 := mk 0 x.
(** operator+, -: lines 117-127. *)
Definition p_add (a b : pair128) : pair128 :=
  mk (u64 (hi a + hi b + Z.b2z (u64 (lo a + lo b) <? lo a))) (u64 (lo a + lo b)).
Definition p_sub (a b : pair128) : pair128 :=
  mk (u64 (hi a - hi b - Z.b2z (lo a <? u64 (lo a - lo b)))) (u64 (lo a - lo b)).
(** operator| & ^: lines 144-151. *)
Definition p_or (a b : pair128) : pair128 := mk (Z.lor (hi a) (hi b)) (Z.lor (lo a) (lo b)).
Definition p_and (a b : pair128) : pair128 := mk (Z.land (hi a) (hi b)) (Z.land (lo a) (lo b)).
Definition p_xor (a b : pair128) : pair128 := mk (Z.lxor (hi a) (hi b)) (Z.lxor (lo a) (lo b)).
(** operator>> and <<: lines 153-165. *)
Definition p_shr (a : pair128) (s : Z) : pair128 :=
  if s =? 0 then a
  else if s <? 64 then mk (Z.shiftr (hi a) s) (Z.lor (Z.shiftr (lo a) s) (u64 (Z.shiftl (hi a) (64 - s))))
  else mk 0 (Z.shiftr (hi a) (s - 64)).
Definition p_shl (a : pair128) (s : Z) : pair128 :=
  if s =? 0 then a
  else if s <? 64 then mk (Z.lor (u64 (Z.shiftl (hi a) s)) (Z.shiftr (lo a) (64 - s))) (u64 (Z.shiftl (lo a) s))
  else mk (u64 (Z.shiftl (lo a) (s - 64))) 0.
(** Comparisons: lines 167-180. *)
Definition p_eq (a b : pair128) : bool := (lo a =? lo b) && (hi a =? hi b).
Definition p_le (a b : pair128) : bool := if hi a <? hi b then true else if hi b <? hi a then false else lo a <=? lo b.
Definition p_ge (a b : pair128) : bool := if hi b <? hi a then true else if hi a <? hi b then false else lo b <=? lo a.
Definition p_gt (a b : pair128) : bool := if hi b <? hi a then true else if hi a <? hi b then false else lo b <? lo a.
Definition p_lt (a b : pair128) : bool := if hi a <? hi b then true else if hi b <? hi a then false else lo a <? lo b.
(** m32: lines 131-132; a*b is a product of two uint32_t, which C++ reduces modulo 2^32 before
    it is widened. Its arguments are converted to uint32_t. *)
Definition m32 (a b : Z) : pair128 := mk 0 (u32 (u32 a * u32 b)).
(** m64: lines 134-135. *)
Definition m64 (a b : Z) : pair128 :=
  p_add (p_add (p_add (m32 a b) (p_shl (m32 (Z.shiftr a 32) b) 32)) (p_shl (m32 a (Z.shiftr b 32)) 32))
        (p_shl (m32 (Z.shiftr a 32) (Z.shiftr b 32)) 64).
(** operator*: lines 139-142. *)
Definition p_mul (a b : pair128) : pair128 :=
  p_add (p_add (m64 (lo a) (lo b)) (p_shl (m64 (lo a) (hi b)) 64)) (p_shl (m64 (hi a) (lo b)) 64).
(** MASK() of a width W in 65..128 with this word: lines 367-368. *)
Definition p_mask (W : Z) : pair128 := p_shr (p_sub (p_int 0) (p_int 1)) (128 - W).
