(** SoftFloat's integer primitives, include/thls/tops/softfloat/src/primitives.h and the portable .c files beside it: the
    ones SoftFloat.v takes from softfloat_inline.hpp in their other, portable, form, and the ones that primitives.h defines
    for SOFTFLOAT_FAST_INT64. A pair of words (hi, lo) is struct uint128 (v64, v0) or struct uint64_extra (v, extra)
    (primitiveTypes.h). A shift by an amount not below the width of its operand is undefined, None. *)
From Coq Require Import ZArith Bool List.
From Verif Require Import Fw SoftFloat.
Import ListNotations.
Open Scope Z_scope.

Definition ushr (U x k : Z) : option Z := do _ <- assert_ ((0 <=? k) && (k <? U)); Some (Z.shiftr (uw U x) k).

(** softfloat_countLeadingZeros8: primitives.h:109-126. Reading outside the table is undefined, None. *)
Definition clz8_table : list Z :=
  [8; 7; 6; 6; 5; 5; 5; 5; 4; 4; 4; 4; 4; 4; 4; 4;
   3; 3; 3; 3; 3; 3; 3; 3; 3; 3; 3; 3; 3; 3; 3; 3;
   2; 2; 2; 2; 2; 2; 2; 2; 2; 2; 2; 2; 2; 2; 2; 2;
   2; 2; 2; 2; 2; 2; 2; 2; 2; 2; 2; 2; 2; 2; 2; 2;
   1; 1; 1; 1; 1; 1; 1; 1; 1; 1; 1; 1; 1; 1; 1; 1;
   1; 1; 1; 1; 1; 1; 1; 1; 1; 1; 1; 1; 1; 1; 1; 1;
   1; 1; 1; 1; 1; 1; 1; 1; 1; 1; 1; 1; 1; 1; 1; 1;
   1; 1; 1; 1; 1; 1; 1; 1; 1; 1; 1; 1; 1; 1; 1; 1;
   0; 0; 0; 0; 0; 0; 0; 0; 0; 0; 0; 0; 0; 0; 0; 0;
   0; 0; 0; 0; 0; 0; 0; 0; 0; 0; 0; 0; 0; 0; 0; 0;
   0; 0; 0; 0; 0; 0; 0; 0; 0; 0; 0; 0; 0; 0; 0; 0;
   0; 0; 0; 0; 0; 0; 0; 0; 0; 0; 0; 0; 0; 0; 0; 0;
   0; 0; 0; 0; 0; 0; 0; 0; 0; 0; 0; 0; 0; 0; 0; 0;
   0; 0; 0; 0; 0; 0; 0; 0; 0; 0; 0; 0; 0; 0; 0; 0;
   0; 0; 0; 0; 0; 0; 0; 0; 0; 0; 0; 0; 0; 0; 0; 0;
   0; 0; 0; 0; 0; 0; 0; 0; 0; 0; 0; 0; 0; 0; 0; 0].
Definition clz8 (a : Z) : option Z := do _ <- assert_ (0 <=? a); nth_error clz8_table (Z.to_nat a).

(** softfloat_countLeadingZeros16: primitives.h:134-143. *)
Definition clz16 (a : Z) : option Z :=
  let a := uw 16 a in
  let count := if 0x100 <=? a then 0 else 8 in
  let a := if 0x100 <=? a then Z.shiftr a 8 else a in
  do t <- clz8 a;
  Some (uw 8 (count + t)).
(** softfloat_countLeadingZeros32: primitives.h:155-168 and s_countLeadingZeros32.c:45-61. *)
Definition clz32 (a : Z) : option Z :=
  let a := uw 32 a in
  let count := if a <? 0x10000 then 16 else 0 in
  let a := if a <? 0x10000 then uw 32 (Z.shiftl a 16) else a in
  let count' := if a <? 0x1000000 then uw 8 (count + 8) else count in
  let a := if a <? 0x1000000 then uw 32 (Z.shiftl a 8) else a in
  do t <- clz8 (Z.shiftr a 24);
  Some (uw 8 (count' + t)).
(** softfloat_countLeadingZeros64: s_countLeadingZeros64.c:45-70. *)
Definition clz64 (a : Z) : option Z :=
  let a := uw 64 a in
  let a32 := uw 32 (Z.shiftr a 32) in
  let count := if a32 =? 0 then 32 else 0 in
  let a32 := if a32 =? 0 then uw 32 a else a32 in
  let count' := if a32 <? 0x10000 then uw 8 (count + 16) else count in
  let a32 := if a32 <? 0x10000 then uw 32 (Z.shiftl a32 16) else a32 in
  let count'' := if a32 <? 0x1000000 then uw 8 (count' + 8) else count' in
  let a32 := if a32 <? 0x1000000 then uw 32 (Z.shiftl a32 8) else a32 in
  do t <- clz8 (Z.shiftr a32 24);
  Some (uw 8 (count'' + t)).

(** softfloat_mul64To128M, portable: s_mul64To128M.c:43-65. The four words in little-endian order, indexWord(4, n) = n
    (primitiveTypes.h:62). *)
Definition mul64To128M_portable (a b : Z) : Z * Z * Z * Z :=
  let a32 := uw 32 (Z.shiftr (uw 64 a) 32) in
  let a0 := uw 32 a in
  let b32 := uw 32 (Z.shiftr (uw 64 b) 32) in
  let b0 := uw 32 b in
  let z0 := uw 64 (a0 * b0) in
  let mid1 := uw 64 (a32 * b0) in
  let mid := uw 64 (mid1 + uw 64 (a0 * b32)) in
  let z64 := uw 64 (a32 * b32) in
  let z64 := uw 64 (z64 + Z.lor (uw 64 (Z.shiftl (Z.b2z (mid <? mid1)) 32)) (Z.shiftr mid 32)) in
  let mid := uw 64 (Z.shiftl mid 32) in
  let z0 := uw 64 (z0 + mid) in
  let w1 := uw 32 (Z.shiftr z0 32) in
  let w0 := uw 32 z0 in
  let z64 := uw 64 (z64 + Z.b2z (z0 <? mid)) in
  let w3 := uw 32 (Z.shiftr z64 32) in
  let w2 := uw 32 z64 in
  (w0, w1, w2, w3).
(** softfloat_mul64To128M, as selected: softfloat_inline.hpp:31-38. *)
Definition mul64To128M_inline (a b : Z) : Z * Z * Z * Z :=
  let ab := uw 128 (uw 64 a * uw 64 b) in
  (uw 32 ab, uw 32 (Z.shiftr ab 32), uw 32 (Z.shiftr ab 64), uw 32 (Z.shiftr ab 96)).
(** softfloat_shortShiftLeft64To96M: primitives.h:673-683, words in little-endian order. *)
Definition shortShiftLeft64To96M (a dist : Z) : option (Z * Z * Z) :=
  do w0 <- ushl 32 (uw 32 a) dist;
  do a <- ushr 64 a (32 - dist);
  let w2 := uw 32 (Z.shiftr a 32) in
  let w1 := uw 32 a in
  Some (w0, w1, w2).

(** softfloat_eq128, le128, lt128: primitives.h:243-245, 258-260, 273-275. *)
Definition eq128 (a64 a0 b64 b0 : Z) : bool := (a64 =? b64) && (a0 =? b0).
Definition le128 (a64 a0 b64 b0 : Z) : bool := (a64 <? b64) || ((a64 =? b64) && (a0 <=? b0)).
Definition lt128 (a64 a0 b64 b0 : Z) : bool := (a64 <? b64) || ((a64 =? b64) && (a0 <? b0)).

(** softfloat_shortShiftLeft128: primitives.h:287-295. dist is promoted to int before it is negated. *)
Definition shortShiftLeft128 (a64 a0 dist : Z) : option (Z * Z) :=
  do h <- ushl 64 a64 dist;
  do l <- ushr 64 a0 (Z.land (- dist) 63);
  do z0 <- ushl 64 a0 dist;
  Some (Z.lor h l, z0).
(** softfloat_shortShiftRight128: primitives.h:308-316. *)
Definition shortShiftRight128 (a64 a0 dist : Z) : option (Z * Z) :=
  do z64 <- ushr 64 a64 dist;
  do h <- ushl 64 a64 (Z.land (- dist) 63);
  do l <- ushr 64 a0 dist;
  Some (z64, Z.lor h l).
(** softfloat_shortShiftRightJam64Extra: primitives.h:329-338. *)
Definition shortShiftRightJam64Extra (a extra dist : Z) : option (Z * Z) :=
  do v <- ushr 64 a dist;
  do e <- ushl 64 a (Z.land (- dist) 63);
  Some (v, Z.lor e (Z.b2z (negb (extra =? 0)))).
(** softfloat_shortShiftRightJam128: primitives.h:355-367. negDist is an 8-bit word. *)
Definition shortShiftRightJam128 (a64 a0 dist : Z) : option (Z * Z) :=
  let negDist := uw 8 (- dist) in
  do z64 <- ushr 64 a64 dist;
  do h <- ushl 64 a64 (Z.land negDist 63);
  do l <- ushr 64 a0 dist;
  do off <- ushl 64 a0 (Z.land negDist 63);
  Some (z64, Z.lor (Z.lor h l) (Z.b2z (negb (off =? 0)))).
(** softfloat_shortShiftRightJam128Extra: primitives.h:381-392. *)
Definition shortShiftRightJam128Extra (a64 a0 extra dist : Z) : option (Z * Z * Z) :=
  let negDist := uw 8 (- dist) in
  do z64 <- ushr 64 a64 dist;
  do h <- ushl 64 a64 (Z.land negDist 63);
  do l <- ushr 64 a0 dist;
  do e <- ushl 64 a0 (Z.land negDist 63);
  Some (z64, Z.lor h l, Z.lor e (Z.b2z (negb (extra =? 0)))).
(** softfloat_shiftRightJam64Extra: primitives.h:418-434. -dist is taken modulo a power of two that 64 divides. *)
Definition shiftRightJam64Extra (a extra dist : Z) : option (Z * Z) :=
  do z <- (if dist <? 64 then
             do v <- ushr 64 a dist;
             do e <- ushl 64 a (Z.land (- dist) 63);
             Some (v, e)
           else Some (0, if dist =? 64 then a else Z.b2z (negb (a =? 0))));
  let (v, e) := z in
  Some (v, Z.lor e (Z.b2z (negb (extra =? 0)))).

(** softfloat_add128: primitives.h:504-511. *)
Definition add128 (a64 a0 b64 b0 : Z) : Z * Z :=
  let z0 := uw 64 (a0 + b0) in
  (uw 64 (a64 + b64 + Z.b2z (z0 <? a0)), z0).
(** softfloat_sub128: primitives.h:539-547. *)
Definition sub128 (a64 a0 b64 b0 : Z) : Z * Z :=
  let z0 := uw 64 (a0 - b0) in
  let z64 := uw 64 (a64 - b64) in
  (uw 64 (z64 - Z.b2z (a0 <? b0)), z0).
(** softfloat_mul64ByShifted32To128: primitives.h:574-582. *)
Definition mul64ByShifted32To128 (a b : Z) : Z * Z :=
  let mid := uw 64 (uw 32 a * b) in
  (uw 64 (uw 32 (Z.shiftr a 32) * b + Z.shiftr mid 32), uw 64 (Z.shiftl mid 32)).
(** softfloat_mul128By32: primitives.h:602-613. U is the width of uint_fast32_t. *)
Definition mul128By32 (U a64 a0 b : Z) : Z * Z :=
  let z0 := uw 64 (a0 * b) in
  let mid := uw 64 (uw 32 (Z.shiftr a0 32) * b) in
  let carry := uw 32 (uw U (uw U (Z.shiftr z0 32) - uw U mid)) in
  (uw 64 (a64 * b + uw U (Z.shiftr (uw 64 (mid + carry)) 32)), z0).
