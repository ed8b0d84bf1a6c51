(** C74: the operations respect the order of the numbers. A larger operand never gives a smaller result. The order is
    [le_spec] of Spec.v on the decoded data (IEEE order, NaN unordered, the two zeros equal); [not_above] (SpecOrder.v) says
    in addition that the library's own operator <= agrees, except between two equal infinities. These theorems depend on the
    axioms of the standard library's real numbers, and on no others. *)
From Coq Require Import ZArith Bool Lia.
From Verif Require Import Fw Spec SpecOrder Flopoco Ieee Mul Div AddDual AddDualProofs AddSingle Fma OrderProofs2 OrderProofs3 Inst.
Open Scope Z_scope.

(** What operator <= says is true of the data, also across formats. *)
Theorem C74_operator_le_is_sound EA FA EB FB x y : 1 <= EA -> 1 <= FA -> 1 <= EB -> 1 <= FB -> wf (EA + FA + 3) x -> wf (EB + FB + 3) y ->
  less_than_equal EA FA EB FB x y = Some 1 -> le_spec (decode EA FA x) (decode EB FB y) = true.
Proof. exact (order_down EA FA EB FB x y). Qed.
Print Assumptions C74_operator_le_is_sound.
Example C74_operator_le_is_sound_at := C74_operator_le_is_sound 8 23 8 23 0x13F800000 0x140490FDB ltac:(hyp) ltac:(hyp) ltac:(hyp) ltac:(hyp) ltac:(hyp) ltac:(hyp) ltac:(hyp).

(** x <= y gives x + z <= y + z (dual-path adder, mixed formats) unless a sum is not a number. Missing: the widths at which
    the adder is wrong (C04), and operator <= between equal infinities (C74_infinities_refuted). *)
Theorem C74_add_partial EX FX EZ FZ x y z : let E := Z.max EX EZ in let F := Z.max FX FZ in
  1 <= EX -> 1 <= FX -> 1 <= EZ -> 1 <= FZ -> dual_ok_width E F ->
  wf (EX + FX + 3) x -> wf (EX + FX + 3) y -> wf (EZ + FZ + 3) z -> le_spec (decode EX FX x) (decode EX FX y) = true ->
  exists r s, add_dual E F EX FX EZ FZ x z = Some r /\ add_dual E F EX FX EZ FZ y z = Some s /\
    (decode E F r <> NaN -> decode E F s <> NaN -> not_above E F r s).
Proof. exact (o_add EX FX EZ FZ x y z). Qed.
Print Assumptions C74_add_partial.
Example C74_add_partial_at := C74_add_partial 8 23 8 23 0x13F800000 0x140490FDB 0x1BF800000 ltac:(hyp) ltac:(hyp) ltac:(hyp) ltac:(hyp) ltac:(hyp) ltac:(hyp) ltac:(hyp) ltac:(hyp) ltac:(hyp).

(** The single-path adder, although it misrounds some sums (C03), never reverses the order of two sums. Missing: the widths
    of C05, and equal infinities. *)
Theorem C74_add_single_partial EX FX EZ FZ x y z : let E := Z.max EX EZ in let F := Z.max FX FZ in
  1 <= EX -> 1 <= FX -> 1 <= EZ -> 1 <= FZ -> F + 3 < 2 ^ E -> 2 ^ E <> 2 * (F + 3) -> 2 * F + 4 < 2 ^ 31 ->
  wf (EX + FX + 3) x -> wf (EX + FX + 3) y -> wf (EZ + FZ + 3) z -> le_spec (decode EX FX x) (decode EX FX y) = true ->
  exists r s, add_single E F EX FX EZ FZ x z = Some r /\ add_single E F EX FX EZ FZ y z = Some s /\
    (decode E F r <> NaN -> decode E F s <> NaN -> not_above E F r s).
Proof. exact (o_add_single EX FX EZ FZ x y z). Qed.
Print Assumptions C74_add_single_partial.

(** 2 - 0.21875 = 1.75 and 2.5 - 0.21875 = 2.5; 1 - 7/64 = 1, which the single-path adder misrounds. *)
Example C74_add_instance : dual_ok_width 4 2 /\ wf 9 160 /\ wf 9 161 /\ wf 9 211 /\ le_spec (decode 4 2 160) (decode 4 2 161) = true /\
  add_dual 4 2 4 2 4 2 160 211 = Some 159 /\ add_dual 4 2 4 2 4 2 161 211 = Some 161 /\ decode 4 2 159 = Num false 7 (-2) /\ decode 4 2 161 = Num false 5 (-1) /\
  2 + 3 < 2 ^ 4 /\ 2 ^ 4 <> 2 * (2 + 3) /\ decode 4 2 156 = Num false 4 (-2) /\ decode 4 2 207 = Num true 7 (-6) /\
  add_single 4 2 4 2 4 2 156 207 = Some 156 /\ add_spec 4 2 (decode 4 2 156) (decode 4 2 207) = Num false 7 (-3) /\ add_single 4 2 4 2 4 2 157 207 = Some 157.
Proof. split; [unfold dual_ok_width; split; [lia|]; split; [lia|]; split; [lia|]; split; [lia|]; right; right; right; right; vm_compute; discriminate|]. decide_example. Qed.

(** x <= y gives x*z <= y*z for z >= 0 and x*z >= y*z for z <= 0. *)
Theorem C74_mul_partial wE wFR wFX wFZ x y z : 2 <= wE -> 1 <= wFX -> 1 <= wFZ -> 1 <= wFR < wFX + wFZ + 1 ->
  wf (wE + wFX + 3) x -> wf (wE + wFX + 3) y -> wf (wE + wFZ + 3) z -> le_spec (decode wE wFX x) (decode wE wFX y) = true ->
  exists r s, mul wE wFR wE wFX wFZ x z = Some r /\ mul wE wFR wE wFX wFZ y z = Some s /\
    (decode wE wFR r <> NaN -> decode wE wFR s <> NaN ->
      (le_spec (Zero false) (decode wE wFZ z) = true -> not_above wE wFR r s) /\ (le_spec (decode wE wFZ z) (Zero false) = true -> not_above wE wFR s r)).
Proof. exact (o_mul wE wFR wFX wFZ x y z). Qed.
Print Assumptions C74_mul_partial.
Example C74_mul_partial_at := C74_mul_partial 8 23 23 23 0x13F800000 0x140490FDB 0x1BF800000 ltac:(hyp) ltac:(hyp) ltac:(hyp) ltac:(hyp) ltac:(hyp) ltac:(hyp) ltac:(hyp) ltac:(hyp).

(** 0 <= x <= y gives x^2 <= y^2. *)
Theorem C74_square_partial wE wFR wFX x y : 2 <= wE -> 1 <= wFX -> 1 <= wFR < wFX + wFX + 1 ->
  wf (wE + wFX + 3) x -> wf (wE + wFX + 3) y -> le_spec (Zero false) (decode wE wFX x) = true -> le_spec (decode wE wFX x) (decode wE wFX y) = true ->
  exists r s, square wE wFR wE wFX x = Some r /\ square wE wFR wE wFX y = Some s /\ not_above wE wFR r s.
Proof. exact (o_square wE wFR wFX x y). Qed.
Print Assumptions C74_square_partial.
Example C74_square_partial_at := C74_square_partial 8 23 23 0x13F800000 0x140490FDB ltac:(hyp) ltac:(hyp) ltac:(hyp) ltac:(hyp) ltac:(hyp) ltac:(hyp) ltac:(hyp).

(** Division is increasing in the dividend for a positive divisor and decreasing for a negative one. *)
Theorem C74_div_partial wER wFR wEX wFX wEZ wFZ x y z : 1 <= wEX <= wER -> 1 <= wEZ <= wER -> 2 <= wER -> 1 <= wFX <= wFR -> 1 <= wFZ <= wFR ->
  wf (wEX + wFX + 3) x -> wf (wEX + wFX + 3) y -> wf (wEZ + wFZ + 3) z -> le_spec (decode wEX wFX x) (decode wEX wFX y) = true ->
  exists r s, div wER wFR wEX wFX wEZ wFZ x z = Some r /\ div wER wFR wEX wFX wEZ wFZ y z = Some s /\
    (decode wER wFR r <> NaN -> decode wER wFR s <> NaN ->
      (lt_spec (Zero false) (decode wEZ wFZ z) = true -> not_above wER wFR r s) /\ (lt_spec (decode wEZ wFZ z) (Zero false) = true -> not_above wER wFR s r)).
Proof. exact (o_div wER wFR wEX wFX wEZ wFZ x y z). Qed.
Print Assumptions C74_div_partial.
Example C74_div_partial_at := C74_div_partial 8 23 8 23 8 23 0x13F800000 0x140490FDB 0x1BF800000 ltac:(hyp) ltac:(hyp) ltac:(hyp) ltac:(hyp) ltac:(hyp) ltac:(hyp) ltac:(hyp) ltac:(hyp) ltac:(hyp).

(** A larger positive divisor gives no larger quotient of a nonnegative dividend. *)
Theorem C74_div_divisor_partial wER wFR wEX wFX wEZ wFZ x y z : 1 <= wEX <= wER -> 1 <= wEZ <= wER -> 2 <= wER -> 1 <= wFX <= wFR -> 1 <= wFZ <= wFR ->
  wf (wEX + wFX + 3) x -> wf (wEX + wFX + 3) y -> wf (wEZ + wFZ + 3) z ->
  lt_spec (Zero false) (decode wEX wFX x) = true -> le_spec (decode wEX wFX x) (decode wEX wFX y) = true -> le_spec (Zero false) (decode wEZ wFZ z) = true ->
  exists r s, div wER wFR wEZ wFZ wEX wFX z x = Some r /\ div wER wFR wEZ wFZ wEX wFX z y = Some s /\
    (decode wER wFR r <> NaN -> decode wER wFR s <> NaN -> not_above wER wFR s r).
Proof. exact (o_div_r wER wFR wEX wFX wEZ wFZ x y z). Qed.
Print Assumptions C74_div_divisor_partial.

(** With x = 2 and y = 2.5: 2*2.5 = 5 and 2.5*2.5 = 6, times -2.5 the other way round; 4 and 6 are the squares; divided by
    3.5 they give 0.625 and 0.75; 3.5/2 = 1.75 and 3.5/2.5 = 1.5. *)
Example C74_mul_div_instance : decode 4 2 160 = Num false 4 (-1) /\ decode 4 2 161 = Num false 5 (-1) /\ decode 4 2 167 = Num false 7 0 /\
  mul 4 2 4 2 2 160 161 = Some 165 /\ mul 4 2 4 2 2 161 161 = Some 166 /\ mul 4 2 4 2 2 160 225 = Some 229 /\ mul 4 2 4 2 2 161 225 = Some 230 /\
  less_than_equal 4 2 4 2 165 166 = Some 1 /\ less_than_equal 4 2 4 2 230 229 = Some 1 /\ square 4 2 4 2 160 = Some 164 /\ square 4 2 4 2 161 = Some 166 /\
  div 4 2 4 2 4 2 160 167 = Some 149 /\ div 4 2 4 2 4 2 161 167 = Some 150 /\ div 4 2 4 2 4 2 167 160 = Some 163 /\ div 4 2 4 2 4 2 167 161 = Some 162 /\
  less_than_equal 4 2 4 2 149 150 = Some 1 /\ less_than_equal 4 2 4 2 162 163 = Some 1.
Proof. decide_example. Qed.

(** The finding: operator <= itself is not respected when both results are infinite. 0.5 <= 1, but not 0.5*inf <= 1*inf; and
    not 0.5/0 <= 4/0. *)
Theorem C74_infinities_refuted :
  (exists x y z r s, wf 7 x /\ wf 7 y /\ wf 7 z /\ less_than_equal 2 2 2 2 x y = Some 1 /\ less_than_equal 2 2 2 2 0 z = Some 1 /\
     mul 2 2 2 2 2 x z = Some r /\ mul 2 2 2 2 2 y z = Some s /\ decode 2 2 r = Inf false /\ decode 2 2 s = Inf false /\ less_than_equal 2 2 2 2 r s = Some 0) /\
  (exists x y r s, wf 7 x /\ wf 7 y /\ less_than_equal 2 2 2 2 x y = Some 1 /\ finite_v (decode 2 2 x) /\ finite_v (decode 2 2 y) /\
     div 2 2 2 2 2 2 x 0 = Some r /\ div 2 2 2 2 2 2 y 0 = Some s /\ decode 2 2 r = Inf false /\ decode 2 2 s = Inf false /\ less_than_equal 2 2 2 2 r s = Some 0).
Proof.
  split; [exists 32, 36, 64, 76, 64; decide_example|]. exists 32, 44, 68, 64.
  split; [decide_example|]. split; [decide_example|]. split; [vm_compute; reflexivity|]. split; [exact I|]. split; [exact I|]. decide_example.
Qed.
Print Assumptions C74_infinities_refuted.

(** Conversion respects the order. Missing: narrowing the fraction at the same exponent width, see the refutation. *)
Theorem C74_convert_partial ER FR EX FX x y : 1 <= ER -> 1 <= FR -> 1 <= EX -> 1 <= FX -> (ER <> EX \/ FX <= FR) ->
  wf (EX + FX + 3) x -> wf (EX + FX + 3) y -> le_spec (decode EX FX x) (decode EX FX y) = true ->
  exists r s, convert ER FR EX FX x = Some r /\ convert ER FR EX FX y = Some s /\ not_above ER FR r s.
Proof. exact (o_convert ER FR EX FX x y). Qed.
Print Assumptions C74_convert_partial.
Example C74_convert_partial_at := C74_convert_partial 5 10 8 23 0x13F800000 0x140490FDB ltac:(hyp) ltac:(hyp) ltac:(hyp) ltac:(hyp) ltac:(hyp) ltac:(hyp) ltac:(hyp) ltac:(hyp).

(** The finding: a zero with unused bits set converts to infinity (C18), above the conversion of 1. *)
Theorem C74_convert_refuted :
  exists x y r s, wf 8 x /\ wf 8 y /\ less_than_equal 3 2 3 2 x y = Some 1 /\ convert 3 1 3 2 x = Some r /\ convert 3 1 3 2 y = Some s /\
    less_than 3 1 3 1 s r = Some 1.
Proof. exists 31, 76, 64, 38. decide_example. Qed.
Print Assumptions C74_convert_refuted.

(** Promotion leaves the order as it is, in both directions. *)
Theorem C74_promote DE DF SE SF x y : 1 <= SE <= DE -> 1 <= SF <= DF -> wf (SE + SF + 3) x -> wf (SE + SF + 3) y ->
  exists r s, promote DE DF SE SF x = Some r /\ promote DE DF SE SF y = Some s /\
    le_spec (decode DE DF r) (decode DE DF s) = le_spec (decode SE SF x) (decode SE SF y).
Proof. exact (o_promote DE DF SE SF x y). Qed.
Print Assumptions C74_promote.
Example C74_promote_at := C74_promote 11 52 8 23 0x13F800000 0x140490FDB ltac:(hyp) ltac:(hyp) ltac:(hyp) ltac:(hyp).

(** Negation reverses the order. *)
Theorem C74_neg_partial E F x y : 1 <= E -> 1 <= F -> wf (E + F + 3) x -> wf (E + F + 3) y -> le_spec (decode E F x) (decode E F y) = true ->
  exists r s, neg E F E F x = Some r /\ neg E F E F y = Some s /\ not_above E F s r.
Proof. exact (o_neg E F x y). Qed.
Print Assumptions C74_neg_partial.
Example C74_neg_partial_at := C74_neg_partial 8 23 0x13F800000 0x140490FDB ltac:(hyp) ltac:(hyp) ltac:(hyp) ltac:(hyp) ltac:(hyp).

(** nextup respects the order. Missing: +0 against -0, see the refutation. *)
Theorem C74_nextup_partial E F x y : 1 <= E -> 1 <= F -> wf (E + F + 3) x -> wf (E + F + 3) y ->
  ~ (decode E F x = Zero false /\ decode E F y = Zero true) -> le_spec (decode E F x) (decode E F y) = true ->
  not_above E F (nextup E F x) (nextup E F y).
Proof. exact (o_nextup E F x y). Qed.
Print Assumptions C74_nextup_partial.
Example C74_nextup_partial_at := C74_nextup_partial 8 23 0x13F800000 0x140490FDB ltac:(hyp) ltac:(hyp) ltac:(hyp) ltac:(hyp) ltac:(hyp) ltac:(hyp).

(** The finding: +0 <= -0, but nextup(+0) is the smallest positive number and nextup(-0) is +0. *)
Theorem C74_nextup_refuted : less_than_equal 3 2 3 2 0 32 = Some 1 /\ decode 3 2 0 = Zero false /\ decode 3 2 32 = Zero true /\
  less_than 3 2 3 2 (nextup 3 2 32) (nextup 3 2 0) = Some 1.
Proof. decide_example. Qed.
Print Assumptions C74_nextup_refuted.

(** 2 and 2.5: conversion to E=3, F=1 rounds both to 2; negation; promotion; nextup gives 2.5 and 3. *)
Example C74_unary_instance : decode 4 2 160 = Num false 4 (-1) /\ decode 4 2 161 = Num false 5 (-1) /\ convert 3 1 4 2 160 = Some 40 /\ convert 3 1 4 2 161 = Some 40 /\
  neg 4 2 4 2 160 = Some 224 /\ neg 4 2 4 2 161 = Some 225 /\ less_than_equal 4 2 4 2 225 224 = Some 1 /\ promote 5 4 4 2 160 = Some 1280 /\ promote 5 4 4 2 161 = Some 1284 /\
  nextup 4 2 160 = 161 /\ nextup 4 2 161 = 162 /\ less_than_equal 4 2 4 2 161 162 = Some 1.
Proof. decide_example. Qed.

(** The fused multiply-add respects the order of its addend, although it may round twice (C21). *)
Theorem C74_fma_addend_partial wER wFR wEX wFX wEY wFY wEZ wFZ x y z w :
  1 <= wER -> 1 <= wFR -> 1 <= wEX -> 1 <= wFX -> 1 <= wEY -> 1 <= wFY -> 1 <= wEZ -> 1 <= wFZ ->
  let E := Z.max (Z.max wEX wEY + 2) (wEZ + 1) in let F := Z.max (wFX + wFY + 2) wFZ in
  dual_ok_width E F -> wER <> E \/ F <= wFR ->
  wf (wEX + wFX + 3) x -> wf (wEY + wFY + 3) y -> wf (wEZ + wFZ + 3) z -> wf (wEZ + wFZ + 3) w -> le_spec (decode wEZ wFZ z) (decode wEZ wFZ w) = true ->
  exists r s, fma wER wFR wEX wFX wEY wFY wEZ wFZ x y z = Some r /\ fma wER wFR wEX wFX wEY wFY wEZ wFZ x y w = Some s /\
    (decode wER wFR r <> NaN -> decode wER wFR s <> NaN -> not_above wER wFR r s).
Proof. exact (o_fma_addend wER wFR wEX wFX wEY wFY wEZ wFZ x y z w). Qed.
Print Assumptions C74_fma_addend_partial.
Example C74_fma_addend_partial_at := C74_fma_addend_partial 8 23 8 23 8 23 8 23 0x140490FDB 0x1BF800000 0x13F800000 0x140490FDB ltac:(hyp) ltac:(hyp) ltac:(hyp) ltac:(hyp) ltac:(hyp) ltac:(hyp) ltac:(hyp) ltac:(hyp) ltac:(hyp) ltac:(hyp) ltac:(hyp) ltac:(hyp) ltac:(hyp) ltac:(hyp) ltac:(hyp).

(** ... and of its first factor, when the other factor is not negative. *)
Theorem C74_fma_factor_partial wER wFR wEX wFX wEY wFY wEZ wFZ x y z w :
  1 <= wER -> 1 <= wFR -> 1 <= wEX -> 1 <= wFX -> 1 <= wEY -> 1 <= wFY -> 1 <= wEZ -> 1 <= wFZ ->
  let E := Z.max (Z.max wEX wEY + 2) (wEZ + 1) in let F := Z.max (wFX + wFY + 2) wFZ in
  dual_ok_width E F -> wER <> E \/ F <= wFR ->
  wf (wEX + wFX + 3) x -> wf (wEX + wFX + 3) w -> wf (wEY + wFY + 3) y -> wf (wEZ + wFZ + 3) z ->
  le_spec (Zero false) (decode wEY wFY y) = true -> le_spec (decode wEX wFX x) (decode wEX wFX w) = true ->
  exists r s, fma wER wFR wEX wFX wEY wFY wEZ wFZ x y z = Some r /\ fma wER wFR wEX wFX wEY wFY wEZ wFZ w y z = Some s /\
    (decode wER wFR r <> NaN -> decode wER wFR s <> NaN -> not_above wER wFR r s).
Proof. exact (o_fma_factor wER wFR wEX wFX wEY wFY wEZ wFZ x y z w). Qed.
Print Assumptions C74_fma_factor_partial.

(** 2*2.5 + 2 = 7; with the addend 2.5, or the factor 2.5, the result is 8. The sum is formed with E=6, F=6. *)
Example C74_fma_instance : dual_ok_width 6 6 /\ Z.max (Z.max 4 4 + 2) (4 + 1) = 6 /\ Z.max (2 + 2 + 2) 2 = 6 /\ 4 <> 6 /\
  fma 4 2 4 2 4 2 4 2 160 161 160 = Some 167 /\ fma 4 2 4 2 4 2 4 2 160 161 161 = Some 168 /\ fma 4 2 4 2 4 2 4 2 161 161 160 = Some 168 /\
  decode 4 2 167 = Num false 7 0 /\ decode 4 2 168 = Num false 4 1.
Proof. split; [unfold dual_ok_width; split; [lia|]; split; [lia|]; split; [lia|]; split; [lia|]; right; right; right; right; vm_compute; discriminate|]. decide_example. Qed.

(** The IEEE operators, in terms of the IEEE type's own operator <=, infinities included. Missing for the sum: the widths at
    which the adder is wrong (C04). *)
Theorem C74_ieee_add_partial E F a b c : dual_ok_width E F -> wf (E + F + 1) a -> wf (E + F + 1) b -> wf (E + F + 1) c -> w_le E F a b = Some true ->
  exists r s, w_add E F a c = Some r /\ w_add E F b c = Some s /\ (decode_ieee E F r <> NaN -> decode_ieee E F s <> NaN -> w_le E F r s = Some true).
Proof. exact (o_w_add E F a b c). Qed.
Print Assumptions C74_ieee_add_partial.
Example C74_ieee_add_partial_at := C74_ieee_add_partial 8 23 0x3F800000 0x40490FDB 0xBF800000 ltac:(hyp) ltac:(hyp) ltac:(hyp) ltac:(hyp) ltac:(hyp).

Theorem C74_ieee_mul E F a b c : 2 <= E -> 1 <= F -> wf (E + F + 1) a -> wf (E + F + 1) b -> wf (E + F + 1) c -> w_le E F a b = Some true ->
  exists r s, w_mul E F a c = Some r /\ w_mul E F b c = Some s /\
    (decode_ieee E F r <> NaN -> decode_ieee E F s <> NaN ->
      (w_le E F 0 c = Some true -> w_le E F r s = Some true) /\ (w_le E F c 0 = Some true -> w_le E F s r = Some true)).
Proof. exact (o_w_mul E F a b c). Qed.
Print Assumptions C74_ieee_mul.
Example C74_ieee_mul_at := C74_ieee_mul 8 23 0x3F800000 0x40490FDB 0xBF800000 ltac:(hyp) ltac:(hyp) ltac:(hyp) ltac:(hyp) ltac:(hyp) ltac:(hyp).

Theorem C74_ieee_div E F a b c : 2 <= E -> 1 <= F -> wf (E + F + 1) a -> wf (E + F + 1) b -> wf (E + F + 1) c -> w_le E F a b = Some true -> w_lt E F 0 c = Some true ->
  exists r s, w_div E F a c = Some r /\ w_div E F b c = Some s /\ (decode_ieee E F r <> NaN -> decode_ieee E F s <> NaN -> w_le E F r s = Some true).
Proof. exact (o_w_div E F a b c). Qed.
Print Assumptions C74_ieee_div.

(** 2 and 2.5 minus 2.5, times 2.5, over 3.5. *)
Example C74_ieee_instance : w_le 4 2 32 33 = Some true /\ w_lt 4 2 0 39 = Some true /\ decode_ieee 4 2 32 = Num false 4 (-1) /\ decode_ieee 4 2 33 = Num false 5 (-1) /\
  w_add 4 2 32 97 = Some 88 /\ w_add 4 2 33 97 = Some 0 /\ w_le 4 2 88 0 = Some true /\ w_mul 4 2 32 33 = Some 37 /\ w_mul 4 2 33 33 = Some 38 /\ w_le 4 2 37 38 = Some true /\
  w_div 4 2 32 39 = Some 21 /\ w_div 4 2 33 39 = Some 22 /\ w_le 4 2 21 22 = Some true.
Proof. decide_example. Qed.
