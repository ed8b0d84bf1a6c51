(** C57: the arithmetic is that of the real numbers, rounded to nearest even as Flocq defines it. The statements use
    rv (SpecFlocq.v), the real value of a decoded word, and rounded (SpecReal.v): the result is the Flocq rounding of the
    real result to F+1 bits with an unbounded exponent, flushed to zero or infinity when that leaves the range. These
    theorems depend on the axioms of the standard library's real numbers, and on no others. *)
From Coq Require Import ZArith Bool Lia Reals.
From Flocq Require Import Core.
From Verif Require Import Fw Spec SpecFma SpecFlocq SpecReal SpecDbl Flopoco Ieee Mul Div AddDual AddDualProofs Mpfr MpfrProofs2 Dbl RealProofs Inst InstR.
Open Scope Z_scope.

(** The product of two finite FloPoCo numbers is the real product, rounded to nearest even. *)
Theorem C57_mul wE wFR wFX wFY x y : 2 <= wE -> 1 <= wFX -> 1 <= wFY -> 1 <= wFR < wFX + wFY + 1 -> wf (wE + wFX + 3) x -> wf (wE + wFY + 3) y -> finite_v (decode wE wFX x) -> finite_v (decode wE wFY y) ->
  exists r, mul wE wFR wE wFX wFY x y = Some r /\ wf (wE + wFR + 3) r /\ rounded (emin wE) (emax wE) wFR (rv (decode wE wFX x) * rv (decode wE wFY y)) (decode wE wFR r).
Proof. exact (mul_r wE wFR wFX wFY x y). Qed.
Print Assumptions C57_mul.
Example C57_mul_at := C57_mul 8 23 23 23 0x13F800000 0x140490FDB ltac:(hypx) ltac:(hypx) ltac:(hypx) ltac:(hypx) ltac:(hypx) ltac:(hypx) ltac:(hypx) ltac:(hypx).

(** The quotient by a nonzero number is the real quotient, rounded to nearest even. *)
Theorem C57_div wER wFR wEX wFX wEY wFY x y : 1 <= wEX <= wER -> 1 <= wEY <= wER -> 2 <= wER -> 1 <= wFX <= wFR -> 1 <= wFY <= wFR -> wf (wEX + wFX + 3) x -> wf (wEY + wFY + 3) y ->
  finite_v (decode wEX wFX x) -> finite_v (decode wEY wFY y) -> rv (decode wEY wFY y) <> 0%R ->
  exists r, div wER wFR wEX wFX wEY wFY x y = Some r /\ wf (wER + wFR + 3) r /\ rounded (emin wER) (emax wER) wFR (rv (decode wEX wFX x) / rv (decode wEY wFY y)) (decode wER wFR r).
Proof. exact (div_r wER wFR wEX wFX wEY wFY x y). Qed.
Print Assumptions C57_div.
Example C57_div_at := C57_div 8 23 8 23 8 23 0x13F800000 0x140490FDB ltac:(hypx) ltac:(hypx) ltac:(hypx) ltac:(hypx) ltac:(hypx) ltac:(hypx) ltac:(hypx) ltac:(hypx) ltac:(hypx) ltac:(hypx).

(** The dual-path sum is the real sum, rounded to nearest even, at the widths the adder handles. *)
Theorem C57_add wEX wFX wEY wFY x y : let E := Z.max wEX wEY in let F := Z.max wFX wFY in 1 <= wEX -> 1 <= wFX -> 1 <= wEY -> 1 <= wFY -> dual_ok_width E F -> wf (wEX + wFX + 3) x -> wf (wEY + wFY + 3) y ->
  finite_v (decode wEX wFX x) -> finite_v (decode wEY wFY y) ->
  exists r, add_dual E F wEX wFX wEY wFY x y = Some r /\ wf (E + F + 3) r /\ rounded (emin E) (emax E) F (rv (decode wEX wFX x) + rv (decode wEY wFY y)) (decode E F r).
Proof. exact (add_r wEX wFX wEY wFY x y). Qed.
Print Assumptions C57_add.
Example C57_add_at := C57_add 8 23 8 23 0x13F800000 0x140490FDB ltac:(hypx) ltac:(hypx) ltac:(hypx) ltac:(hypx) ltac:(hypx) ltac:(hypx) ltac:(hypx) ltac:(hypx) ltac:(hypx).

(** Conversion of a nonzero number is its value rounded to nearest even. *)
Theorem C57_convert ER FR EX FX x : 1 <= ER -> 1 <= FR -> 1 <= EX -> 1 <= FX -> wf (EX + FX + 3) x -> finite_v (decode EX FX x) -> rv (decode EX FX x) <> 0%R ->
  exists r, convert ER FR EX FX x = Some r /\ wf (ER + FR + 3) r /\ rounded (emin ER) (emax ER) FR (rv (decode EX FX x)) (decode ER FR r).
Proof. exact (convert_r ER FR EX FX x). Qed.
Print Assumptions C57_convert.
Example C57_convert_at := C57_convert 5 10 8 23 0x140490FDB ltac:(hypx) ltac:(hypx) ltac:(hypx) ltac:(hypx) ltac:(hypx) ltac:(hypx) ltac:(hypx).

(** The IEEE wrapper: real product. *)
Theorem C57_ieee_mul E F a b : 2 <= E -> 1 <= F -> wf (E + F + 1) a -> wf (E + F + 1) b -> finite_v (decode_ieee E F a) -> finite_v (decode_ieee E F b) ->
  exists r, w_mul E F a b = Some r /\ wf (E + F + 1) r /\ rounded (emin E + 1) (emax E - 1) F (rv (decode_ieee E F a) * rv (decode_ieee E F b)) (decode_ieee E F r).
Proof. exact (w_mul_r E F a b). Qed.
Print Assumptions C57_ieee_mul.
Example C57_ieee_mul_at := C57_ieee_mul 8 23 0x3F800000 0x40490FDB ltac:(hypx) ltac:(hypx) ltac:(hypx) ltac:(hypx) ltac:(hypx) ltac:(hypx).

(** The IEEE wrapper: real quotient. *)
Theorem C57_ieee_div E F a b : 2 <= E -> 1 <= F -> wf (E + F + 1) a -> wf (E + F + 1) b -> finite_v (decode_ieee E F a) -> finite_v (decode_ieee E F b) -> rv (decode_ieee E F b) <> 0%R ->
  exists r, w_div E F a b = Some r /\ wf (E + F + 1) r /\ rounded (emin E + 1) (emax E - 1) F (rv (decode_ieee E F a) / rv (decode_ieee E F b)) (decode_ieee E F r).
Proof. exact (w_div_r E F a b). Qed.
Print Assumptions C57_ieee_div.
Example C57_ieee_div_at := C57_ieee_div 8 23 0x3F800000 0x40490FDB ltac:(hypx) ltac:(hypx) ltac:(hypx) ltac:(hypx) ltac:(hypx) ltac:(hypx) ltac:(hypx).

(** The IEEE wrapper: real sum. *)
Theorem C57_ieee_add E F a b : dual_ok_width E F -> wf (E + F + 1) a -> wf (E + F + 1) b -> finite_v (decode_ieee E F a) -> finite_v (decode_ieee E F b) ->
  exists r, w_add E F a b = Some r /\ wf (E + F + 1) r /\ rounded (emin E + 1) (emax E - 1) F (rv (decode_ieee E F a) + rv (decode_ieee E F b)) (decode_ieee E F r).
Proof. exact (w_add_r E F a b). Qed.
Print Assumptions C57_ieee_add.
Example C57_ieee_add_at := C57_ieee_add 8 23 0x3F800000 0x40490FDB ltac:(hypx) ltac:(hypx) ltac:(hypx) ltac:(hypx) ltac:(hypx).

(** The reference fused multiply-add: a*b+c with a single rounding. *)
Theorem C57_ref_fma ER FR EA FA EB FB EC FC a b c : ok_ef ER FR -> ok_ef EA FA -> ok_ef EB FB -> ok_ef EC FC -> wf (EA + FA + 3) a -> wf (EB + FB + 3) b -> wf (EC + FC + 3) c ->
  finite_v (decode EA FA a) -> finite_v (decode EB FB b) -> finite_v (decode EC FC c) ->
  exists r, ref_fma ER FR EA FA EB FB EC FC a b c = Some r /\ wf (ER + FR + 3) r /\ rounded (emin ER) (emax ER) FR (rv (decode EA FA a) * rv (decode EB FB b) + rv (decode EC FC c)) (decode ER FR r).
Proof. exact (ref_fma_r ER FR EA FA EB FB EC FC a b c). Qed.
Print Assumptions C57_ref_fma.
Example C57_ref_fma_at := C57_ref_fma 8 23 8 23 8 23 8 23 0x140490FDB 0x13F800000 0x1BF800000 ltac:(hypx) ltac:(hypx) ltac:(hypx) ltac:(hypx) ltac:(hypx) ltac:(hypx) ltac:(hypx) ltac:(hypx) ltac:(hypx) ltac:(hypx).

(** to_double_approx of a finite number is the nearest double, with ties to even, by Flocq. *)
Theorem C56_nearest_real E F x s m e : 1 <= E <= 30 -> 1 <= F <= 128 -> wf (E + F + 3) x -> decode E F x = Num s m e ->
  let r := round radix2 (FLT_exp (-1074) 53) ZnearestE (rv (decode E F x)) in
  exists v, to_double_approx E F x = Some v /\
    match v with
    | Num t n f => t = s /\ dbl (Num t n f) /\ rv (Num t n f) = r
    | Zero t => t = s /\ r = 0%R
    | Inf t => t = s /\ (bpow radix2 1024 <= Rabs r)%R
    | NaN => False
    end.
Proof. exact (to_double_approx_r E F x s m e). Qed.
Print Assumptions C56_nearest_real.
Example C56_nearest_real_at := C56_nearest_real 8 23 0x140490FDB false 0xC90FDB (-22) ltac:(hypx) ltac:(hypx) ltac:(hypx) ltac:(hypx).

(** What rounded means for the error: a finite nonzero result differs from the real result by at most 2^-(F+1) of it. *)
Theorem C57_error lo hi F x t m e : 0 <= F -> rounded lo hi F x (Num t m e) -> (Rabs (rv (Num t m e) - x) <= bpow radix2 (- (F + 1)) * Rabs x)%R.
Proof. exact (rounded_error lo hi F x t m e). Qed.
Print Assumptions C57_error.

(** The hypotheses are met: in <4,2>, 1.25 and -3.5 (words 157 and 227): product -4.375 to -4, quotient -0.357.. to -0.375,
    sum -2.25 to -2, -3.5 at one fraction bit to -4; the same in IEEE (words 29 and 99); 1.25 * -3.5 + 1.25 = -3.125 to -3. *)
Example C57_instance :
  wf 9 157 /\ wf 9 227 /\ decode 4 2 157 = Num false 5 (-2) /\ decode 4 2 227 = Num true 7 (-1) /\ dual_ok_width 4 2 /\
  mul 4 2 4 2 2 157 227 = Some 228 /\ decode 4 2 228 = Num true 4 0 /\ div 4 2 4 2 4 2 157 227 = Some 214 /\ decode 4 2 214 = Num true 6 (-4) /\
  add_dual 4 2 4 2 4 2 157 227 = Some 224 /\ decode 4 2 224 = Num true 4 (-1) /\ convert 4 1 4 2 227 = Some 114 /\ decode 4 1 114 = Num true 2 1 /\
  w_mul 4 2 29 99 = Some 100 /\ w_div 4 2 29 99 = Some 86 /\ w_add 4 2 29 99 = Some 96 /\ ref_fma 4 2 4 2 4 2 4 2 157 227 157 = Some 226 /\ decode 4 2 226 = Num true 6 (-1) /\
  to_double_approx 4 2 227 = Some (Num true 7881299347898368 (-51)).
Proof. unfold wf, dual_ok_width. repeat split; try (vm_compute; reflexivity); try (vm_compute; discriminate). right. right. right. right. vm_compute. discriminate. Qed.
