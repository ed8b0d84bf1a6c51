(** Values that go through MPFR (fp_flopoco.hpp, fp_ieee.hpp): construction from and conversion to an MPFR number (C44);
    the reference functions the tests compare the operators with (C54). An MPFR number is an fval and its precision;
    what the MPFR functions do is MpfrLib.v, part of the trusted base. *)
From Coq Require Import ZArith Bool.
From Verif Require Import Fw Spec SpecFma SpecMpfr Flopoco Ieee MpfrLib Mpfr MpfrProofs MpfrProofs2 MpfrProofs3 Inst.
Open Scope Z_scope.

(** ** C44. get into an MPFR number of F+1 bits gives exactly the value, for every bit pattern. *)
Theorem C44_get_exact E F x : 1 <= E <= 30 -> 1 <= F <= 128 -> wf (E + F + 3) x -> fl_get E F (F + 1) x = Some (decode E F x).
Proof. exact (fl_get_ok E F x). Qed.
Print Assumptions C44_get_exact.
Example C44_get_exact_at := C44_get_exact 8 23 0x140490FDB ltac:(hyp) ltac:(hyp) ltac:(hyp).
(** The round trip gives an equal value, whether or not the constructor may under- or overflow. *)
Theorem C44_round_trip E F x allow : 1 <= E <= 30 -> 1 <= F <= 128 -> wf (E + F + 3) x ->
  exists v r, fl_get E F (F + 1) x = Some v /\ fl_of_mpfr E F (F + 1) allow v = Some r /\ wf (E + F + 3) r /\ decode E F r = decode E F x.
Proof. exact (fun H1 H2 => mpfr_round_trip E F x allow (conj H1 H2)). Qed.
Print Assumptions C44_round_trip.
Example C44_round_trip_at := C44_round_trip 8 23 0x140490FDB true ltac:(hyp) ltac:(hyp) ltac:(hyp).
(** Construction from a number of F+1 bits: exact in range; out of range zero or infinity of its sign, or an exception. *)
Theorem C44_construct E F allow s m e : 1 <= E <= 31 -> 1 <= F <= 128 -> 2 ^ F <= m < 2 ^ (F + 1) ->
  (emin E <= e + F <= emax E -> exists r, fl_of_mpfr E F (F + 1) allow (Num s m e) = Some r /\ wf (E + F + 3) r /\ decode E F r = Num s m e) /\
  (e + F < emin E -> if allow then exists r, fl_of_mpfr E F (F + 1) allow (Num s m e) = Some r /\ wf (E + F + 3) r /\ decode E F r = Zero s else fl_of_mpfr E F (F + 1) allow (Num s m e) = None) /\
  (emax E < e + F -> if allow then exists r, fl_of_mpfr E F (F + 1) allow (Num s m e) = Some r /\ wf (E + F + 3) r /\ decode E F r = Inf s else fl_of_mpfr E F (F + 1) allow (Num s m e) = None).
Proof. exact (mpfr_ctor E F allow s m e). Qed.
Print Assumptions C44_construct.
Example C44_construct_at := C44_construct 8 23 false true 0xC90FDB (-22) ltac:(hyp) ltac:(hyp) ltac:(hyp).
(** Another precision is an exception, in both directions. *)
Theorem C44_wrong_precision E F p allow v x : p <> F + 1 -> fl_of_mpfr E F p allow v = None /\ fl_get E F p x = None.
Proof. exact (mpfr_precision E F p allow v x). Qed.
Print Assumptions C44_wrong_precision.
Example C44_wrong_precision_at := C44_wrong_precision 8 23 20 true (Num false 1 0) 0x140490FDB ltac:(hyp).
(** A wide enough number receives the exact value in any rounding mode; *)
Theorem C44_get_wide E F p mode x : 1 <= E <= 30 -> 1 <= F <= 128 -> F + 1 <= p -> wf (E + F + 3) x ->
  exists v, fl_get_mode E F p mode x = Some v /\ veq v (decode E F x).
Proof. exact (fun H1 H2 => mpfr_get_wide E F p mode x (conj H1 H2)). Qed.
Print Assumptions C44_get_wide.
Example C44_get_wide_at := C44_get_wide 8 23 30 RNDU 0x140490FDB ltac:(hyp) ltac:(hyp) ltac:(hyp) ltac:(hyp).
(** a narrower one the value rounded to nearest or to zero as asked, *)
Theorem C44_get_narrow E F p mode x : 1 <= E <= 30 -> 1 <= F <= 128 -> 1 <= p -> wf (E + F + 3) x -> mode = RNDN \/ mode = RNDZ ->
  fl_get_mode E F p mode x = Some (mpfr_set p mode (decode E F x)).
Proof. exact (fun H1 H2 => mpfr_get_near E F p mode x (conj H1 H2)). Qed.
Print Assumptions C44_get_narrow.
Example C44_get_narrow_at := C44_get_narrow 8 23 10 RNDZ 0x140490FDB ltac:(hyp) ltac:(hyp) ltac:(hyp) ltac:(hyp) ltac:(hyp).
(** a positive value in every mode; *)
Theorem C44_get_narrow_positive_partial E F p mode x s m e : 1 <= E <= 30 -> 1 <= F <= 128 -> 1 <= p -> wf (E + F + 3) x -> decode E F x = Num s m e -> s = false ->
  fl_get_mode E F p mode x = Some (mpfr_set p mode (decode E F x)).
Proof. exact (fun H1 H2 => mpfr_get_pos E F p mode x s m e (conj H1 H2)). Qed.
Print Assumptions C44_get_narrow_positive_partial.
Example C44_get_narrow_positive_partial_at := C44_get_narrow_positive_partial 8 23 10 RNDU 0x140490FDB false 0xC90FDB (-22) ltac:(hyp) ltac:(hyp) ltac:(hyp) ltac:(hyp) ltac:(hyp) ltac:(hyp).
(** but negative values are rounded up when rounding down was asked, in every format and at every narrower precision. *)
Theorem C44_get_narrow_directed_refuted E F p : 1 <= E <= 30 -> 1 <= F <= 128 -> 1 <= p <= F ->
  exists x, wf (E + F + 3) x /\ fl_get_mode E F p RNDD x <> Some (mpfr_set p RNDD (decode E F x)).
Proof. exact (fun H1 H2 => mpfr_get_directed_bad E F p (conj H1 H2)). Qed.
Print Assumptions C44_get_narrow_directed_refuted.
(** With 31 exponent bits the largest numbers are beyond MPFR's default range and read as infinity. *)
Theorem C44_get_exact_31_refuted : exists F x, 1 <= F /\ wf (31 + F + 3) x /\ fl_get 31 F (F + 1) x = Some (Inf false) /\ decode 31 F x <> Inf false.
Proof. exact mpfr_get_31. Qed.
Print Assumptions C44_get_exact_31_refuted.
Example C44_example : (* -1.25 in fp_flopoco<4,2>; read at 2 bits downwards it is -1, not -1.5 *)
  fl_get 4 2 3 (mk 4 2 1 1 7 1) = Some (Num true 5 (-2)) /\ fl_of_mpfr 4 2 3 false (Num true 5 (-2)) = Some (mk 4 2 1 1 7 1) /\
  fl_of_mpfr 4 2 3 false (Num true 5 20) = None /\ fl_get_mode 4 2 2 RNDD (mk 4 2 1 1 7 1) = Some (Num true 2 (-1)) /\ mpfr_set 2 RNDD (Num true 5 (-2)) = Num true 3 (-1).
Proof. vm_compute. auto. Qed.
(** fp_ieee: the same. *)
Theorem C44_ieee_get_exact E F x : 1 <= E <= 30 -> 1 <= F <= 128 -> wf (E + F + 1) x -> ie_get E F (F + 1) x = Some (decode_ieee E F x).
Proof. exact (fun H1 H2 => ie_get_ok E F x (conj H1 H2)). Qed.
Print Assumptions C44_ieee_get_exact.
Example C44_ieee_get_exact_at := C44_ieee_get_exact 8 23 0x40490FDB ltac:(hyp) ltac:(hyp) ltac:(hyp).
Theorem C44_ieee_round_trip E F x allow : 1 <= E <= 30 -> 1 <= F <= 128 -> wf (E + F + 1) x ->
  exists v r, ie_get E F (F + 1) x = Some v /\ ie_of_mpfr E F (F + 1) allow v = Some r /\ wf (E + F + 1) r /\ decode_ieee E F r = decode_ieee E F x.
Proof. exact (fun H1 H2 => ie_round_trip E F x allow (conj H1 H2)). Qed.
Print Assumptions C44_ieee_round_trip.
Example C44_ieee_example : ie_get 4 3 4 (ie_mk 4 3 1 8 5) = Some (Num true 13 (-2)) /\ ie_of_mpfr 4 3 4 false (Num true 13 (-2)) = Some (ie_mk 4 3 1 8 5).
Proof. vm_compute. auto. Qed.

(** ** C54. The reference functions: the exact result rounded once, to nearest even, with zero and infinity out of range. *)
Theorem C54_ref_mul ER FR EA FA EB FB a b : 1 <= ER <= 30 -> 1 <= FR <= 128 -> 1 <= EA <= 30 -> 1 <= FA <= 128 -> 1 <= EB <= 30 -> 1 <= FB <= 128 -> wf (EA + FA + 3) a -> wf (EB + FB + 3) b -> 
  exists r, ref_mul ER FR EA FA EB FB a b = Some r /\ wf (ER + FR + 3) r /\ decode ER FR r = mul_spec ER FR (decode EA FA a) (decode EB FB b).
Proof. exact (fun H1 H2 H3 H4 H5 H6 => ref_mul_ok ER FR EA FA EB FB a b (conj H1 H2) (conj H3 H4) (conj H5 H6)). Qed.
Print Assumptions C54_ref_mul.
Example C54_ref_mul_at := C54_ref_mul 5 10 8 23 8 10 0x140490FDB 0x9FC00 ltac:(hyp) ltac:(hyp) ltac:(hyp) ltac:(hyp) ltac:(hyp) ltac:(hyp) ltac:(hyp) ltac:(hyp).
Theorem C54_ref_add ER FR EA FA EB FB a b : 1 <= ER <= 30 -> 1 <= FR <= 128 -> 1 <= EA <= 30 -> 1 <= FA <= 128 -> 1 <= EB <= 30 -> 1 <= FB <= 128 -> wf (EA + FA + 3) a -> wf (EB + FB + 3) b -> 
  exists r, ref_add ER FR EA FA EB FB a b = Some r /\ wf (ER + FR + 3) r /\ decode ER FR r = add_spec ER FR (decode EA FA a) (decode EB FB b).
Proof. exact (fun H1 H2 H3 H4 H5 H6 => ref_add_ok ER FR EA FA EB FB a b (conj H1 H2) (conj H3 H4) (conj H5 H6)). Qed.
Print Assumptions C54_ref_add.
Example C54_ref_add_at := C54_ref_add 5 10 8 23 8 10 0x140490FDB 0x9FC00 ltac:(hyp) ltac:(hyp) ltac:(hyp) ltac:(hyp) ltac:(hyp) ltac:(hyp) ltac:(hyp) ltac:(hyp).
Theorem C54_ref_div ER FR EA FA EB FB a b : 1 <= ER <= 30 -> 1 <= FR <= 128 -> 1 <= EA <= 30 -> 1 <= FA <= 128 -> 1 <= EB <= 30 -> 1 <= FB <= 128 -> wf (EA + FA + 3) a -> wf (EB + FB + 3) b -> 
  exists r, ref_div ER FR EA FA EB FB a b = Some r /\ wf (ER + FR + 3) r /\ decode ER FR r = div_spec ER FR (decode EA FA a) (decode EB FB b).
Proof. exact (fun H1 H2 H3 H4 H5 H6 => ref_div_ok ER FR EA FA EB FB a b (conj H1 H2) (conj H3 H4) (conj H5 H6)). Qed.
Print Assumptions C54_ref_div.
Example C54_ref_div_at := C54_ref_div 5 10 8 23 8 10 0x140490FDB 0x9FC00 ltac:(hyp) ltac:(hyp) ltac:(hyp) ltac:(hyp) ltac:(hyp) ltac:(hyp) ltac:(hyp) ltac:(hyp).
Theorem C54_ref_fma ER FR EA FA EB FB EC FC a b c : 1 <= ER <= 30 -> 1 <= FR <= 128 -> 1 <= EA <= 30 -> 1 <= FA <= 128 -> 1 <= EB <= 30 -> 1 <= FB <= 128 -> 1 <= EC <= 30 -> 1 <= FC <= 128 -> wf (EA + FA + 3) a -> wf (EB + FB + 3) b -> wf (EC + FC + 3) c -> 
  exists r, ref_fma ER FR EA FA EB FB EC FC a b c = Some r /\ wf (ER + FR + 3) r /\ decode ER FR r = fma_spec ER FR (decode EA FA a) (decode EB FB b) (decode EC FC c).
Proof. exact (fun H1 H2 H3 H4 H5 H6 H7 H8 => ref_fma_ok ER FR EA FA EB FB EC FC a b c (conj H1 H2) (conj H3 H4) (conj H5 H6) (conj H7 H8)). Qed.
Print Assumptions C54_ref_fma.
Example C54_ref_fma_at := C54_ref_fma 5 10 8 23 8 10 8 23 0x140490FDB 0x9FC00 0x13F800000 ltac:(hyp) ltac:(hyp) ltac:(hyp) ltac:(hyp) ltac:(hyp) ltac:(hyp) ltac:(hyp) ltac:(hyp) ltac:(hyp) ltac:(hyp) ltac:(hyp).
Theorem C54_ref_square ER FR EA FA a : 1 <= ER <= 30 -> 1 <= FR <= 128 -> 1 <= EA <= 30 -> 1 <= FA <= 128 -> wf (EA + FA + 3) a -> 
  exists r, ref_square ER FR EA FA a = Some r /\ wf (ER + FR + 3) r /\ decode ER FR r = mul_spec ER FR (decode EA FA a) (decode EA FA a).
Proof. exact (fun H1 H2 H3 H4 => ref_square_ok ER FR EA FA a (conj H1 H2) (conj H3 H4)). Qed.
Print Assumptions C54_ref_square.
Example C54_ref_square_at := C54_ref_square 5 10 8 23 0x140490FDB ltac:(hyp) ltac:(hyp) ltac:(hyp) ltac:(hyp) ltac:(hyp).
Theorem C54_ref_inv ER FR EA FA a : 1 <= ER <= 30 -> 1 <= FR <= 128 -> 1 <= EA <= 30 -> 1 <= FA <= 128 -> wf (EA + FA + 3) a -> 
  exists r, ref_inv ER FR EA FA a = Some r /\ wf (ER + FR + 3) r /\ decode ER FR r = div_spec ER FR (Num false 1 0) (decode EA FA a).
Proof. exact (fun H1 H2 H3 H4 => ref_inv_ok ER FR EA FA a (conj H1 H2) (conj H3 H4)). Qed.
Print Assumptions C54_ref_inv.
Example C54_ref_inv_at := C54_ref_inv 5 10 8 23 0x140490FDB ltac:(hyp) ltac:(hyp) ltac:(hyp) ltac:(hyp) ltac:(hyp).
Theorem C54_ref_convert ER FR EA FA a : 1 <= ER <= 30 -> 1 <= FR <= 128 -> 1 <= EA <= 30 -> 1 <= FA <= 128 -> wf (EA + FA + 3) a -> 
  exists r, ref_convert ER FR EA FA a = Some r /\ wf (ER + FR + 3) r /\ decode ER FR r = convert_spec ER FR (decode EA FA a).
Proof. exact (fun H1 H2 H3 H4 => ref_convert_ok ER FR EA FA a (conj H1 H2) (conj H3 H4)). Qed.
Print Assumptions C54_ref_convert.
Example C54_ref_convert_at := C54_ref_convert 5 10 8 23 0x140490FDB ltac:(hyp) ltac:(hyp) ltac:(hyp) ltac:(hyp) ltac:(hyp).
Theorem C54_ref_neg ER FR EA FA a : 1 <= ER <= 30 -> 1 <= FR <= 128 -> 1 <= EA <= 30 -> 1 <= FA <= 128 -> wf (EA + FA + 3) a -> 
  exists r, ref_neg ER FR EA FA a = Some r /\ wf (ER + FR + 3) r /\ decode ER FR r = convert_spec ER FR (neg_spec (decode EA FA a)).
Proof. exact (fun H1 H2 H3 H4 => ref_neg_ok ER FR EA FA a (conj H1 H2) (conj H3 H4)). Qed.
Print Assumptions C54_ref_neg.
Example C54_ref_neg_at := C54_ref_neg 5 10 8 23 0x140490FDB ltac:(hyp) ltac:(hyp) ltac:(hyp) ltac:(hyp) ltac:(hyp).
Theorem C54_ref_ldexp ER FR P EA FA a : 1 <= ER <= 30 -> 1 <= FR <= 128 -> 1 <= EA <= 30 -> 1 <= FA <= 128 -> wf (EA + FA + 3) a -> 
  exists r, ref_ldexp_const ER FR P EA FA a = Some r /\ wf (ER + FR + 3) r /\ decode ER FR r = convert_spec ER FR (ldexp_v (decode EA FA a) P).
Proof. exact (fun H1 H2 H3 H4 => ref_ldexp_ok ER FR P EA FA a (conj H1 H2) (conj H3 H4)). Qed.
Print Assumptions C54_ref_ldexp.
Example C54_ref_ldexp_at := C54_ref_ldexp 5 10 (-3) 8 23 0x140490FDB ltac:(hyp) ltac:(hyp) ltac:(hyp) ltac:(hyp) ltac:(hyp).
Theorem C54_ieee_ref_mul ER FR EA FA EB FB a b : 1 <= ER <= 30 -> 1 <= FR <= 128 -> 1 <= EA <= 30 -> 1 <= FA <= 128 -> 1 <= EB <= 30 -> 1 <= FB <= 128 -> wf (EA + FA + 1) a -> wf (EB + FB + 1) b ->
  exists r, ie_ref_mul ER FR EA FA EB FB a b = Some r /\ wf (ER + FR + 1) r /\ decode_ieee ER FR r = mul_ieee ER FR (decode_ieee EA FA a) (decode_ieee EB FB b).
Proof. exact (fun H1 H2 H3 H4 H5 H6 => ie_ref_mul_ok ER FR EA FA EB FB a b (conj H1 H2) (conj H3 H4) (conj H5 H6)). Qed.
Print Assumptions C54_ieee_ref_mul.
Example C54_ieee_ref_mul_at := C54_ieee_ref_mul 5 10 8 23 8 10 0x40490FDB 0x1FC00 ltac:(hyp) ltac:(hyp) ltac:(hyp) ltac:(hyp) ltac:(hyp) ltac:(hyp) ltac:(hyp) ltac:(hyp).
Theorem C54_ieee_ref_add ER FR EA FA EB FB a b : 1 <= ER <= 30 -> 1 <= FR <= 128 -> 1 <= EA <= 30 -> 1 <= FA <= 128 -> 1 <= EB <= 30 -> 1 <= FB <= 128 -> wf (EA + FA + 1) a -> wf (EB + FB + 1) b ->
  exists r, ie_ref_add ER FR EA FA EB FB a b = Some r /\ wf (ER + FR + 1) r /\ decode_ieee ER FR r = add_ieee ER FR (decode_ieee EA FA a) (decode_ieee EB FB b).
Proof. exact (fun H1 H2 H3 H4 H5 H6 => ie_ref_add_ok ER FR EA FA EB FB a b (conj H1 H2) (conj H3 H4) (conj H5 H6)). Qed.
Print Assumptions C54_ieee_ref_add.
Example C54_example : (* 1.25 * 1.75 = 2.1875 to 2.0 at 2 fraction bits; 1.25 - 1.25; 1/1.75; 1.75*1.75+1.25 *)
  ref_mul 4 2 4 2 4 2 (mk 4 2 1 0 7 1) (mk 4 2 1 0 7 3) = Some (mk 4 2 1 0 8 0) /\ ref_add 4 2 4 2 4 2 (mk 4 2 1 0 7 1) (mk 4 2 1 1 7 1) = Some 0 /\
  ref_inv 4 2 4 2 (mk 4 2 1 0 7 3) = Some (mk 4 2 1 0 6 1) /\ ref_fma 4 2 4 2 4 2 4 2 (mk 4 2 1 0 7 3) (mk 4 2 1 0 7 3) (mk 4 2 1 0 7 1) = Some (mk 4 2 1 0 9 0) /\
  ie_ref_mul 4 2 4 2 4 2 (ie_mk 4 2 0 7 1) (ie_mk 4 2 1 7 3) = Some (ie_mk 4 2 1 8 0).
Proof. vm_compute. auto 6. Qed.
