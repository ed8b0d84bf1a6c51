(** Properties of the IEEE type, its conversions and its wrapper (C16, C17, C19, C20, C43, C46). *)
From Coq Require Import ZArith Bool.
From Verif Require Import Fw Spec Flopoco AddDual AddDualProofs Ieee IeeeProofs IeeeProofs2 Inst.
Open Scope Z_scope.

(** C20: the operators of the IEEE-on-flopoco type. The operands are read with denormals as
    zeros; the exact result is rounded once to nearest even with the exponent range of the
    IEEE format, flushing to zero below and overflowing to infinity above. *)
Theorem C20_wrapper_mul :
  forall E F a b, 2 <= E -> 1 <= F -> wf (E + F + 1) a -> wf (E + F + 1) b ->
  exists r, w_mul E F a b = Some r /\ wf (E + F + 1) r /\
    decode_ieee E F r = mul_ieee E F (decode_ieee E F a) (decode_ieee E F b).
Proof. exact w_mul_ok. Qed.
Print Assumptions C20_wrapper_mul.
Example C20_wrapper_mul_at := C20_wrapper_mul 5 10 0x3C00 0x4248 ltac:(hyp) ltac:(hyp) ltac:(hyp) ltac:(hyp).

Theorem C20_wrapper_div :
  forall E F a b, 2 <= E -> 1 <= F -> wf (E + F + 1) a -> wf (E + F + 1) b ->
  exists r, w_div E F a b = Some r /\ wf (E + F + 1) r /\
    decode_ieee E F r = div_ieee E F (decode_ieee E F a) (decode_ieee E F b).
Proof. exact w_div_ok. Qed.
Print Assumptions C20_wrapper_div.
Example C20_wrapper_div_at := C20_wrapper_div 5 10 0x3C00 0x4248 ltac:(hyp) ltac:(hyp) ltac:(hyp) ltac:(hyp).

(** Missing for addition: the widths at which the underlying adder is wrong
    (C20_wrapper_add_aborts_refuted, C04_add_dual_refuted). *)
Theorem C20_wrapper_add_partial :
  forall E F a b,
  (3 < E /\ 1 <= F /\ F <= 2 ^ (E + 1) /\ 2 * F + 6 < 2 ^ 31 /\
   (F = 5 \/ F = 13 \/ F = 29 \/ 2 ^ E <= 2 * F + 4 \/ 2 ^ Z.log2 (F + 3) <> F + 3)) ->
  wf (E + F + 1) a -> wf (E + F + 1) b ->
  exists r, w_add E F a b = Some r /\ wf (E + F + 1) r /\
    decode_ieee E F r = add_ieee E F (decode_ieee E F a) (decode_ieee E F b).
Proof. exact w_add_ok. Qed.
Print Assumptions C20_wrapper_add_partial.

(** 2.625 and -19/32 in a format of 4 exponent and 4 fraction bits; half, single and double
    precision meet the hypothesis of the addition. *)
Example C20_instance :
  wf 9 133 /\ wf 9 355 /\ decode_ieee 4 4 133 = Num false 21 (-3) /\ decode_ieee 4 4 355 = Num true 19 (-5) /\
  w_mul 4 4 133 355 = Some 377 /\ decode_ieee 4 4 377 = Num true 25 (-4) /\
  w_add 4 4 133 355 = Some 128 /\ decode_ieee 4 4 128 = Num false 16 (-3) /\
  w_div 4 4 133 355 = Some 402 /\ decode_ieee 4 4 402 = Num true 18 (-2) /\
  dual_ok_width 5 10 /\ dual_ok_width 8 23 /\ dual_ok_width 11 52.
Proof.
  do 10 (split; [decide_example|]). repeat split; unfold dual_ok_width; vm_compute; intuition congruence.
Qed.

(** C20, finding: a+b of two positive normal numbers aborts for F=1 and for F=61. *)
Theorem C20_wrapper_add_aborts_refuted :
  forall E F, 3 < E -> F = 1 \/ F = 61 -> 2 * F + 6 < 2 ^ E ->
  exists a b, wf (E + F + 1) a /\ wf (E + F + 1) b /\
    (exists m e, decode_ieee E F a = Num false m e) /\ (exists m e, decode_ieee E F b = Num false m e) /\
    w_add E F a b = None.
Proof. exact w_add_aborts. Qed.
Print Assumptions C20_wrapper_add_aborts_refuted.

Example C20_aborts_instance : w_add 4 1 14 2 = None /\ decode_ieee 4 1 14 = Num false 2 (-1) /\ 2 * 1 + 6 < 2 ^ 4.
Proof. decide_example. Qed.

(** C20, comparisons: for every pair of IEEE patterns (infinities included, which the
    underlying flopoco comparisons get wrong in general) the answer is the IEEE order. *)
Theorem C20_wrapper_comparisons :
  forall E F a b, 1 <= E -> 1 <= F -> wf (E + F + 1) a -> wf (E + F + 1) b ->
  let x := decode_ieee E F a in let y := decode_ieee E F b in
  w_lt E F a b = Some (lt_spec x y) /\ w_le E F a b = Some (le_spec x y) /\
  w_gt E F a b = Some (gt_spec x y) /\ w_ge E F a b = Some (ge_spec x y) /\
  w_eq E F a b = Some (eq_spec x y) /\ w_ne E F a b = Some (negb (eq_spec x y)).
Proof. exact w_comparisons_ok. Qed.
Print Assumptions C20_wrapper_comparisons.

(** Both zeros compare equal, a NaN with nothing, and an infinity with itself. *)
Example C20_comparisons_instance :
  decode_ieee 4 4 256 = Zero true /\ decode_ieee 4 4 3 = Zero false /\ w_eq 4 4 256 3 = Some true /\
  decode_ieee 4 4 241 = NaN /\ w_eq 4 4 241 241 = Some false /\ w_ne 4 4 241 241 = Some true /\
  decode_ieee 4 4 240 = Inf false /\ w_eq 4 4 240 240 = Some true /\ w_le 4 4 133 240 = Some true.
Proof. decide_example. Qed.

(** C19: from IEEE to flopoco the datum is kept exactly. *)
Theorem C19_ieee_to_flopoco_exact :
  forall E F x, 1 <= E -> 1 <= F -> wf (E + F + 1) x ->
  wf (E + F + 3) (to_flopoco E F x) /\ decode E F (to_flopoco E F x) = decode_ieee E F x.
Proof. exact to_flopoco_ok. Qed.
Print Assumptions C19_ieee_to_flopoco_exact.
Example C19_ieee_to_flopoco_exact_at := C19_ieee_to_flopoco_exact 5 10 0x4248 ltac:(hyp) ltac:(hyp) ltac:(hyp).

(** C19: from flopoco to IEEE the datum is rounded to the IEEE exponent range: the smallest
    exponent flushes to zero and the largest overflows to infinity. *)
Theorem C19_flopoco_to_ieee_rounds :
  forall E F x, 1 <= E -> 1 <= F -> wf (E + F + 3) x ->
  wf (E + F + 1) (to_ieee E F x) /\
  decode_ieee E F (to_ieee E F x) = convert_gen (round_ieee E F) (decode E F x).
Proof. exact to_ieee_rounds. Qed.
Print Assumptions C19_flopoco_to_ieee_rounds.
Example C19_flopoco_to_ieee_rounds_at := C19_flopoco_to_ieee_rounds 5 10 0x14248 ltac:(hyp) ltac:(hyp) ltac:(hyp).

(** C19: the exported zeros and NaNs are canonical, so no IEEE reader (one that honours
    denormals included) sees anything but a zero where the datum was flushed. *)
Theorem C19_flopoco_to_ieee_canonical :
  forall E F x, 1 <= E -> 1 <= F -> wf (E + F + 3) x ->
  (forall s, decode_ieee E F (to_ieee E F x) = Zero s -> to_ieee E F x = if s then 2 ^ (E + F) else 0) /\
  (decode_ieee E F (to_ieee E F x) = NaN ->
     to_ieee E F x = 2 ^ (E + F) - 1 \/ to_ieee E F x = 2 * 2 ^ (E + F) - 1).
Proof. exact to_ieee_canonical. Qed.
Print Assumptions C19_flopoco_to_ieee_canonical.
Example C19_flopoco_to_ieee_canonical_at := C19_flopoco_to_ieee_canonical 5 10 0x14248 ltac:(hyp) ltac:(hyp) ltac:(hyp).

Theorem C19_roundtrip :
  forall E F x, 1 <= E -> 1 <= F -> wf (E + F + 1) x ->
  let y := to_ieee E F (to_flopoco E F x) in
  wf (E + F + 1) y /\ decode_ieee E F y = decode_ieee E F x /\ ie_equals E F x y = 1 /\
  (decode_ieee E F x <> NaN -> (forall s, decode_ieee E F x <> Zero s) -> y = x).
Proof. exact roundtrip_ok. Qed.
Print Assumptions C19_roundtrip.

(** A negative denormal comes back as minus zero; a normal number comes back unchanged. *)
Example C19_instance :
  wf 9 259 /\ decode_ieee 4 4 259 = Zero true /\ to_ieee 4 4 (to_flopoco 4 4 259) = 256 /\ ie_equals 4 4 259 256 = 1 /\
  to_ieee 4 4 (to_flopoco 4 4 355) = 355 /\
  decode 4 4 (2 ^ 9 + 2 ^ 8 + 7) = Num true 23 (-11) /\ to_ieee 4 4 (2 ^ 9 + 2 ^ 8 + 7) = 256.
Proof. decide_example. Qed.

(** C46: equals() on the IEEE type: same datum, or both zero (of either sign). *)
Theorem C46_ieee_equals :
  forall E F x y, 1 <= E -> 1 <= F -> wf (E + F + 1) x -> wf (E + F + 1) y ->
  (ie_equals E F x y = 0 \/ ie_equals E F x y = 1) /\
  (ie_equals E F x y = 1 <->
    (exists s t, decode_ieee E F x = Zero s /\ decode_ieee E F y = Zero t) \/ decode_ieee E F x = decode_ieee E F y).
Proof. exact ie_equals_ok. Qed.
Print Assumptions C46_ieee_equals.

Example C46_instance : ie_equals 4 4 256 3 = 1 /\ ie_equals 4 4 241 242 = 1 /\ ie_equals 4 4 355 99 = 0.
Proof. decide_example. Qed.

(** C46: the class tests agree with the datum. *)
Theorem C46_ieee_class_tests :
  forall E F x, 1 <= E -> 1 <= F -> wf (E + F + 1) x ->
  ie_is_zero E F x = Z.b2z (match decode_ieee E F x with Zero _ => true | _ => false end) /\
  ie_is_normal E F x = Z.b2z (match decode_ieee E F x with Num _ _ _ => true | _ => false end) /\
  ie_is_inf E F x = Z.b2z (match decode_ieee E F x with Inf _ => true | _ => false end) /\
  ie_is_nan E F x = Z.b2z (match decode_ieee E F x with NaN => true | _ => false end) /\
  ie_is_positive E F x + ie_is_negative E F x = 1 /\
  (forall s, (decode_ieee E F x = Zero s \/ decode_ieee E F x = Inf s \/ exists m e, decode_ieee E F x = Num s m e) ->
     ie_is_negative E F x = Z.b2z s).
Proof. exact ie_class_ok. Qed.
Print Assumptions C46_ieee_class_tests.

Example C46_class_instance : ie_is_normal 4 4 355 = 1 /\ ie_is_negative 4 4 355 = 1 /\ ie_is_nan 4 4 241 = 1 /\ ie_is_inf 4 4 241 = 0.
Proof. decide_example. Qed.

(** C17, where it holds: same exponent width (every datum), and every normal number. *)
Theorem C17_promote_ieee_same_exponent_width :
  forall E DF SF x, 1 <= E -> 1 <= SF <= DF -> wf (E + SF + 1) x ->
  exists r, ie_promote E DF E SF x = Some r /\ wf (E + DF + 1) r /\ veq (decode_ieee E DF r) (decode_ieee E SF x).
Proof. exact ie_promote_same_exp. Qed.
Print Assumptions C17_promote_ieee_same_exponent_width.
Example C17_promote_ieee_same_exponent_width_at := C17_promote_ieee_same_exponent_width 5 12 10 0x4248 ltac:(hyp) ltac:(hyp) ltac:(hyp).

Theorem C17_promote_ieee_normals_partial :
  forall DE DF SE SF x, 1 <= SE < DE -> 1 <= SF <= DF -> wf (SE + SF + 1) x ->
  forall s m e, decode_ieee SE SF x = Num s m e ->
  exists r, ie_promote DE DF SE SF x = Some r /\ wf (DE + DF + 1) r /\ veq (decode_ieee DE DF r) (decode_ieee SE SF x).
Proof. exact ie_promote_normals. Qed.
Print Assumptions C17_promote_ieee_normals_partial.
Example C17_promote_ieee_normals_partial_at := C17_promote_ieee_normals_partial 8 23 5 10 0x4248 ltac:(hyp) ltac:(hyp) ltac:(hyp) false 1608 (-9) ltac:(hyp).

(** C17, the finding: with a wider exponent every pattern, so also every zero, infinity and
    NaN, is promoted to a nonzero finite number. *)
Theorem C17_promote_ieee_specials_refuted :
  forall DE DF SE SF x, 1 <= SE < DE -> 1 <= SF <= DF -> wf (SE + SF + 1) x ->
  exists r s m e, ie_promote DE DF SE SF x = Some r /\ decode_ieee DE DF r = Num s m e.
Proof. exact ie_promote_specials. Qed.
Print Assumptions C17_promote_ieee_specials_refuted.

Example C17_instance :
  wf 6 28 /\ decode_ieee 3 2 28 = Inf false /\ ie_promote 4 4 3 2 28 = Some 176 /\ decode_ieee 4 4 176 = Num false 16 0 /\
  decode_ieee 3 2 0 = Zero false /\ ie_promote 4 4 3 2 0 = Some 64 /\ decode_ieee 4 4 64 = Num false 16 (-7) /\
  decode_ieee 3 2 13 = Num false 5 (-2) /\ ie_promote 4 4 3 2 13 = Some 116 /\ decode_ieee 4 4 116 = Num false 20 (-4) /\
  ie_promote 3 4 3 2 13 = Some 52 /\ decode_ieee 3 4 52 = Num false 20 (-4).
Proof. decide_example. Qed.

(** C16, flopoco to an IEEE format with more exponent bits: lossless for every datum. *)
Theorem C16_promote_to_ieee_lossless :
  forall DE DF SE SF x, 1 <= SE < DE -> 1 <= SF <= DF -> wf (SE + SF + 3) x ->
  exists r, promote_to_ieee DE DF SE SF x = Some r /\ wf (DE + DF + 1) r /\ veq (decode_ieee DE DF r) (decode SE SF x).
Proof. exact promote_to_ieee_ok. Qed.
Print Assumptions C16_promote_to_ieee_lossless.

Example C16_ieee_instance :
  wf 8 77 /\ decode 3 2 77 = Num false 5 (-2) /\ promote_to_ieee 4 4 3 2 77 = Some 116 /\
  decode 3 2 192 = NaN /\ promote_to_ieee 4 4 3 2 192 = Some 255 /\ decode_ieee 4 4 255 = NaN.
Proof. decide_example. Qed.

(** C43 for the IEEE type. *)
Theorem C43_ieee_limits :
  forall E F, 2 <= E -> 1 <= F ->
  (wf (E + F + 1) (ie_max E F) /\ wf (E + F + 1) (ie_lowest E F) /\ wf (E + F + 1) (ie_min E F)) /\
  (forall z s m e, wf (E + F + 1) z -> decode_ieee E F z = Num s m e ->
     vcmp (decode_ieee E F z) (decode_ieee E F (ie_max E F)) <> Some Gt /\
     vcmp (decode_ieee E F (ie_lowest E F)) (decode_ieee E F z) <> Some Gt /\
     (s = false -> vcmp (decode_ieee E F (ie_min E F)) (decode_ieee E F z) <> Some Gt)) /\
  (exists m e, decode_ieee E F (ie_max E F) = Num false m e) /\
  (exists m e, decode_ieee E F (ie_lowest E F) = Num true m e) /\
  (exists m e, decode_ieee E F (ie_min E F) = Num false m e) /\
  decode_ieee E F (ie_infinity E F) = Inf false /\ decode_ieee E F (ie_neg_infinity E F) = Inf true /\
  decode_ieee E F (ie_quiet_NaN E F) = NaN /\
  decode_ieee E F (ie_pos_zero E F) = Zero false /\ decode_ieee E F (ie_neg_zero E F) = Zero true.
Proof. exact ie_limits_ok. Qed.
Print Assumptions C43_ieee_limits.
Example C43_ieee_limits_at := C43_ieee_limits 8 23 ltac:(hyp) ltac:(hyp).

Theorem C43_ieee_one :
  forall E F, 2 <= E -> 1 <= F ->
  exists r r', ie_pos_one E F = Some r /\ ie_neg_one E F = Some r' /\ wf (E + F + 1) r /\ wf (E + F + 1) r' /\
    decode_ieee E F r = Num false (2 ^ F) (- F) /\ decode_ieee E F r' = Num true (2 ^ F) (- F).
Proof. exact ie_one_ok. Qed.
Print Assumptions C43_ieee_one.
Example C43_ieee_one_at := C43_ieee_one 8 23 ltac:(hyp) ltac:(hyp).

(** Finding: signalling_NaN() of the IEEE type is plus infinity. *)
Theorem C43_ieee_signalling_NaN_refuted :
  forall E F, 1 <= E -> 1 <= F -> decode_ieee E F (ie_signalling_NaN E F) = Inf false.
Proof. exact ie_signalling_NaN_is_inf. Qed.
Print Assumptions C43_ieee_signalling_NaN_refuted.

Example C43_ieee_instance :
  decode_ieee 8 23 (ie_max 8 23) = Num false (2 ^ 24 - 1) 104 /\ decode_ieee 8 23 (ie_min 8 23) = Num false (2 ^ 23) (-149) /\
  ie_pos_one 8 23 = Some 1065353216 /\ ie_quiet_NaN 8 23 = 2147483647 /\ ie_signalling_NaN 8 23 = ie_infinity 8 23.
Proof. decide_example. Qed.
