(** Properties of the single-operand operations and of the comparisons of fp_flopoco
    (C09, C11-C16, C18, C43, C45). *)
From Coq Require Import ZArith Bool.
From Verif Require Import Fw Spec Flopoco FlopocoProofs CompareProofs ConvertProofs Inst.
Open Scope Z_scope.

(** C09: within one format neg flips the sign bit (bit E+F) and nothing else, for every bit
    pattern; hence neg is an involution on bit patterns, and the decoded value is negated. *)
Theorem C09_neg_flips_sign_only :
  forall E F x, 1 <= E -> 1 <= F -> wf (E + F + 3) x ->
    neg E F E F x = Some (Z.lxor x (2 ^ (E + F))) /\
    (exists r, neg E F E F x = Some r /\ wf (E + F + 3) r /\ neg E F E F r = Some x /\
       decode E F r = neg_spec (decode E F x)).
Proof. exact neg_same_format. Qed.
Print Assumptions C09_neg_flips_sign_only.

Example C09_instance : wf 8 79 /\ neg 3 2 3 2 79 = Some 111 /\ neg 3 2 3 2 111 = Some 79 /\
  decode 3 2 79 = Num false 7 (-2) /\ decode 3 2 111 = Num true 7 (-2).
Proof. decide_example. Qed.

(** C09, to another format: the negated datum correctly rounded, outside the defect of C18. *)
Theorem C09_neg_other_format_partial :
  forall ER FR EX FX x,
    1 <= ER -> 1 <= FR -> 1 <= EX -> 1 <= FX -> wf (EX + FX + 3) x ->
    ~ (ER = EX /\ FR < FX /\ (x / 2 ^ FX) mod 2 ^ EX = 2 ^ EX - 1 /\
       match decode EX FX x with Zero _ | NaN => True | _ => False end) ->
    exists r, neg ER FR EX FX x = Some r /\ wf (ER + FR + 3) r /\
              decode ER FR r = convert_spec ER FR (neg_spec (decode EX FX x)).
Proof. exact neg_correct. Qed.
Print Assumptions C09_neg_other_format_partial.
Example C09_neg_other_format_partial_at := C09_neg_other_format_partial 5 10 8 23 0x140490FDB ltac:(hyp) ltac:(hyp) ltac:(hyp) ltac:(hyp) ltac:(hyp) ltac:(hyp).

(** C11: each comparison returns the IEEE relation of the decoded values, also for operands of
    different formats. Missing: two infinities of the same sign, see the refutations. *)
Theorem C11_comparisons_ieee_order_partial :
  forall EA FA EB FB x y,
    1 <= EA -> 1 <= FA -> 1 <= EB -> 1 <= FB -> wf (EA + FA + 3) x -> wf (EB + FB + 3) y ->
    ~ (exists s, decode EA FA x = Inf s /\ decode EB FB y = Inf s) ->
    let dx := decode EA FA x in let dy := decode EB FB y in
    less_than EA FA EB FB x y = Some (Z.b2z (lt_spec dx dy)) /\
    less_than_equal EA FA EB FB x y = Some (Z.b2z (le_spec dx dy)) /\
    greater_than EA FA EB FB x y = Some (Z.b2z (gt_spec dx dy)) /\
    greater_than_equal EA FA EB FB x y = Some (Z.b2z (ge_spec dx dy)) /\
    equal EA FA EB FB x y = Some (Z.b2z (eq_spec dx dy)) /\
    not_equal EA FA EB FB x y = Some (Z.b2z (negb (eq_spec dx dy))).
Proof. exact comparisons_correct. Qed.
Print Assumptions C11_comparisons_ieee_order_partial.

(** 1.75 (E=3,F=2) against 1.5 (E=2,F=3), and NaN against 1.5. *)
Example C11_instance :
  wf 8 79 /\ wf 8 76 /\ decode 3 2 79 = Num false 7 (-2) /\ decode 2 3 76 = Num false 12 (-3) /\
  greater_than 3 2 2 3 79 76 = Some 1 /\ less_than 3 2 2 3 79 76 = Some 0 /\
  decode 3 2 192 = NaN /\ greater_than 3 2 2 3 192 76 = Some 0 /\ not_equal 3 2 2 3 192 76 = Some 1.
Proof. decide_example. Qed.

(** C11, the finding: +inf with payload 0 is "less than" +inf with payload 1. *)
Theorem C11_infinity_payload_refuted :
  exists E F x y, 1 <= E /\ 1 <= F /\ wf (E + F + 3) x /\ wf (E + F + 3) y /\
    decode E F x = Inf false /\ decode E F y = Inf false /\
    less_than E F E F x y = Some 1 /\ equal E F E F x y = Some 0.
Proof. exists 3, 2, 128, 129. decide_example. Qed.
Print Assumptions C11_infinity_payload_refuted.

(** C11, the finding for the library's own infinities: numeric_limits::infinity() of two formats
    with different exponent widths do not compare equal. *)
Theorem C11_infinity_mixed_format_refuted :
  exists EA EB F, 1 <= EA /\ 1 <= EB /\ 1 <= F /\
    decode EA F (lim_infinity EA F) = Inf false /\ decode EB F (lim_infinity EB F) = Inf false /\
    equal EA F EB F (lim_infinity EA F) (lim_infinity EB F) = Some 0 /\
    greater_than EA F EB F (lim_infinity EA F) (lim_infinity EB F) = Some 1.
Proof. exists 3, 4, 2. decide_example. Qed.
Print Assumptions C11_infinity_mixed_format_refuted.

(** C12: on non-NaN operands of any two formats exactly one of <, ==, > holds, the other
    operators are the expected combinations, and a > b is b < a. *)
Theorem C12_comparisons_consistent :
  forall EA FA EB FB x y,
    1 <= EA -> 1 <= FA -> 1 <= EB -> 1 <= FB -> wf (EA + FA + 3) x -> wf (EB + FB + 3) y ->
    decode EA FA x <> NaN -> decode EB FB y <> NaN ->
    exists lt eq gt : bool,
      less_than EA FA EB FB x y = Some (Z.b2z lt) /\ equal EA FA EB FB x y = Some (Z.b2z eq) /\
      greater_than EA FA EB FB x y = Some (Z.b2z gt) /\
      ((lt, eq, gt) = (true, false, false) \/ (lt, eq, gt) = (false, true, false) \/
       (lt, eq, gt) = (false, false, true)) /\
      less_than_equal EA FA EB FB x y = Some (Z.b2z (lt || eq)) /\
      greater_than_equal EA FA EB FB x y = Some (Z.b2z (gt || eq)) /\
      not_equal EA FA EB FB x y = Some (Z.b2z (negb eq)) /\
      less_than EB FB EA FA y x = Some (Z.b2z gt).
Proof. exact comparisons_consistent. Qed.
Print Assumptions C12_comparisons_consistent.
Example C12_comparisons_consistent_at := C12_comparisons_consistent 8 23 8 10 0x140490FDB 0x9FC00 ltac:(hyp) ltac:(hyp) ltac:(hyp) ltac:(hyp) ltac:(hyp) ltac:(hyp) ltac:(hyp) ltac:(hyp).

(** C12: < is transitive, over three formats. *)
Theorem C12_less_than_transitive :
  forall EA FA EB FB EC FC x y z,
    1 <= EA -> 1 <= FA -> 1 <= EB -> 1 <= FB -> 1 <= EC -> 1 <= FC ->
    wf (EA + FA + 3) x -> wf (EB + FB + 3) y -> wf (EC + FC + 3) z ->
    less_than EA FA EB FB x y = Some 1 -> less_than EB FB EC FC y z = Some 1 ->
    less_than EA FA EC FC x z = Some 1.
Proof. exact less_than_transitive. Qed.
Print Assumptions C12_less_than_transitive.

(** 1.5 < 1.75 < 2 over three formats; two infinities with different payloads. *)
Example C12_instance :
  wf 8 76 /\ wf 8 79 /\ wf 9 144 /\
  less_than 2 3 3 2 76 79 = Some 1 /\ less_than 3 2 4 2 79 160 = Some 1 /\ less_than 2 3 4 2 76 160 = Some 1 /\
  decode 3 2 128 <> NaN /\ less_than 3 2 3 2 128 129 = Some 1 /\ greater_than 3 2 3 2 128 129 = Some 0.
Proof. decide_example. Qed.

(** C13: equals() is true exactly for identical data (all NaNs identified). *)
Theorem C13_equals_is_identity :
  forall E F x y, 1 <= E -> 1 <= F -> wf (E + F + 3) x -> wf (E + F + 3) y ->
    equals E F x y = 1 /\ decode E F x = decode E F y \/
    equals E F x y = 0 /\ decode E F x <> decode E F y.
Proof. exact equals_correct. Qed.
Print Assumptions C13_equals_is_identity.

Example C13_instance : wf 8 192 /\ wf 8 255 /\ equals 3 2 192 255 = 1 /\ decode 3 2 192 = decode 3 2 255 /\
  equals 3 2 0 32 = 0 /\ decode 3 2 0 = Zero false /\ decode 3 2 32 = Zero true.
Proof. decide_example. Qed.

(** C14: nextup is the least datum above x on the line -inf < ... < -0 < +0 < ... < +inf. *)
Theorem C14_nextup_is_successor :
  forall E F x, 1 <= E -> 1 <= F -> wf (E + F + 3) x ->
    wf (E + F + 3) (nextup E F x) /\
    (decode E F x = NaN -> decode E F (nextup E F x) = NaN) /\
    (decode E F x = Inf false -> decode E F (nextup E F x) = Inf false) /\
    (decode E F x <> NaN -> decode E F x <> Inf false ->
       below (decode E F x) (decode E F (nextup E F x)) /\
       forall z, wf (E + F + 3) z ->
         ~ (below (decode E F x) (decode E F z) /\ below (decode E F z) (decode E F (nextup E F x)))).
Proof. exact nextup_correct. Qed.
Print Assumptions C14_nextup_is_successor.

Example C14_instance : wf 8 79 /\ decode 3 2 79 = Num false 7 (-2) /\ nextup 3 2 79 = 80 /\
  decode 3 2 80 = Num false 4 (-1) /\ nextup 3 2 95 = 128 /\ nextup 3 2 96 = 32 /\ nextup 3 2 32 = 0.
Proof. decide_example. Qed.

(** C15: nextdown is the greatest datum below x. Missing: positive powers of two other than the
    smallest normal, and negative numbers whose fraction is all ones other than lowest(). *)
Theorem C15_nextdown_is_predecessor_partial :
  forall E F x, 1 <= E -> 1 <= F -> wf (E + F + 3) x ->
    ~ ((exists e, decode E F x = Num false (2 ^ F) e /\ e <> emin E - F) \/
       (exists e, decode E F x = Num true (2 ^ (F + 1) - 1) e /\ e <> emax E - F)) ->
    wf (E + F + 3) (nextdown E F x) /\
    (decode E F x = NaN -> decode E F (nextdown E F x) = NaN) /\
    (decode E F x = Inf true -> decode E F (nextdown E F x) = Inf true) /\
    (decode E F x <> NaN -> decode E F x <> Inf true ->
       below (decode E F (nextdown E F x)) (decode E F x) /\
       forall z, wf (E + F + 3) z ->
         ~ (below (decode E F (nextdown E F x)) (decode E F z) /\ below (decode E F z) (decode E F x))).
Proof. exact nextdown_good. Qed.
Print Assumptions C15_nextdown_is_predecessor_partial.

Example C15_instance : wf 8 79 /\ decode 3 2 79 = Num false 7 (-2) /\ nextdown 3 2 79 = 78 /\ nextdown 3 2 0 = 32.
Proof. decide_example. Qed.

(** C15, the finding: nextdown(1) is 1/2 although 0.75 lies in between (E=3, F=2);
    nextdown(nextup(0.875)) is not 0.875. *)
Theorem C15_nextdown_refuted :
  exists E F x z y, 1 <= E /\ 1 <= F /\ wf (E + F + 3) x /\ wf (E + F + 3) z /\ wf (E + F + 3) y /\
    decode E F x = Num false (2 ^ F) (- F) /\
    decode E F (nextdown E F x) = Num false (2 ^ F) (- F - 1) /\
    vcmp (decode E F (nextdown E F x)) (decode E F z) = Some Lt /\ vcmp (decode E F z) (decode E F x) = Some Lt /\
    decode E F (nextdown E F (nextup E F y)) <> decode E F y.
Proof. exists 3, 2, 76, 74, 75. decide_example. Qed.
Print Assumptions C15_nextdown_refuted.

(** C15, the finding on negative numbers: nextdown(-1.75) is -3.5. *)
Theorem C15_nextdown_negative_refuted :
  exists E F x z, 1 <= E /\ 1 <= F /\ wf (E + F + 3) x /\ wf (E + F + 3) z /\
    decode E F x = Num true 7 (-2) /\ decode E F (nextdown E F x) = Num true 7 (-1) /\
    vcmp (decode E F (nextdown E F x)) (decode E F z) = Some Lt /\ vcmp (decode E F z) (decode E F x) = Some Lt.
Proof. exists 3, 2, 111, 112. decide_example. Qed.
Print Assumptions C15_nextdown_negative_refuted.

(** C16: promotion within flopoco formats keeps the datum. *)
Theorem C16_promote_lossless :
  forall DE DF SE SF x, 1 <= SE <= DE -> 1 <= SF <= DF -> wf (SE + SF + 3) x ->
    exists r, promote DE DF SE SF x = Some r /\ wf (DE + DF + 3) r /\ veq (decode DE DF r) (decode SE SF x).
Proof. exact promote_correct. Qed.
Print Assumptions C16_promote_lossless.

Example C16_instance : wf 8 79 /\ promote 4 5 3 2 79 = Some 1272 /\
  decode 3 2 79 = Num false 7 (-2) /\ decode 4 5 1272 = Num false 56 (-5).
Proof. decide_example. Qed.

(** C18: convert between any two flopoco formats rounds to nearest even. Missing: zeros and NaNs
    whose (unused) exponent field is all ones, when only the fraction gets shorter. *)
Theorem C18_convert_correctly_rounded_partial :
  forall ER FR EX FX x,
    1 <= ER -> 1 <= FR -> 1 <= EX -> 1 <= FX -> wf (EX + FX + 3) x ->
    ~ (ER = EX /\ FR < FX /\ (x / 2 ^ FX) mod 2 ^ EX = 2 ^ EX - 1 /\
       match decode EX FX x with Zero _ | NaN => True | _ => False end) ->
    exists r, convert ER FR EX FX x = Some r /\ wf (ER + FR + 3) r /\
              decode ER FR r = convert_spec ER FR (decode EX FX x).
Proof. exact convert_correct. Qed.
Print Assumptions C18_convert_correctly_rounded_partial.

(** 23/16 to 2 fraction bits gives 1.5; 31 rounds up to 32, which overflows E=3. *)
Example C18_instance :
  convert 3 2 5 4 1271 = Some 78 /\ decode 5 4 1271 = Num false 23 (-4) /\ decode 3 2 78 = Num false 6 (-2) /\
  decode 5 4 1343 = Num false 31 0 /\ option_map (decode 3 2) (convert 3 2 5 4 1343) = Some (Inf false).
Proof. decide_example. Qed.

(** C18, the finding: a zero and a NaN turned into infinity. *)
Theorem C18_convert_zero_to_infinity_refuted :
  exists E FR FX x y r r', 1 <= E /\ 1 <= FR /\ 1 <= FX /\ wf (E + FX + 3) x /\ wf (E + FX + 3) y /\
    decode E FX x = Zero false /\ convert E FR E FX x = Some r /\ decode E FR r = Inf false /\
    decode E FX y = NaN /\ convert E FR E FX y = Some r' /\ decode E FR r' = Inf false.
Proof. exists 3, 2, 4, 127, 895, 128, 128. decide_example. Qed.
Print Assumptions C18_convert_zero_to_infinity_refuted.

(** C43: the extremal constants of numeric_limits<fp_flopoco>. *)
Theorem C43_flopoco_limits :
  forall E F, 1 <= E -> 1 <= F ->
  (wf (E + F + 3) (lim_max E F) /\ wf (E + F + 3) (lim_lowest E F) /\ wf (E + F + 3) (lim_min E F)) /\
  (forall z s m e, wf (E + F + 3) z -> decode E F z = Num s m e ->
     vcmp (decode E F z) (decode E F (lim_max E F)) <> Some Gt /\
     vcmp (decode E F (lim_lowest E F)) (decode E F z) <> Some Gt /\
     (s = false -> vcmp (decode E F (lim_min E F)) (decode E F z) <> Some Gt)) /\
  (exists m e, decode E F (lim_max E F) = Num false m e) /\
  (exists m e, decode E F (lim_lowest E F) = Num true m e) /\
  (exists m e, decode E F (lim_min E F) = Num false m e) /\
  decode E F (lim_infinity E F) = Inf false /\ decode E F (lim_neg_infinity E F) = Inf true /\
  decode E F (lim_quiet_NaN E F) = NaN /\
  decode E F (lim_pos_zero E F) = Zero false /\ decode E F (lim_neg_zero E F) = Zero true.
Proof. exact limits_correct. Qed.
Print Assumptions C43_flopoco_limits.
Example C43_flopoco_limits_at := C43_flopoco_limits 8 23 ltac:(hyp) ltac:(hyp).

Theorem C43_flopoco_one :
  forall E F, 1 <= E -> 1 <= F ->
  exists r r', lim_pos_one E F = Some r /\ lim_neg_one E F = Some r' /\
    wf (E + F + 3) r /\ wf (E + F + 3) r' /\
    decode E F r = Num false (2 ^ F) (- F) /\ decode E F r' = Num true (2 ^ F) (- F).
Proof. exact one_correct. Qed.
Print Assumptions C43_flopoco_one.

Example C43_instance : lim_max 3 2 = 95 /\ decode 3 2 95 = Num false 7 2 /\ decode 3 2 (lim_min 3 2) = Num false 4 (-5).
Proof. decide_example. Qed.

(** C43, the finding: signalling_NaN() is zero, in every format. *)
Theorem C43_signalling_NaN_refuted : forall E F, 1 <= E -> 1 <= F -> decode E F (lim_signalling_NaN E F) = Zero false.
Proof. exact signalling_NaN_is_zero. Qed.
Print Assumptions C43_signalling_NaN_refuted.

(** C45: within_1ulp holds exactly when no representable datum lies strictly between. *)
Theorem C45_within_1ulp_is_adjacency :
  forall E F x y, 1 <= E -> 1 <= F -> wf (E + F + 3) x -> wf (E + F + 3) y ->
    (within_1ulp E F x y = 0 \/ within_1ulp E F x y = 1) /\
    (within_1ulp E F x y = 1 <->
     (decode E F x = NaN /\ decode E F y = NaN) \/
     (decode E F x <> NaN /\ decode E F y <> NaN /\
      forall z, wf (E + F + 3) z ->
        ~ (vcmp (decode E F x) (decode E F z) = Some Lt /\ vcmp (decode E F z) (decode E F y) = Some Lt) /\
        ~ (vcmp (decode E F y) (decode E F z) = Some Lt /\ vcmp (decode E F z) (decode E F x) = Some Lt))).
Proof. exact within_1ulp_correct. Qed.
Print Assumptions C45_within_1ulp_is_adjacency.

Example C45_instance : wf 8 79 /\ wf 8 80 /\ within_1ulp 3 2 79 80 = 1 /\ within_1ulp 3 2 78 80 = 0 /\
  within_1ulp 3 2 95 128 = 1 /\ within_1ulp 3 2 0 96 = 1.
Proof. decide_example. Qed.
