(** C89: the reference square root. *)
From Coq Require Import ZArith Bool Lia Reals Lra.
From Flocq Require Import Core.
From Verif Require Import Fw Spec SpecFma SpecFlocq SpecReal Flopoco Mpfr MpfrProofs2 SqrtProofs Inst.
Open Scope Z_scope.

(** The root of a positive number, rounded once to nearest even. *)
Theorem C89_sqrt ER FR EA FA a m e : 1 <= ER <= 30 -> 1 <= FR <= 128 -> 1 <= EA <= 30 -> 1 <= FA <= 128 -> wf (EA + FA + 3) a -> decode EA FA a = Num false m e ->
  exists r, ref_sqrt ER FR EA FA a = Some r /\ wf (ER + FR + 3) r /\ rounded (emin ER) (emax ER) FR (sqrt (rv (decode EA FA a))) (decode ER FR r).
Proof. exact (fun H1 H2 H3 H4 => ref_sqrt_num ER FR EA FA a m e (conj H1 H2) (conj H3 H4)). Qed.
Print Assumptions C89_sqrt.
Example C89_sqrt_at := C89_sqrt 5 10 8 23 0x140490FDB 0xC90FDB (-22) ltac:(hyp) ltac:(hyp) ltac:(hyp) ltac:(hyp) ltac:(hyp) ltac:(hyp).
(** In the exponent range of the operand it neither overflows nor underflows. *)
Theorem C89_in_range E FR FA a m e : 1 <= E <= 30 -> 1 <= FR <= 128 -> 1 <= FA <= 128 -> wf (E + FA + 3) a -> decode E FA a = Num false m e ->
  exists r n f, ref_sqrt E FR E FA a = Some r /\ wf (E + FR + 3) r /\ decode E FR r = Num false n f /\
    rv (decode E FR r) = round radix2 (FLX_exp (FR + 1)) ZnearestE (sqrt (rv (decode E FA a))).
Proof. exact (fun H1 H2 H3 => ref_sqrt_range E FR FA a m e (conj H1 H2) (conj H1 H3)). Qed.
Print Assumptions C89_in_range.
Example C89_in_range_at := C89_in_range 8 10 23 0x140490FDB 0xC90FDB (-22) ltac:(hyp) ltac:(hyp) ltac:(hyp) ltac:(hyp) ltac:(hyp).
(** The root of an exact square is exact. *)
Theorem C89_exact_square ER FR EA FA a b s m e n f : 1 <= ER <= 30 -> 1 <= FR <= 128 -> 1 <= EA <= 30 -> 1 <= FA <= 128 -> wf (EA + FA + 3) a ->
  decode EA FA a = Num false m e -> decode ER FR b = Num s n f -> rv (decode EA FA a) = (rv (decode ER FR b) * rv (decode ER FR b))%R ->
  exists r, ref_sqrt ER FR EA FA a = Some r /\ wf (ER + FR + 3) r /\ rv (decode ER FR r) = Rabs (rv (decode ER FR b)).
Proof. exact (fun H1 H2 H3 H4 => ref_sqrt_square ER FR EA FA a b s m e n f (conj H1 H2) (conj H3 H4)). Qed.
Print Assumptions C89_exact_square.
(** 9 is the square of -3. *)
Example C89_exact_square_at := C89_exact_square 8 23 8 23 0x141100000 0x1C0400000 true 0x900000 (-20) 0xC00000 (-22) ltac:(hyp) ltac:(hyp) ltac:(hyp) ltac:(hyp) ltac:(hyp) ltac:(hyp) ltac:(hyp)
  ltac:(change (decode 8 23 0x141100000) with (Num false 0x900000 (-20)); change (decode 8 23 0x1C0400000) with (Num true 0xC00000 (-22)); cbn [rv bpow]; cbv [Z.pow_pos Pos.iter radix_val radix2]; cbn; lra).
(** Everything else. *)
Theorem C89_special ER FR EA FA a : 1 <= ER <= 30 -> 1 <= FR <= 128 -> 1 <= EA <= 30 -> 1 <= FA <= 128 -> wf (EA + FA + 3) a ->
  match decode EA FA a with
  | NaN | Inf true | Num true _ _ => exists r, ref_sqrt ER FR EA FA a = Some r /\ wf (ER + FR + 3) r /\ decode ER FR r = NaN
  | Inf false => exists r, ref_sqrt ER FR EA FA a = Some r /\ wf (ER + FR + 3) r /\ decode ER FR r = Inf false
  | Zero s => exists r, ref_sqrt ER FR EA FA a = Some r /\ wf (ER + FR + 3) r /\ decode ER FR r = Zero s
  | Num false _ _ => True
  end.
Proof. exact (fun H1 H2 H3 H4 => ref_sqrt_special ER FR EA FA a (conj H1 H2) (conj H3 H4)). Qed.
Print Assumptions C89_special.
Example C89_special_at := C89_special 5 10 8 23 0x1C0400000 ltac:(hyp) ltac:(hyp) ltac:(hyp) ltac:(hyp) ltac:(hyp).
Example C89_ex : ref_sqrt 8 23 8 23 0x141100000 = Some 0x140400000 /\ ref_sqrt 8 23 8 23 0x140000000 = Some 0x13FB504F3 /\
  option_map (decode 8 23) (ref_sqrt 8 23 8 23 0x1C0400000) = Some NaN.
Proof. vm_compute. repeat split. Qed.
