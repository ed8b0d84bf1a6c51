(** C81: the NaNs of the SoftFloat functions, to the bit, and with them every word they return. SpecNan.v says which NaN. *)
From Coq Require Import ZArith Bool Lia.
From Verif Require Import Spec Spec754 SpecNan SoftFloat NanProofs2 Inst.
Open Scope Z_scope.

(** binary32: whenever the result is NaN it is the one of [nan_word]. U is the width of uint_fast32_t. *)
Theorem C81_f32_nan_words :
  forall U a b, 32 <= U -> 0 <= a < 2 ^ 32 -> 0 <= b < 2 ^ 32 ->
  let x := decode754 8 23 a in let y := decode754 8 23 b in
  (add754 8 23 x y = NaN -> f32_add U a b = Some (nan_word 8 23 a b)) /\
  (mul754 8 23 x y = NaN -> f32_mul U a b = Some (nan_word 8 23 a b)) /\
  (div754 8 23 x y = NaN -> f32_div U a b = Some (nan_word 8 23 a b)).
Proof. exact f32_nan. Qed.
Print Assumptions C81_f32_nan_words.
Example C81_f32_nan_words_at := C81_f32_nan_words 32 0x7FC00001 0x3F800000 ltac:(hyp) ltac:(hyp) ltac:(hyp).

(** binary64. *)
Theorem C81_f64_nan_words :
  forall a b, 0 <= a < 2 ^ 64 -> 0 <= b < 2 ^ 64 ->
  let x := decode754 11 52 a in let y := decode754 11 52 b in
  (add754 11 52 x y = NaN -> f64_add a b = Some (nan_word 11 52 a b)) /\
  (mul754 11 52 x y = NaN -> f64_mul a b = Some (nan_word 11 52 a b)) /\
  (div754 11 52 x y = NaN -> f64_div a b = Some (nan_word 11 52 a b)).
Proof. exact f64_nan. Qed.
Print Assumptions C81_f64_nan_words.

(** Infinity minus infinity, zero times infinity, 0/0: the default NaN. A signalling NaN becomes quiet; of a quiet and a
    signalling NaN the quiet one; of two quiet ones the larger payload. *)
Example C81_words_instance :
  let x := decode754 8 23 0x7F800000 in let y := decode754 8 23 0xFF800000 in
  add754 8 23 x y = NaN /\ f32_add 32 0x7F800000 0xFF800000 = Some 0xFFC00000 /\
  f32_mul 64 0x7F800000 0 = Some 0xFFC00000 /\ f32_div 64 0 0x80000000 = Some 0xFFC00000 /\
  f32_mul 32 0x7F800001 0x3F800000 = Some 0x7FC00001 /\ nan_word 8 23 0x7F800001 0x3F800000 = 0x7FC00001 /\
  f32_add 32 0x7F800009 0xFFC00005 = Some 0xFFC00005 /\ f32_add 32 0x7FC00009 0xFFC00005 = Some 0x7FC00009 /\
  f64_div 0x7FF0000000000001 0x7FF0000000000003 = Some 0x7FF8000000000003.
Proof. vm_compute. repeat split. Qed.

(** What that means: the NaN is quiet, and if an operand is NaN it carries the payload of one that is. *)
Theorem C81_nan_quiet_with_payload :
  forall E F a b, 3 <= E <= 15 -> 2 <= F -> 0 <= a < 2 ^ (E + F + 1) -> 0 <= b < 2 ^ (E + F + 1) ->
  0 <= nan_word E F a b < 2 ^ (E + F + 1) /\ is_quiet E F (nan_word E F a b) = true /\
  (is_nan E F a = true \/ is_nan E F b = true ->
   exists x, (x = a \/ x = b) /\ is_nan E F x = true /\ payload F (nan_word E F a b) = payload F x).
Proof. exact nan_word_ok. Qed.
Print Assumptions C81_nan_quiet_with_payload.
Example C81_nan_quiet_with_payload_at := C81_nan_quiet_with_payload 8 23 0x7FC00001 0x7F800003 ltac:(hyp) ltac:(hyp) ltac:(hyp) ltac:(hyp).

(** Every other word is determined by its value, so that C58 and C60 determine it. *)
Theorem C81_word_unique :
  forall E F r w, 3 <= E <= 15 -> 1 <= F -> 0 <= r < 2 ^ (E + F + 1) -> 0 <= w < 2 ^ (E + F + 1) ->
  decode754 E F r = decode754 E F w -> decode754 E F r <> NaN -> r = w.
Proof. exact word754_unique. Qed.
Print Assumptions C81_word_unique.

Example C81_quiet_instance :
  is_quiet 8 23 0xFFC00005 = true /\ is_nan 8 23 0x7F800001 = true /\ is_quiet 8 23 0x7F800001 = false /\ payload 23 0xFFC00005 = 5 /\
  decode754 8 23 0x80000000 = Zero true /\ decode754 8 23 1 = Num false 1 (-149).
Proof. vm_compute. repeat split. Qed.

(** Addition and multiplication are commutative to the bit, NaNs included. *)
Theorem C81_commutative_words :
  forall U, 32 <= U ->
  (forall a b, 0 <= a < 2 ^ 32 -> 0 <= b < 2 ^ 32 -> f32_add U a b = f32_add U b a /\ f32_mul U a b = f32_mul U b a) /\
  (forall a b, 0 <= a < 2 ^ 64 -> 0 <= b < 2 ^ 64 -> f64_add a b = f64_add b a /\ f64_mul a b = f64_mul b a).
Proof. exact sf_commute. Qed.
Print Assumptions C81_commutative_words.

Example C81_commutative_instance :
  f32_add 32 0x7FC00009 0xFFC00005 = f32_add 32 0xFFC00005 0x7FC00009 /\ f32_add 32 0x3F800000 0x33800001 = Some 0x3F800001 /\
  f32_add 32 0x33800001 0x3F800000 = Some 0x3F800001.
Proof. vm_compute. repeat split. Qed.

(** The one NaN operand comes back as it is, made quiet. Missing: a quiet NaN without payload against an infinity
    (C81_nan_sign_refuted). *)
Theorem C81_f32_operand_nan_back_partial :
  forall U a b, 32 <= U -> 0 <= a < 2 ^ 32 -> 0 <= b < 2 ^ 32 ->
  is_nan 8 23 a = true -> is_nan 8 23 b = false -> is_inf 8 23 b = false \/ is_quiet 8 23 a = false \/ payload 23 a <> 0 ->
  f32_add U a b = Some (quieted 8 23 a) /\ f32_add U b a = Some (quieted 8 23 a) /\
  f32_mul U a b = Some (quieted 8 23 a) /\ f32_mul U b a = Some (quieted 8 23 a) /\
  f32_div U a b = Some (quieted 8 23 a) /\ f32_div U b a = Some (quieted 8 23 a).
Proof. exact f32_operand_back. Qed.
Print Assumptions C81_f32_operand_nan_back_partial.
Example C81_f32_operand_nan_back_partial_at := C81_f32_operand_nan_back_partial 32 0xFFC00001 0x3F800000 ltac:(hyp) ltac:(hyp) ltac:(hyp) ltac:(hyp) ltac:(hyp) ltac:(hyp).
Theorem C81_f64_operand_nan_back_partial :
  forall a b, 0 <= a < 2 ^ 64 -> 0 <= b < 2 ^ 64 ->
  is_nan 11 52 a = true -> is_nan 11 52 b = false -> is_inf 11 52 b = false \/ is_quiet 11 52 a = false \/ payload 52 a <> 0 ->
  f64_add a b = Some (quieted 11 52 a) /\ f64_add b a = Some (quieted 11 52 a) /\
  f64_mul a b = Some (quieted 11 52 a) /\ f64_mul b a = Some (quieted 11 52 a) /\
  f64_div a b = Some (quieted 11 52 a) /\ f64_div b a = Some (quieted 11 52 a).
Proof. exact f64_operand_back. Qed.
Print Assumptions C81_f64_operand_nan_back_partial.

Example C81_operand_instance :
  is_nan 8 23 0xFF812345 = true /\ is_quiet 8 23 0xFF812345 = false /\ is_nan 8 23 0x7F800000 = false /\
  quieted 8 23 0xFF812345 = 0xFFC12345 /\ f32_div 32 0x7F800000 0xFF812345 = Some 0xFFC12345.
Proof. vm_compute. repeat split. Qed.

(** C81, finding: the default NaN, combined with the positive infinity, changes its sign. *)
Theorem C81_nan_sign_refuted :
  forall U, 32 <= U ->
  let a := quiet_nan 8 23 true 0 in let b := 255 * 2 ^ 23 in
  f32_add U a b = Some (quiet_nan 8 23 false 0) /\ f32_mul U a b = Some (quiet_nan 8 23 false 0) /\ f32_div U a b = Some (quiet_nan 8 23 false 0).
Proof. exact nan_sign_lost. Qed.
Print Assumptions C81_nan_sign_refuted.

Example C81_sign_instance : quiet_nan 8 23 true 0 = 0xFFC00000 /\ decode754 8 23 (255 * 2 ^ 23) = Inf false /\ quiet_nan 8 23 false 0 = 0x7FC00000.
Proof. vm_compute. repeat split. Qed.
