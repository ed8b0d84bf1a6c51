(** C73: the operators give the same word on every back end of fw_uint. *)
From Coq Require Import ZArith Bool List.
From Verif Require Import Fw Spec SpecFma SpecDot AddDual AddDualProofs Circuit CircuitMul CircuitAdd CircuitDiv CircuitMain CircuitLimits CircuitCmp CircuitMain2 CircuitDual CircuitMain3 CircuitDot CircuitMain4 Inst.
Open Scope Z_scope.

Theorem C73_mul_every_back_end :
  forall wE wFR wFX wFY w x y,
  2 <= wE <= 31 -> 1 <= wFX -> 1 <= wFY -> 1 <= wFR < wFX + wFY + 1 -> wFX + wFY + 2 <= w -> wE + Z.max wFR (Z.max wFX wFY) + 3 <= w ->
  wf (wE + wFX + 3) x -> wf (wE + wFY + 3) y ->
  exists r, (forall K, back_end w K -> run K (mul_prog wE wFR wE wFX wFY x y) = Some r) /\ wf (wE + wFR + 3) r /\
    decode wE wFR r = mul_spec wE wFR (decode wE wFX x) (decode wE wFY y).
Proof. exact mul_everywhere. Qed.
Print Assumptions C73_mul_every_back_end.
(** 2.5 * 1.25 = 3.125 is 3 at E=4, F=2; all three back ends exist for values of 9 bits. *)
Example C73_mul_instance :
  back_end 9 word_sem /\ back_end 9 ap_sem /\ back_end 9 (ac_sem true) /\
  run word_sem (mul_prog 4 2 4 2 2 161 157) = Some 162 /\ run ap_sem (mul_prog 4 2 4 2 2 161 157) = Some 162 /\ run (ac_sem true) (mul_prog 4 2 4 2 2 161 157) = Some 162 /\
  decode 4 2 161 = Num false 5 (-1) /\ decode 4 2 157 = Num false 5 (-2) /\ decode 4 2 162 = Num false 6 (-1).
Proof. split; [apply on_words; discriminate|]. split; [apply on_ap|]. split; [apply on_ac|]. decide_example. Qed.

Theorem C73_add_every_back_end :
  forall wEX wFX wEY wFY w x y,
  let E := Z.max wEX wEY in let F := Z.max wFX wFY in
  1 <= wEX -> 1 <= wFX -> 1 <= wEY -> 1 <= wFY -> F + 3 < 2 ^ E -> 2 ^ E <> 2 * (F + 3) -> 2 * F + 4 < 2 ^ 31 -> E + F + 3 <= w -> 2 * F + 4 <= w ->
  wf (wEX + wFX + 3) x -> wf (wEY + wFY + 3) y ->
  exists r, (forall K, back_end w K -> run K (add_prog E F wEX wFX wEY wFY x y) = Some r) /\ wf (E + F + 3) r /\
    let vx := decode wEX wFX x in let vy := decode wEY wFY y in
    ((2 ^ E < 2 * (F + 3) \/ ~ absorbed F vx vy /\ ~ absorbed F vy vx) -> decode E F r = add_spec E F vx vy) /\
    (2 * (F + 3) < 2 ^ E -> absorbed F vx vy -> veq (decode E F r) vx) /\
    (2 * (F + 3) < 2 ^ E -> absorbed F vy vx -> veq (decode E F r) vy).
Proof. exact add_everywhere. Qed.
Print Assumptions C73_add_every_back_end.
(** 2.5 + 1.25 = 3.75 rounds to 4. *)
Example C73_add_instance :
  2 + 3 < 2 ^ 4 /\ 2 ^ 4 <> 2 * (2 + 3) /\
  run word_sem (add_prog 4 2 4 2 4 2 161 157) = Some 164 /\ run ap_sem (add_prog 4 2 4 2 4 2 161 157) = Some 164 /\ run (ac_sem true) (add_prog 4 2 4 2 4 2 161 157) = Some 164 /\
  decode 4 2 164 = Num false 4 0.
Proof. decide_example. Qed.

Theorem C73_div_every_back_end :
  forall wER wFR wEX wFX wEY wFY w x y,
  1 <= wEX <= wER -> 1 <= wEY <= wER -> 2 <= wER -> 1 <= wFX <= wFR -> 1 <= wFY <= wFR -> wER + wFR + 3 <= w -> wFR + 6 <= w ->
  wf (wEX + wFX + 3) x -> wf (wEY + wFY + 3) y ->
  exists r, (forall K, back_end w K -> run K (div_prog wER wFR wEX wFX wEY wFY x y) = Some r) /\ wf (wER + wFR + 3) r /\
    decode wER wFR r = div_spec wER wFR (decode wEX wFX x) (decode wEY wFY y).
Proof. exact div_everywhere. Qed.
Print Assumptions C73_div_every_back_end.
(** 2.5 / 1.5 = 1.666 rounds to 1.75. *)
Example C73_div_instance :
  run word_sem (div_prog 4 2 4 2 4 2 161 158) = Some 159 /\ run ap_sem (div_prog 4 2 4 2 4 2 161 158) = Some 159 /\ run (ac_sem true) (div_prog 4 2 4 2 4 2 161 158) = Some 159 /\
  decode 4 2 158 = Num false 6 (-2) /\ decode 4 2 159 = Num false 7 (-2).
Proof. decide_example. Qed.

(** The comparisons: the IEEE relation except on two infinities of one sign, and there still consistent with each other. *)
Theorem C73_comparisons_every_back_end :
  forall EA FA EB FB w x y,
  1 <= EA -> 1 <= FA -> 1 <= EB -> 1 <= FB -> Z.max EA EB + Z.max FA FB + 3 <= w -> wf (EA + FA + 3) x -> wf (EB + FB + 3) y ->
  exists lt le gt ge eq ne : bool,
  (forall K, back_end w K ->
    run K (less_than_prog EA FA EB FB x y) = Some (Z.b2z lt) /\ run K (less_than_equal_prog EA FA EB FB x y) = Some (Z.b2z le) /\
    run K (greater_than_prog EA FA EB FB x y) = Some (Z.b2z gt) /\ run K (greater_than_equal_prog EA FA EB FB x y) = Some (Z.b2z ge) /\
    run K (equal_prog EA FA EB FB x y) = Some (Z.b2z eq) /\ run K (not_equal_prog EA FA EB FB x y) = Some (Z.b2z ne)) /\
  let dx := decode EA FA x in let dy := decode EB FB y in
  (~ (exists s, dx = Inf s /\ dy = Inf s) ->
    lt = lt_spec dx dy /\ le = le_spec dx dy /\ gt = gt_spec dx dy /\ ge = ge_spec dx dy /\ eq = eq_spec dx dy /\ ne = negb (eq_spec dx dy)) /\
  (dx <> NaN -> dy <> NaN ->
    ((lt, eq, gt) = (true, false, false) \/ (lt, eq, gt) = (false, true, false) \/ (lt, eq, gt) = (false, false, true)) /\
    le = (lt || eq)%bool /\ ge = (gt || eq)%bool /\ ne = negb eq).
Proof. exact cmp_everywhere. Qed.
Print Assumptions C73_comparisons_every_back_end.
(** 1.25 against 1 of another format. *)
Example C73_comparisons_instance :
  wf (4 + 2 + 3) 157 /\ wf (3 + 1 + 3) 38 /\ decode 4 2 157 = Num false 5 (-2) /\ decode 3 1 38 = Num false 2 (-1) /\
  run word_sem (less_than_prog 4 2 3 1 157 38) = Some 0 /\ run ap_sem (less_than_prog 4 2 3 1 157 38) = Some 0 /\ run (ac_sem true) (greater_than_prog 4 2 3 1 157 38) = Some 1.
Proof. decide_example. Qed.

(** Conversion and negation to any format, outside the defect of C18. *)
Theorem C73_convert_every_back_end :
  forall ER FR EX FX w x,
  1 <= ER <= 31 -> 1 <= FR -> 1 <= EX <= 31 -> 1 <= FX -> Z.max ER EX + Z.max FR FX + 3 <= w -> wf (EX + FX + 3) x ->
  ~ (ER = EX /\ FR < FX /\ (x / 2 ^ FX) mod 2 ^ EX = 2 ^ EX - 1 /\ match decode EX FX x with Zero _ | NaN => True | _ => False end) ->
  (exists r, (forall K, back_end w K -> run K (convert_prog ER FR EX FX x) = Some r) /\ wf (ER + FR + 3) r /\ decode ER FR r = convert_spec ER FR (decode EX FX x)) /\
  (exists r, (forall K, back_end w K -> run K (neg_prog ER FR EX FX x) = Some r) /\ wf (ER + FR + 3) r /\ decode ER FR r = convert_spec ER FR (neg_spec (decode EX FX x))).
Proof. exact convert_everywhere. Qed.
Print Assumptions C73_convert_every_back_end.
(** 3.5 rounds to 4 at F=1. *)
Example C73_convert_instance :
  decode 4 2 163 = Num false 7 (-1) /\ run word_sem (convert_prog 3 1 4 2 163) = Some 42 /\ run ap_sem (convert_prog 3 1 4 2 163) = Some 42 /\ run (ac_sem true) (convert_prog 3 1 4 2 163) = Some 42 /\
  decode 3 1 42 = Num false 2 1 /\ run ap_sem (neg_prog 3 1 4 2 163) = Some 58 /\ decode 3 1 58 = Num true 2 1.
Proof. decide_example. Qed.

(** The dual-path adder; dual_pad F, the padding of its shifter, is 2 for F = 5, 13 and 29 and 0 for every other F. *)
Theorem C73_add_dual_every_back_end :
  forall wEX wFX wEY wFY w x y,
  let E := Z.max wEX wEY in let F := Z.max wFX wFY in
  1 <= wEX -> 1 <= wFX -> 1 <= wEY -> 1 <= wFY ->
  3 < E /\ 1 <= F /\ F <= 2 ^ (E + 1) /\ 2 * F + 6 < 2 ^ 31 /\ (F = 5 \/ F = 13 \/ F = 29 \/ 2 ^ E <= 2 * F + 4 \/ 2 ^ Z.log2 (F + 3) <> F + 3) ->
  E + F + 3 <= w -> 2 * F + 4 + dual_pad F <= w -> wf (wEX + wFX + 3) x -> wf (wEY + wFY + 3) y ->
  exists r, (forall K, back_end w K -> run K (dual_prog E F wEX wFX wEY wFY x y) = Some r) /\ wf (E + F + 3) r /\
    decode E F r = add_spec E F (decode wEX wFX x) (decode wEY wFY y).
Proof. exact dual_everywhere. Qed.
Print Assumptions C73_add_dual_every_back_end.
(** 2.5 + 1.25 rounds to 4. *)
Example C73_add_dual_instance :
  wf (4 + 2 + 3) 161 /\ wf (4 + 2 + 3) 157 /\ decode 4 2 161 = Num false 5 (-1) /\ decode 4 2 157 = Num false 5 (-2) /\ decode 4 2 164 = Num false 4 0 /\
  run word_sem (dual_prog 4 2 4 2 4 2 161 157) = Some 164 /\ run ap_sem (dual_prog 4 2 4 2 4 2 161 157) = Some 164 /\ run (ac_sem true) (dual_prog 4 2 4 2 4 2 161 157) = Some 164.
Proof. decide_example. Qed.

(** The fused multiply-add: the sum of the exact product and the addend, rounded to the wide internal format and then to the result's. *)
Theorem C73_fma_every_back_end :
  forall wER wFR wEX wFX wEY wFY wEZ wFZ w x y z,
  1 <= wER <= 31 -> 1 <= wFR -> 1 <= wEX -> 1 <= wFX -> 1 <= wEY -> 1 <= wFY -> 1 <= wEZ -> 1 <= wFZ ->
  let E := Z.max (Z.max wEX wEY + 2) (wEZ + 1) in let F := Z.max (wFX + wFY + 2) wFZ in
  dual_ok_width E F -> wER <> E \/ F <= wFR -> E <= 31 -> 2 * F + 4 + dual_pad F <= w -> Z.max wER E + Z.max wFR F + 3 <= w ->
  wf (wEX + wFX + 3) x -> wf (wEY + wFY + 3) y -> wf (wEZ + wFZ + 3) z ->
  exists r, (forall K, back_end w K -> run K (fma_prog wER wFR wEX wFX wEY wFY wEZ wFZ x y z) = Some r) /\ wf (wER + wFR + 3) r /\
    decode wER wFR r = convert_spec wER wFR (add_spec E F (prod_exact (decode wEX wFX x) (decode wEY wFY y)) (decode wEZ wFZ z)).
Proof. exact fma_everywhere. Qed.
Print Assumptions C73_fma_every_back_end.
(** 2.5 * 1.25 + 2.5 = 5.625 rounds to 6. *)
Example C73_fma_instance :
  (3 < 6 /\ 1 <= 6 /\ 6 <= 2 ^ (6 + 1) /\ 2 * 6 + 6 < 2 ^ 31 /\ 2 ^ Z.log2 (6 + 3) <> 6 + 3) /\ decode 4 2 166 = Num false 6 0 /\
  run word_sem (fma_prog 4 2 4 2 4 2 4 2 161 157 161) = Some 166 /\ run ap_sem (fma_prog 4 2 4 2 4 2 4 2 161 157 161) = Some 166 /\ run (ac_sem true) (fma_prog 4 2 4 2 4 2 4 2 161 157 161) = Some 166.
Proof. decide_example. Qed.

(** The two-term dot product, rounded down. *)
Theorem C73_dot2_every_back_end :
  forall E F w a0 a1 b0 b1,
  1 <= E <= 30 -> 1 <= F -> 2 * F + 4 < 2 ^ 31 -> E + F + 3 <= w -> 2 * F + 4 <= w ->
  wf (E + F + 3) a0 -> wf (E + F + 3) a1 -> wf (E + F + 3) b0 -> wf (E + F + 3) b1 ->
  pos_normal (decode E F a0) -> pos_normal (decode E F a1) -> pos_normal (decode E F b0) -> pos_normal (decode E F b1) ->
  exists r, (forall K, back_end w K -> run K (dot2_prog E F a0 a1 b0 b1) = Some r) /\ wf (E + F + 3) r /\
    decode E F r = dot2_spec E F (decode E F a0) (decode E F a1) (decode E F b0) (decode E F b1).
Proof. exact dot2_everywhere. Qed.
Print Assumptions C73_dot2_every_back_end.
Example C73_dot2_every_back_end_at := C73_dot2_every_back_end 5 10 64 0x14248 0x13C00 0x14248 0x13C01 ltac:(hyp) ltac:(hyp) ltac:(hyp) ltac:(hyp) ltac:(hyp) ltac:(hyp) ltac:(hyp) ltac:(hyp) ltac:(hyp) ltac:(do 2 eexists; vm_compute; reflexivity) ltac:(do 2 eexists; vm_compute; reflexivity) ltac:(do 2 eexists; vm_compute; reflexivity) ltac:(do 2 eexists; vm_compute; reflexivity).
(** The four-term dot product: the result of C23, right when at most one product lies far below the largest or the format is narrow. *)
Theorem C73_dot4_every_back_end :
  forall E F w a0 a1 a2 a3 b0 b1 b2 b3,
  1 <= E <= 30 -> 1 <= F -> E + F + 3 <= w -> 6 * F + 3 <= w ->
  wf (E + F + 3) a0 -> wf (E + F + 3) a1 -> wf (E + F + 3) a2 -> wf (E + F + 3) a3 -> wf (E + F + 3) b0 -> wf (E + F + 3) b1 -> wf (E + F + 3) b2 -> wf (E + F + 3) b3 ->
  let d := decode E F in
  pos_normal (d a0) -> pos_normal (d a1) -> pos_normal (d a2) -> pos_normal (d a3) -> pos_normal (d b0) -> pos_normal (d b1) -> pos_normal (d b2) -> pos_normal (d b3) ->
  exists r, (forall K, back_end w K -> run K (dot4_prog E F a0 a1 a2 a3 b0 b1 b2 b3) = Some r) /\ wf (E + F + 3) r /\
    (exists V k, d r = rndd E F (V, k) /\ 2 ^ (6 * F - 1) <= V /\
      let '(m, e) := dot4_exact (d a0) (d a1) (d a2) (d a3) (d b0) (d b1) (d b2) (d b3) in cmp_num V k m e <> Gt /\ cmp_num m e (V + 3) k = Lt) /\
    (far_count F (snd (dmul (d a0) (d b0))) (snd (dmul (d a1) (d b1))) (snd (dmul (d a2) (d b2))) (snd (dmul (d a3) (d b3))) <= 1 \/ 3 * 2 ^ (E - 1) - 2 < 4 * F ->
     d r = dot4_spec E F (d a0) (d a1) (d a2) (d a3) (d b0) (d b1) (d b2) (d b3)).
Proof. exact dot4_everywhere. Qed.
Print Assumptions C73_dot4_every_back_end.
(** 1.25*2.5 + 3*0.875 = 5.75, to 5; and 1.25*0.75 + 3*0.875 + 2.5*1 + 0.875*3.5 = 9.125, to 8. *)
Example C73_dot_instance :
  decode 4 2 157 = Num false 5 (-2) /\ decode 4 2 162 = Num false 6 (-1) /\ decode 4 2 161 = Num false 5 (-1) /\ decode 4 2 155 = Num false 7 (-3) /\
  decode 4 2 154 = Num false 6 (-3) /\ decode 4 2 156 = Num false 4 (-2) /\ decode 4 2 163 = Num false 7 (-1) /\ decode 4 2 165 = Num false 5 0 /\ decode 4 2 168 = Num false 4 1 /\
  run word_sem (dot2_prog 4 2 157 162 161 155) = Some 165 /\ run ap_sem (dot2_prog 4 2 157 162 161 155) = Some 165 /\ run (ac_sem true) (dot2_prog 4 2 157 162 161 155) = Some 165 /\
  run word_sem (dot4_prog 4 2 157 162 161 155 154 155 156 163) = Some 168 /\ run ap_sem (dot4_prog 4 2 157 162 161 155 154 155 156 163) = Some 168 /\
  run (ac_sem true) (dot4_prog 4 2 157 162 161 155 154 155 156 163) = Some 168.
Proof. decide_example. Qed.

(** The machine words stop at 128 bits: a product or an aligned sum that needs more does not compile there. *)
Theorem C73_mul_words_refuted : forall wER wFR wE wFX wFY x y, 128 < wFX + wFY + 2 -> run word_sem (mul_prog wER wFR wE wFX wFY x y) = None.
Proof. exact mul_words. Qed.
Print Assumptions C73_mul_words_refuted.
Theorem C73_add_words_refuted : forall wER wFR wEX wFX wEY wFY x y, 128 < 2 * Z.max wFX wFY + 4 -> run word_sem (add_prog wER wFR wEX wFX wEY wFY x y) = None.
Proof. exact add_words. Qed.
Print Assumptions C73_add_words_refuted.
Theorem C73_add_dual_words_refuted : forall wER wFR wEX wFX wEY wFY x y, 128 < 2 * Z.max wFX wFY + 4 + dual_pad (Z.max wFX wFY) -> run word_sem (dual_prog wER wFR wEX wFX wEY wFY x y) = None.
Proof. exact dual_words. Qed.
Print Assumptions C73_add_dual_words_refuted.
Theorem C73_fma_words_refuted : forall wER wFR wEX wFX wEY wFY wEZ wFZ x y z,
  let F := Z.max (wFX + wFY + 2) wFZ in 128 < 2 * F + 4 + dual_pad F -> run word_sem (fma_prog wER wFR wEX wFX wEY wFY wEZ wFZ x y z) = None.
Proof. exact fma_words. Qed.
Print Assumptions C73_fma_words_refuted.
(** So the fused multiply-add of doubles does not compile on machine words. *)
Example C73_fma_words_instance : 128 < 2 * Z.max (52 + 52 + 2) 52 + 4 + dual_pad (Z.max (52 + 52 + 2) 52).
Proof. decide_example. Qed.
Theorem C73_dot_words_refuted : forall E F a0 a1 a2 a3 b0 b1 b2 b3,
  (128 < 2 * F + 4 -> run word_sem (dot2_prog E F a0 a1 b0 b1) = None) /\ (128 < 6 * F + 3 -> run word_sem (dot4_prog E F a0 a1 a2 a3 b0 b1 b2 b3) = None).
Proof. exact dot_words. Qed.
Print Assumptions C73_dot_words_refuted.
(** So the four-term dot product of singles does not compile on machine words. *)
Example C73_dot_words_instance : 8 + 23 + 3 <= 128 /\ 128 < 6 * 23 + 3.
Proof. decide_example. Qed.
(** A format of 79 bits, within the limit itself. *)
Example C73_words_instance : 11 + 65 + 3 <= 128 /\ 128 < 65 + 65 + 2 /\ 128 < 2 * Z.max 65 65 + 4.
Proof. decide_example. Qed.

(** On ac_int without a conversion to int, the adder and the divider do not compile. *)
Theorem C73_add_ac_refuted : forall wER wFR wEX wFX wEY wFY x y, run (ac_sem false) (add_prog wER wFR wEX wFX wEY wFY x y) = None.
Proof. exact add_no_conv. Qed.
Print Assumptions C73_add_ac_refuted.
Theorem C73_div_ac_refuted : forall wER wFR wEX wFX wEY wFY x y, 1 <= wFX -> run (ac_sem false) (div_prog wER wFR wEX wFX wEY wFY x y) = None.
Proof. exact div_no_conv. Qed.
Print Assumptions C73_div_ac_refuted.
Theorem C73_convert_ac_refuted : forall ER FR EX FX x, ER < EX -> run (ac_sem false) (convert_prog ER FR EX FX x) = None /\ run (ac_sem false) (neg_prog ER FR EX FX x) = None.
Proof. exact convert_no_conv. Qed.
Print Assumptions C73_convert_ac_refuted.
Theorem C73_dual_fma_ac_refuted : forall wER wFR wEX wFX wEY wFY wEZ wFZ x y z,
  run (ac_sem false) (dual_prog wER wFR wEX wFX wEY wFY x y) = None /\ run (ac_sem false) (fma_prog wER wFR wEX wFX wEY wFY wEZ wFZ x y z) = None.
Proof. exact dual_fma_no_conv. Qed.
Print Assumptions C73_dual_fma_ac_refuted.
Theorem C73_dot_ac_refuted : forall E F a0 a1 a2 a3 b0 b1 b2 b3,
  run (ac_sem false) (dot2_prog E F a0 a1 b0 b1) = None /\ run (ac_sem false) (dot4_prog E F a0 a1 a2 a3 b0 b1 b2 b3) = None.
Proof. exact dot_no_conv. Qed.
Print Assumptions C73_dot_ac_refuted.
(** The multiplier does not convert. *)
Example C73_ac_instance : run (ac_sem false) (mul_prog 4 2 4 2 2 161 157) = Some 162.
Proof. decide_example. Qed.
