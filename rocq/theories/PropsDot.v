(** Properties of the dot products of positive numbers rounded down (C22, C23). *)
From Coq Require Import ZArith Bool.
From Verif Require Import Fw Spec SpecDot Dot DotProofs2 DotProofs4 DotProofs5 DotProofs6 DotProofs7 Inst.
Open Scope Z_scope.

(** C22: on positive normal inputs dot2_pos_rndd returns the exact a0*b0 + a1*b1 rounded
    down once: zero below the exponent range, infinity above it. No assertion fails.
    The two bounds are those of the C++ int arithmetic (bias, and the shift distance). *)
Theorem C22_dot2_rounds_down :
  forall E F a0 a1 b0 b1,
    1 <= E <= 30 -> 1 <= F -> 2 * F + 4 < 2 ^ 31 ->
    wf (E + F + 3) a0 -> wf (E + F + 3) a1 -> wf (E + F + 3) b0 -> wf (E + F + 3) b1 ->
    pos_normal (decode E F a0) -> pos_normal (decode E F a1) ->
    pos_normal (decode E F b0) -> pos_normal (decode E F b1) ->
    exists r, dot2_pos_rndd E F a0 a1 b0 b1 = Some r /\ wf (E + F + 3) r /\
      decode E F r = dot2_spec E F (decode E F a0) (decode E F a1) (decode E F b0) (decode E F b1).
Proof. exact dot2_ok. Qed.
Print Assumptions C22_dot2_rounds_down.

(** 1.375 * 1.625 + 0.9375 * 0.28125 = 2.498..., rounded down to 2.25. *)
Example C22_instance :
  wf 10 315 /\ wf 10 317 /\ wf 10 311 /\ wf 10 297 /\
  decode 4 3 315 = Num false 11 (-3) /\ decode 4 3 317 = Num false 13 (-3) /\
  decode 4 3 311 = Num false 15 (-4) /\ decode 4 3 297 = Num false 9 (-5) /\
  dadd (dmul (Num false 11 (-3)) (Num false 13 (-3))) (dmul (Num false 15 (-4)) (Num false 9 (-5))) = (1279, -9) /\
  dot2_pos_rndd 4 3 315 311 317 297 = Some 321 /\ decode 4 3 321 = Num false 9 (-2).
Proof. decide_example. Qed.

(** C22, C23: any other input (negative, zero, infinite or NaN) stops at an assertion. *)
Theorem C22_dot2_rejects_others :
  forall E F a0 a1 b0 b1, 1 <= E -> 1 <= F ->
    wf (E + F + 3) a0 -> wf (E + F + 3) a1 -> wf (E + F + 3) b0 -> wf (E + F + 3) b1 ->
    let n x := pos_normal (decode E F x) in
    ~ (n a0 /\ n a1 /\ n b0 /\ n b1) -> dot2_pos_rndd E F a0 a1 b0 b1 = None.
Proof. exact dot2_rejects. Qed.
Print Assumptions C22_dot2_rejects_others.

Example C22_rejects_instance :
  wf 10 443 /\ decode 4 3 443 = Num true 11 (-3) /\ dot2_pos_rndd 4 3 315 443 317 297 = None.
Proof. decide_example. Qed.

Theorem C23_dot4_rejects_others :
  forall E F a0 a1 a2 a3 b0 b1 b2 b3, 1 <= E -> 1 <= F ->
    wf (E + F + 3) a0 -> wf (E + F + 3) a1 -> wf (E + F + 3) a2 -> wf (E + F + 3) a3 ->
    wf (E + F + 3) b0 -> wf (E + F + 3) b1 -> wf (E + F + 3) b2 -> wf (E + F + 3) b3 ->
    let n x := pos_normal (decode E F x) in
    ~ (n a0 /\ n a1 /\ n a2 /\ n a3 /\ n b0 /\ n b1 /\ n b2 /\ n b3) ->
    dot4_pos_rndd E F a0 a1 a2 a3 b0 b1 b2 b3 = None.
Proof. exact dot4_rejects. Qed.
Print Assumptions C23_dot4_rejects_others.
Example C23_dot4_rejects_others_at := C23_dot4_rejects_others 8 23 0x13F800000 0x1BF800000 0x140490FDB 0x13F800000 0x140490FDB 0x13F800000 0x140490FDB 0x13F800000 ltac:(hyp) ltac:(hyp) ltac:(hyp) ltac:(hyp) ltac:(hyp) ltac:(hyp) ltac:(hyp) ltac:(hyp) ltac:(hyp) ltac:(hyp) ltac:(intros (_ & (m & e & H) & _); vm_compute in H; discriminate H).

(** C23, what holds. No assertion fails, and the result is V * 2^k rounded down, where V has
    at least 6F bits and V * 2^k is at most the exact sum and less than 3 * 2^k below it. It
    is the exact sum rounded down whenever at most one of the four products has an exponent
    more than 4F-1 below the largest. Missing: exactness when two or three products do. *)
Theorem C23_dot4_rounds_down_partial :
  forall E F a0 a1 a2 a3 b0 b1 b2 b3, 1 <= E <= 30 -> 1 <= F ->
    wf (E + F + 3) a0 -> wf (E + F + 3) a1 -> wf (E + F + 3) a2 -> wf (E + F + 3) a3 ->
    wf (E + F + 3) b0 -> wf (E + F + 3) b1 -> wf (E + F + 3) b2 -> wf (E + F + 3) b3 ->
    let d := decode E F in
    pos_normal (d a0) -> pos_normal (d a1) -> pos_normal (d a2) -> pos_normal (d a3) ->
    pos_normal (d b0) -> pos_normal (d b1) -> pos_normal (d b2) -> pos_normal (d b3) ->
    exists r V k, dot4_pos_rndd E F a0 a1 a2 a3 b0 b1 b2 b3 = Some r /\ wf (E + F + 3) r /\
      d r = rndd E F (V, k) /\ 2 ^ (6 * F - 1) <= V /\
      (let '(m, e) := dot4_exact (d a0) (d a1) (d a2) (d a3) (d b0) (d b1) (d b2) (d b3) in
       cmp_num V k m e <> Gt /\ cmp_num m e (V + 3) k = Lt) /\
      (far_count F (snd (dmul (d a0) (d b0))) (snd (dmul (d a1) (d b1)))
                   (snd (dmul (d a2) (d b2))) (snd (dmul (d a3) (d b3))) <= 1 ->
       d r = dot4_spec E F (d a0) (d a1) (d a2) (d a3) (d b0) (d b1) (d b2) (d b3)).
Proof. exact dot4_ok. Qed.
Print Assumptions C23_dot4_rounds_down_partial.

(** 1.375*1.625 + 0.9375*0.28125 + 1.75*1.875 + (5*2^-8)*(9*2^-9) = 5.7796..., to 5.5. *)
Example C23_instance :
  wf 10 318 /\ wf 10 266 /\ wf 10 319 /\ wf 10 265 /\
  dot4_exact (decode 4 3 315) (decode 4 3 311) (decode 4 3 318) (decode 4 3 266)
             (decode 4 3 317) (decode 4 3 297) (decode 4 3 319) (decode 4 3 265) = (1515098, -18) /\
  far_count 3 (snd (dmul (decode 4 3 315) (decode 4 3 317))) (snd (dmul (decode 4 3 311) (decode 4 3 297)))
              (snd (dmul (decode 4 3 318) (decode 4 3 319))) (snd (dmul (decode 4 3 266) (decode 4 3 265))) = 1 /\
  dot4_pos_rndd 4 3 315 311 318 266 317 297 319 265 = Some 331 /\ decode 4 3 331 = Num false 11 (-1).
Proof. decide_example. Qed.

(** C23, the finding: in every format where a product can lie 4F below the largest that does not
    overflow, but for <2,1>, there are positive normal inputs whose sum is rounded to the number
    below the right one: the bits shifted out of two products are dropped although they carry. *)
Theorem C23_dot4_rounds_down_refuted :
  forall E F, 3 <= E <= 30 -> 1 <= F -> 4 * F <= 3 * 2 ^ (E - 1) - 2 ->
  exists a0 a1 a2 a3 b0 b1 b2 b3, let d := decode E F in
    (wf (E + F + 3) a0 /\ wf (E + F + 3) a1 /\ wf (E + F + 3) a2 /\ wf (E + F + 3) a3 /\
     wf (E + F + 3) b0 /\ wf (E + F + 3) b1 /\ wf (E + F + 3) b2 /\ wf (E + F + 3) b3) /\
    (pos_normal (d a0) /\ pos_normal (d a1) /\ pos_normal (d a2) /\ pos_normal (d a3) /\
     pos_normal (d b0) /\ pos_normal (d b1) /\ pos_normal (d b2) /\ pos_normal (d b3)) /\
    exists r m e, dot4_pos_rndd E F a0 a1 a2 a3 b0 b1 b2 b3 = Some r /\
      dot4_spec E F (d a0) (d a1) (d a2) (d a3) (d b0) (d b1) (d b2) (d b3) = Num false m e /\
      d r = Num false (m - 1) e.
Proof. exact dot4_wide. Qed.
Print Assumptions C23_dot4_rounds_down_refuted.

(** The format of IEEE half precision, and those of single and double precision. *)
Example C23_refuted_instance :
  (3 <= 5 <= 30 /\ 1 <= 10 /\ 4 * 10 <= 3 * 2 ^ (5 - 1) - 2) /\ (4 * 23 <= 3 * 2 ^ (8 - 1) - 2) /\ (4 * 52 <= 3 * 2 ^ (11 - 1) - 2) /\
  dot4_spec 5 10 (decode 5 10 98295) (decode 5 10 65923) (decode 5 10 66423) (decode 5 10 88575)
    (decode 5 10 74753) (decode 5 10 65923) (decode 5 10 65665) (decode 5 10 66049) = Num false 2041 0 /\
  option_map (decode 5 10) (dot4_pos_rndd 5 10 98295 65923 66423 88575 74753 65923 65665 66049) = Some (Num false 2040 0).
Proof. decide_example. Qed.

(** C23, what holds without a condition on the operands: in a format whose exponent range is narrow for its fraction, no
    product lies too far below the largest one, and the result is right. *)
Theorem C23_dot4_narrow : forall E F a0 a1 a2 a3 b0 b1 b2 b3, 1 <= E <= 30 -> 1 <= F -> 3 * 2 ^ (E - 1) - 2 < 4 * F ->
    wf (E + F + 3) a0 -> wf (E + F + 3) a1 -> wf (E + F + 3) a2 -> wf (E + F + 3) a3 ->
    wf (E + F + 3) b0 -> wf (E + F + 3) b1 -> wf (E + F + 3) b2 -> wf (E + F + 3) b3 ->
    let d := decode E F in
    pos_normal (d a0) -> pos_normal (d a1) -> pos_normal (d a2) -> pos_normal (d a3) ->
    pos_normal (d b0) -> pos_normal (d b1) -> pos_normal (d b2) -> pos_normal (d b3) ->
    exists r, dot4_pos_rndd E F a0 a1 a2 a3 b0 b1 b2 b3 = Some r /\ wf (E + F + 3) r /\
      d r = dot4_spec E F (d a0) (d a1) (d a2) (d a3) (d b0) (d b1) (d b2) (d b3).
Proof. exact dot4_narrow. Qed.
Print Assumptions C23_dot4_narrow.
(** <5,23>, and <3,3>: 1.375*1.5 + 0.25*0.25 + 3*3 + 0.5*0.5 = 11.375, to 11. *)
Example C23_narrow_instance : 3 * 2 ^ (5 - 1) - 2 < 4 * 23 /\ 3 * 2 ^ (3 - 1) - 2 < 4 * 3 /\
  decode 3 3 155 = Num false 11 (-3) /\ decode 3 3 156 = Num false 12 (-3) /\ decode 3 3 136 = Num false 8 (-5) /\ decode 3 3 164 = Num false 12 (-2) /\ decode 3 3 144 = Num false 8 (-4) /\
  option_map (decode 3 3) (dot4_pos_rndd 3 3 155 136 164 144 156 136 164 144) = Some (Num false 11 0).
Proof. decide_example. Qed.

(** C23 by format: exactly which formats round every sum right. *)
Theorem C23_dot4_formats : forall E F, 1 <= E <= 30 -> 1 <= F ->
  ((forall a0 a1 a2 a3 b0 b1 b2 b3, let d := decode E F in
      wf (E + F + 3) a0 -> wf (E + F + 3) a1 -> wf (E + F + 3) a2 -> wf (E + F + 3) a3 ->
      wf (E + F + 3) b0 -> wf (E + F + 3) b1 -> wf (E + F + 3) b2 -> wf (E + F + 3) b3 ->
      pos_normal (d a0) -> pos_normal (d a1) -> pos_normal (d a2) -> pos_normal (d a3) ->
      pos_normal (d b0) -> pos_normal (d b1) -> pos_normal (d b2) -> pos_normal (d b3) ->
      exists r, dot4_pos_rndd E F a0 a1 a2 a3 b0 b1 b2 b3 = Some r /\
        d r = dot4_spec E F (d a0) (d a1) (d a2) (d a3) (d b0) (d b1) (d b2) (d b3)) <->
   3 * 2 ^ (E - 1) - 2 < 4 * F \/ (E = 2 /\ F = 1)).
Proof. exact dot4_formats. Qed.
Print Assumptions C23_dot4_formats.
(** <5,11> wrong, <5,12> right; the one format where two products can be that far below and none is lost. *)
Example C23_formats_instance : 4 * 11 <= 3 * 2 ^ (5 - 1) - 2 /\ 3 * 2 ^ (5 - 1) - 2 < 4 * 12 /\ 4 * 1 <= 3 * 2 ^ (2 - 1) - 2 /\
  option_map (decode 2 1) (dot4_pos_rndd 2 1 22 17 17 17 18 17 17 17) = Some (Num false 2 1).
Proof. decide_example. Qed.
