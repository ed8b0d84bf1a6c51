(** Properties of multiplication (C01, C02, C08). *)
From Coq Require Import ZArith Bool.
From Verif Require Import Fw Spec Mul MulProofs.
Open Scope Z_scope.

(** C01: when the destination fraction is shorter than the exact product, mul returns the
    product rounded once to nearest even, with flush to zero and overflow to infinity,
    and the IEEE rules for zeros, infinities and NaNs; no assertion fails. *)
Theorem C01_mul_correctly_rounded :
  forall wE wFR wFX wFY x y,
    2 <= wE -> 1 <= wFX -> 1 <= wFY -> 1 <= wFR < wFX + wFY + 1 ->
    wf (wE + wFX + 3) x -> wf (wE + wFY + 3) y ->
    exists r, mul wE wFR wE wFX wFY x y = Some r /\ wf (wE + wFR + 3) r /\
      decode wE wFR r = mul_spec wE wFR (decode wE wFX x) (decode wE wFY y).
Proof. exact mul_round_correct. Qed.
Print Assumptions C01_mul_correctly_rounded.

(** 1.75 * 1.5 = 2.625, a tie at 2 fraction bits, rounds to 2.5 (E=3, F=2). *)
Example C01_instance :
  wf 8 79 /\ wf 8 78 /\ decode 3 2 79 = Num false 7 (-2) /\ decode 3 2 78 = Num false 6 (-2) /\
  mul 3 2 3 2 2 79 78 = Some 81 /\ decode 3 2 81 = Num false 5 (-1).
Proof. decide_example. Qed.

(** C02: when the destination can hold the exact product, the product is returned exactly,
    except that an underflowing product is returned as NaN (see C02_..._refuted). The full
    property would have [Zero] there. *)
Theorem C02_mul_exact_partial :
  forall wE wFR wFX wFY x y,
    2 <= wE -> 1 <= wFX -> 1 <= wFY -> wFX + wFY + 1 <= wFR ->
    wf (wE + wFX + 3) x -> wf (wE + wFY + 3) y ->
    exists r, mul wE wFR wE wFX wFY x y = Some r /\ wf (wE + wFR + 3) r /\
      decode wE wFR r =
      match decode wE wFX x, decode wE wFY y, mul_spec wE wFR (decode wE wFX x) (decode wE wFY y) with
      | Num _ _ _, Num _ _ _, Zero _ => NaN
      | _, _, v => v
      end.
Proof. exact mul_exact_char. Qed.
Print Assumptions C02_mul_exact_partial.

Example C02_instance :
  wf 8 79 /\ wf 8 78 /\ mul 3 5 3 2 2 79 78 = Some 650 /\ decode 3 5 650 = Num false 42 (-4).
Proof. decide_example. Qed.

(** C02, the finding: an exact multiplication whose product underflows returns NaN instead
    of zero (0.125 * 0.125 with E=3 F=2, exact destination F=5). *)
Theorem C02_mul_exact_underflow_refuted :
  exists wE wFR wFX wFY x y r,
    2 <= wE /\ 1 <= wFX /\ 1 <= wFY /\ wFX + wFY + 1 <= wFR /\
    wf (wE + wFX + 3) x /\ wf (wE + wFY + 3) y /\
    mul wE wFR wE wFX wFY x y = Some r /\
    mul_spec wE wFR (decode wE wFX x) (decode wE wFY y) = Zero false /\
    decode wE wFR r = NaN.
Proof. exists 3, 5, 2, 2, 64, 64, 1696. decide_example. Qed.
Print Assumptions C02_mul_exact_underflow_refuted.

(** C08: square is the correctly rounded square. *)
Theorem C08_square_correctly_rounded :
  forall wE wFR wFX x,
    2 <= wE -> 1 <= wFX -> 1 <= wFR < wFX + wFX + 1 ->
    wf (wE + wFX + 3) x ->
    exists r, square wE wFR wE wFX x = Some r /\ wf (wE + wFR + 3) r /\
      decode wE wFR r = mul_spec wE wFR (decode wE wFX x) (decode wE wFX x).
Proof.
  exact (fun wE wFR wFX x HE HX HR Wx => mul_round_correct wE wFR wFX wFX x x HE HX HX HR Wx Wx).
Qed.
Print Assumptions C08_square_correctly_rounded.

Example C08_instance : square 3 2 3 2 79 = Some 82 /\ decode 3 2 82 = Num false 6 (-1).
Proof. decide_example. Qed.
