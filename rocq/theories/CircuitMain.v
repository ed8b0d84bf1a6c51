(** The operators, on every back end. *)
From Coq Require Import ZArith Bool List Lia.
From Verif Require Import Fw Spec Flopoco Mul MulProofs AddSingle AddSingleProofs3 Div DivProofs3 Circuit CircuitProofs CircuitMul CircuitMulProofs CircuitAdd CircuitAddProofs CircuitDiv CircuitDivProofs.
Open Scope Z_scope.

Lemma mul_everywhere wE wFR wFX wFY w x y :
  2 <= wE <= 31 -> 1 <= wFX -> 1 <= wFY -> 1 <= wFR < wFX + wFY + 1 -> wFX + wFY + 2 <= w -> wE + Z.max wFR (Z.max wFX wFY) + 3 <= w ->
  wf (wE + wFX + 3) x -> wf (wE + wFY + 3) y ->
  exists r, (forall K, back_end w K -> run K (mul_prog wE wFR wE wFX wFY x y) = Some r) /\ wf (wE + wFR + 3) r /\
    decode wE wFR r = mul_spec wE wFR (decode wE wFX x) (decode wE wFY y).
Proof.
  intros HE HX HY HR H1 H2 Wx Wy. destruct (mul_round_correct wE wFR wFX wFY x y ltac:(lia) HX HY HR Wx Wy) as (r & E & W & D).
  exists r. split; [|split; assumption]. intros K HK. rewrite <- E. apply (mul_any w); try assumption; try lia. unfold mul_widest. lia.
Qed.
Lemma add_everywhere wEX wFX wEY wFY w x y :
  let E := Z.max wEX wEY in let F := Z.max wFX wFY in
  1 <= wEX -> 1 <= wFX -> 1 <= wEY -> 1 <= wFY -> F + 3 < 2 ^ E -> 2 ^ E <> 2 * (F + 3) -> 2 * F + 4 < 2 ^ 31 -> E + F + 3 <= w -> 2 * F + 4 <= w ->
  wf (wEX + wFX + 3) x -> wf (wEY + wFY + 3) y ->
  exists r, (forall K, back_end w K -> run K (add_prog E F wEX wFX wEY wFY x y) = Some r) /\ wf (E + F + 3) r /\
    let vx := decode wEX wFX x in let vy := decode wEY wFY y in
    ((2 ^ E < 2 * (F + 3) \/ ~ absorbed F vx vy /\ ~ absorbed F vy vx) -> decode E F r = add_spec E F vx vy) /\
    (2 * (F + 3) < 2 ^ E -> absorbed F vx vy -> veq (decode E F r) vx) /\
    (2 * (F + 3) < 2 ^ E -> absorbed F vy vx -> veq (decode E F r) vy).
Proof.
  intros E F H1 H2 H3 H4 H5 H6 H7 W1 W2 Wx Wy. destruct (add_single_char wEX wFX wEY wFY x y H1 H2 H3 H4 H5 H6 H7 Wx Wy) as (r & Er & W & D).
  exists r. split; [|split; [exact W|exact D]]. intros K HK. rewrite <- Er. apply (add_any w); try assumption. unfold add_widest. fold E F. lia.
Qed.
Lemma div_everywhere wER wFR wEX wFX wEY wFY w x y :
  1 <= wEX <= wER -> 1 <= wEY <= wER -> 2 <= wER -> 1 <= wFX <= wFR -> 1 <= wFY <= wFR -> wER + wFR + 3 <= w -> wFR + 6 <= w ->
  wf (wEX + wFX + 3) x -> wf (wEY + wFY + 3) y ->
  exists r, (forall K, back_end w K -> run K (div_prog wER wFR wEX wFX wEY wFY x y) = Some r) /\ wf (wER + wFR + 3) r /\
    decode wER wFR r = div_spec wER wFR (decode wEX wFX x) (decode wEY wFY y).
Proof.
  intros H1 H2 H3 H4 H5 W1 W2 Wx Wy. destruct (div_v1_correct wER wFR wEX wFX wEY wFY x y H1 H2 H3 H4 H5 Wx Wy) as (r & E & W & D).
  exists r. split; [|split; assumption]. intros K HK. rewrite <- E. apply (div_any w); try assumption; try lia. unfold div_widest. lia.
Qed.
