(** add_dual and fma, on every back end. *)
From Coq Require Import ZArith Bool List Lia.
From Verif Require Import Fw Spec SpecFma Flopoco AddSingle AddDual AddDualProofs AddDualProofs5 AddDualProofs6 Fma FmaProofs FmaProofs2 FmaProofs3 Circuit CircuitProofs CircuitAdd CircuitAddProofs CircuitLimits CircuitCmp CircuitCmpProofs CircuitMul CircuitDual CircuitDualProofs.
Open Scope Z_scope.

Lemma dual_everywhere wEX wFX wEY wFY w x y :
  let E := Z.max wEX wEY in let F := Z.max wFX wFY in
  1 <= wEX -> 1 <= wFX -> 1 <= wEY -> 1 <= wFY -> dual_ok_width E F -> E + F + 3 <= w -> 2 * F + 4 + dual_pad F <= w ->
  wf (wEX + wFX + 3) x -> wf (wEY + wFY + 3) y ->
  exists r, (forall K, back_end w K -> run K (dual_prog E F wEX wFX wEY wFY x y) = Some r) /\ wf (E + F + 3) r /\
    decode E F r = add_spec E F (decode wEX wFX x) (decode wEY wFY y).
Proof.
  intros E F H1 H2 H3 H4 HD W1 W2 Wx Wy. destruct (add_dual_ok wEX wFX wEY wFY x y H1 H2 H3 H4 HD Wx Wy) as (r & Er & W & D). fold E F in Er, W, D.
  exists r. split; [|now split]. intros K HK. rewrite <- Er. destruct HD as (_ & _ & _ & HF & _). apply (dual_any w); try assumption; fold E F; [lia|]. unfold dual_widest. lia.
Qed.
Lemma fma_everywhere wER wFR wEX wFX wEY wFY wEZ wFZ w x y z :
  1 <= wER <= 31 -> 1 <= wFR -> 1 <= wEX -> 1 <= wFX -> 1 <= wEY -> 1 <= wFY -> 1 <= wEZ -> 1 <= wFZ ->
  let E := Z.max (Z.max wEX wEY + 2) (wEZ + 1) in let F := Z.max (wFX + wFY + 2) wFZ in
  dual_ok_width E F -> wER <> E \/ F <= wFR -> E <= 31 -> 2 * F + 4 + dual_pad F <= w -> Z.max wER E + Z.max wFR F + 3 <= w ->
  wf (wEX + wFX + 3) x -> wf (wEY + wFY + 3) y -> wf (wEZ + wFZ + 3) z ->
  exists r, (forall K, back_end w K -> run K (fma_prog wER wFR wEX wFX wEY wFY wEZ wFZ x y z) = Some r) /\ wf (wER + wFR + 3) r /\
    decode wER wFR r = convert_spec wER wFR (add_spec E F (prod_exact (decode wEX wFX x) (decode wEY wFY y)) (decode wEZ wFZ z)).
Proof.
  intros H1 H2 H3 H4 H5 H6 H7 H8 E F HD HR HE W1 W2 Wx Wy Wz.
  destruct (fma_two_roundings wER wFR wEX wFX wEY wFY wEZ wFZ x y z ltac:(lia) H2 H3 H4 H5 H6 H7 H8 HD HR Wx Wy Wz) as (r & Er & W & D).
  exists r. split; [|now split]. intros K HK. rewrite <- Er. destruct HD as (_ & _ & _ & HF & _).
  apply (fma_any w); try assumption; fold E F; [lia|]. unfold dual_widest. lia.
Qed.
Lemma dual_words wER wFR wEX wFX wEY wFY x y : 128 < 2 * Z.max wFX wFY + 4 + dual_pad (Z.max wFX wFY) -> run word_sem (dual_prog wER wFR wEX wFX wEY wFY x y) = None.
Proof.
  intro H. unfold dual_prog. cbv zeta. rewrite !AddAltProofs2.ctMax_eq. do 3 sk. generalize dependent (Z.max wFX wFY). intros wF H. unfold dual_body_prog. cbv zeta.
  repeat match goal with |- run _ (pbind (dual_far_prog _ _ _ _ _ _) _) = None => apply stop_bind; unfold dual_far_prog; cbv zeta | |- run _ (pbind (p_zpad_lo _ _ _) _) = None => apply stop_bind; unfold p_zpad_lo | |- _ => sk end.
Qed.
Lemma dual_no_conv wER wFR wEX wFX wEY wFY x y : run (ac_sem false) (dual_prog wER wFR wEX wFX wEY wFY x y) = None.
Proof.
  unfold dual_prog. cbv zeta. do 3 sk. unfold dual_body_prog. cbv zeta.
  repeat match goal with |- run _ (pbind (dual_far_prog _ _ _ _ _ _) _) = None => apply stop_bind; unfold dual_far_prog; cbv zeta | |- _ => sk end.
Qed.
Lemma fma_words wER wFR wEX wFX wEY wFY wEZ wFZ x y z : let F := Z.max (wFX + wFY + 2) wFZ in 128 < 2 * F + 4 + dual_pad F -> run word_sem (fma_prog wER wFR wEX wFX wEY wFY wEZ wFZ x y z) = None.
Proof.
  intros F H. unfold fma_prog. cbv zeta. do 5 (apply skip_bind; intro). apply stop_bind. apply dual_words. destruct (fma_widths wEX wEY wEZ wFX wFY wFZ) as (_ & _ & _ & ->). rewrite Z.max_id. exact H.
Qed.
Lemma fma_no_conv wER wFR wEX wFX wEY wFY wEZ wFZ x y z : run (ac_sem false) (fma_prog wER wFR wEX wFX wEY wFY wEZ wFZ x y z) = None.
Proof. unfold fma_prog. cbv zeta. do 5 (apply skip_bind; intro). apply stop_bind. apply dual_no_conv. Qed.
Lemma dual_fma_no_conv wER wFR wEX wFX wEY wFY wEZ wFZ x y z :
  run (ac_sem false) (dual_prog wER wFR wEX wFX wEY wFY x y) = None /\ run (ac_sem false) (fma_prog wER wFR wEX wFX wEY wFY wEZ wFZ x y z) = None.
Proof. split; [apply dual_no_conv|apply fma_no_conv]. Qed.
