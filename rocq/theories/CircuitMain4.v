(** The dot products on every back end. *)
From Coq Require Import ZArith Bool List Lia.
From Verif Require Import Fw Spec SpecDot Flopoco Dot DotProofs2 DotProofs4 DotProofs5 DotProofs6 Circuit CircuitProofs CircuitMulProofs CircuitAddProofs CircuitDot CircuitDotProofs CircuitLimits.
Open Scope Z_scope.

Lemma dot2_everywhere E F w a0 a1 b0 b1 : 1 <= E <= 30 -> 1 <= F -> 2 * F + 4 < 2 ^ 31 -> E + F + 3 <= w -> 2 * F + 4 <= w ->
  wf (E + F + 3) a0 -> wf (E + F + 3) a1 -> wf (E + F + 3) b0 -> wf (E + F + 3) b1 ->
  pos_normal (decode E F a0) -> pos_normal (decode E F a1) -> pos_normal (decode E F b0) -> pos_normal (decode E F b1) ->
  exists r, (forall K, back_end w K -> run K (dot2_prog E F a0 a1 b0 b1) = Some r) /\ wf (E + F + 3) r /\
    decode E F r = dot2_spec E F (decode E F a0) (decode E F a1) (decode E F b0) (decode E F b1).
Proof.
  intros HE HF HI Hw Hw' A0 A1 B0 B1 P0 P1 Q0 Q1. destruct (dot2_ok E F a0 a1 b0 b1) as (r & R & W & D); try assumption. exists r. split; [|split; assumption].
  intros K HK. rewrite (run_agree w K _ HK (proj1 (post_dot2 w E F a0 a1 b0 b1 ltac:(lia) HF HI Hw Hw' A0 A1 B0 B1))). rewrite run_dot2 by lia. exact R.
Qed.
Lemma dot4_same E F w a0 a1 a2 a3 b0 b1 b2 b3 : 1 <= E <= 30 -> 1 <= F -> E + F + 3 <= w -> 6 * F + 3 <= w ->
  wf (E + F + 3) a0 -> wf (E + F + 3) a1 -> wf (E + F + 3) a2 -> wf (E + F + 3) a3 -> wf (E + F + 3) b0 -> wf (E + F + 3) b1 -> wf (E + F + 3) b2 -> wf (E + F + 3) b3 ->
  forall K, back_end w K -> run K (dot4_prog E F a0 a1 a2 a3 b0 b1 b2 b3) = dot4_pos_rndd E F a0 a1 a2 a3 b0 b1 b2 b3.
Proof.
  intros HE HF Hw Hw' A0 A1 A2 A3 B0 B1 B2 B3 K HK. rewrite (run_agree w K _ HK (proj1 (post_dot4 w E F a0 a1 a2 a3 b0 b1 b2 b3 ltac:(lia) HF Hw Hw' A0 A1 A2 A3 B0 B1 B2 B3))). apply run_dot4; lia.
Qed.
Lemma dot4_everywhere E F w a0 a1 a2 a3 b0 b1 b2 b3 : 1 <= E <= 30 -> 1 <= F -> E + F + 3 <= w -> 6 * F + 3 <= w ->
  wf (E + F + 3) a0 -> wf (E + F + 3) a1 -> wf (E + F + 3) a2 -> wf (E + F + 3) a3 -> wf (E + F + 3) b0 -> wf (E + F + 3) b1 -> wf (E + F + 3) b2 -> wf (E + F + 3) b3 ->
  let d := decode E F in
  pos_normal (d a0) -> pos_normal (d a1) -> pos_normal (d a2) -> pos_normal (d a3) -> pos_normal (d b0) -> pos_normal (d b1) -> pos_normal (d b2) -> pos_normal (d b3) ->
  exists r, (forall K, back_end w K -> run K (dot4_prog E F a0 a1 a2 a3 b0 b1 b2 b3) = Some r) /\ wf (E + F + 3) r /\
    (exists V k, d r = rndd E F (V, k) /\ 2 ^ (6 * F - 1) <= V /\
      let '(m, e) := dot4_exact (d a0) (d a1) (d a2) (d a3) (d b0) (d b1) (d b2) (d b3) in cmp_num V k m e <> Gt /\ cmp_num m e (V + 3) k = Lt) /\
    (far_count F (snd (dmul (d a0) (d b0))) (snd (dmul (d a1) (d b1))) (snd (dmul (d a2) (d b2))) (snd (dmul (d a3) (d b3))) <= 1 \/ 3 * 2 ^ (E - 1) - 2 < 4 * F ->
     d r = dot4_spec E F (d a0) (d a1) (d a2) (d a3) (d b0) (d b1) (d b2) (d b3)).
Proof.
  intros HE HF Hw Hw' A0 A1 A2 A3 B0 B1 B2 B3 d P0 P1 P2 P3 Q0 Q1 Q2 Q3.
  destruct (dot4_ok E F a0 a1 a2 a3 b0 b1 b2 b3) as (r & V & k & R & W & D & L & X & N); try assumption.
  exists r. split; [intros K HK; rewrite (dot4_same E F w); assumption|]. split; [exact W|]. split; [exists V, k; split; [exact D|split; [exact L|exact X]]|].
  intros [H|H]; [exact (N H)|]. destruct (dot4_narrow E F a0 a1 a2 a3 b0 b1 b2 b3) as (r' & R' & _ & D'); try assumption. rewrite R in R'. injection R' as <-. exact D'.
Qed.
Lemma dot2_words E F a0 a1 b0 b1 : 128 < 2 * F + 4 -> run word_sem (dot2_prog E F a0 a1 b0 b1) = None.
Proof. intro H. unfold dot2_prog. cbv zeta. repeat match goal with |- run _ (pbind (dot2_full_prog _ _) _) = None => apply stop_bind; unfold dot2_full_prog | |- _ => sk end. Qed.
Lemma dot4_words E F a0 a1 a2 a3 b0 b1 b2 b3 : 128 < 6 * F + 3 -> run word_sem (dot4_prog E F a0 a1 a2 a3 b0 b1 b2 b3) = None.
Proof.
  intro H. unfold dot4_prog. cbv zeta.
  repeat match goal with |- run _ (pbind (dot4_sum_prog _ _ _ _ _ _ _ _ _ _) _) = None => apply stop_bind; unfold dot4_sum_prog; cbv zeta | |- run _ (pbind (dot4_full_prog _ _ _) _) = None => apply stop_bind; unfold dot4_full_prog | |- _ => sk end.
Qed.
Lemma dot_no_conv E F a0 a1 a2 a3 b0 b1 b2 b3 : run (ac_sem false) (dot2_prog E F a0 a1 b0 b1) = None /\ run (ac_sem false) (dot4_prog E F a0 a1 a2 a3 b0 b1 b2 b3) = None.
Proof.
  split.
  - unfold dot2_prog. cbv zeta. repeat match goal with |- run _ (pbind (dot2_norm_prog _ _ _ _) _) = None => apply stop_bind; unfold dot2_norm_prog | |- _ => sk end.
  - unfold dot4_prog. cbv zeta. repeat match goal with |- run _ (pbind (rotate4_prog _ _ _ _ _ _) _) = None => apply stop_bind; unfold rotate4_prog | |- _ => sk end.
Qed.
Lemma dot_words E F a0 a1 a2 a3 b0 b1 b2 b3 :
  (128 < 2 * F + 4 -> run word_sem (dot2_prog E F a0 a1 b0 b1) = None) /\ (128 < 6 * F + 3 -> run word_sem (dot4_prog E F a0 a1 a2 a3 b0 b1 b2 b3) = None).
Proof. split; [apply dot2_words|apply dot4_words]. Qed.
