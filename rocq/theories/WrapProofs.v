(** The operators and conversions of fp_flopoco_wrapper. *)
From Coq Require Import ZArith List Bool Lia.
From Verif Require Import Fw Spec Flopoco Ieee Mul AddDual AddDualProofs Div App PropsMul PropsAddDual PropsDiv PropsFlopoco PropsIeee.
Open Scope Z_scope.

Lemma wrap_ops E F x y : dual_ok_width E F -> wf (E + F + 3) x -> wf (E + F + 3) y ->
  (exists r, fl_add E F x y = Some r /\ wf (E + F + 3) r /\ decode E F r = add_spec E F (decode E F x) (decode E F y)) /\
  (exists r, fl_mul E F x y = Some r /\ wf (E + F + 3) r /\ decode E F r = mul_spec E F (decode E F x) (decode E F y)) /\
  (exists r, fl_div E F x y = Some r /\ wf (E + F + 3) r /\ decode E F r = div_spec E F (decode E F x) (decode E F y)).
Proof.
  intros H Wx Wy. assert (H' := H). destruct H' as (HE & HF & _). split; [|split].
  - pose proof (C04_add_dual_correctly_rounded_partial E F E F x y) as P. cbv zeta in P. rewrite !Z.max_id in P. apply P; try lia; try assumption.
  - apply C01_mul_correctly_rounded; (assumption || lia).
  - apply C06_div_correctly_rounded; (assumption || lia).
Qed.
Lemma wrap_cmp E F x y : 1 <= E -> 1 <= F -> wf (E + F + 3) x -> wf (E + F + 3) y -> ~ (exists s, decode E F x = Inf s /\ decode E F y = Inf s) ->
  let dx := decode E F x in let dy := decode E F y in
  fl_cmp less_than E F x y = Some (lt_spec dx dy) /\ fl_cmp less_than_equal E F x y = Some (le_spec dx dy) /\
  fl_cmp greater_than E F x y = Some (gt_spec dx dy) /\ fl_cmp greater_than_equal E F x y = Some (ge_spec dx dy) /\
  fl_cmp equal E F x y = Some (eq_spec dx dy) /\ fl_cmp not_equal E F x y = Some (negb (eq_spec dx dy)).
Proof.
  intros HE HF Wx Wy N dx dy. assert (B : forall b, to_bool (Z.b2z b) = b) by (intros []; reflexivity).
  destruct (C11_comparisons_ieee_order_partial E F E F x y HE HF HE HF Wx Wy N) as (A1 & A2 & A3 & A4 & A5 & A6).
  unfold fl_cmp. rewrite A1, A2, A3, A4, A5, A6. cbn [bind]. rewrite !B. repeat split; reflexivity.
Qed.
Lemma wrap_convert E F x : (to_fl E F x <> None <-> E = 8 /\ F = 23) /\ (of_fl E F x <> None <-> E = 8 /\ F = 23).
Proof.
  unfold to_fl, of_fl. split; split.
  - intros H. destruct (8 <=? E) eqn:A; [|contradiction H; reflexivity]. destruct (23 <=? F) eqn:B; [|contradiction H; reflexivity]. destruct ((E =? 8) && (F =? 23)) eqn:C; [lia|contradiction H; reflexivity].
  - intros [-> ->]. discriminate.
  - intros H. destruct (E <=? 8) eqn:A; [|contradiction H; reflexivity]. destruct (F <=? 23) eqn:B; [|contradiction H; reflexivity]. destruct ((E =? 8) && (F =? 23)) eqn:C; [lia|contradiction H; reflexivity].
  - intros [-> ->]. discriminate.
Qed.
