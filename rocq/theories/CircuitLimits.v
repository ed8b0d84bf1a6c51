(** Where a back end does not provide an operator at all. *)
From Coq Require Import ZArith Bool List Lia.
From Verif Require Import Fw FwLemmas Flopoco AddSingle Div Circuit CircuitProofs CircuitMul CircuitMulProofs CircuitAdd CircuitAddProofs CircuitDiv CircuitDivProofs.
Import ListNotations.
Open Scope Z_scope.

Lemma stop {A} K o (k : Z -> prog A) : K o = None -> run K (Do o k) = None.
Proof. intro H. cbn [run]. now rewrite H. Qed.
Lemma skip {A} K o (k : Z -> prog A) : (forall r, run K (k r) = None) -> run K (Do o k) = None.
Proof. intro H. cbn [run]. destruct (K o); auto. Qed.
Lemma skip_bind {A B} K (p : prog A) (f : A -> prog B) : (forall a, run K (f a) = None) -> run K (pbind p f) = None.
Proof. intro H. rewrite run_bind. destruct (run K p); cbn; auto. Qed.
Lemma stop_bind {A B} K (p : prog A) (f : A -> prog B) : run K p = None -> run K (pbind p f) = None.
Proof. intro H. rewrite run_bind, H. reflexivity. Qed.
Lemma too_wide o : 128 < op_widest o -> word_sem o = None.
Proof. intro H. unfold word_sem. rewrite (proj2 (Z.leb_gt _ _) H). reflexivity. Qed.
Ltac sk :=
  match goal with
  | |- run _ (Do _ _) = None => first [apply stop; first [reflexivity | apply too_wide; cbn [op_widest op_width]; lia] | apply skip; intro]
  | |- run _ (pbind ?p _) = None => apply skip_bind; intro
  end.
Lemma mul_words wER wFR wE wFX wFY X Y : 128 < wFX + wFY + 2 -> run word_sem (mul_prog wER wFR wE wFX wFY X Y) = None.
Proof. intro H. unfold mul_prog. cbv zeta. repeat sk. Qed.
Lemma add_words wER wFR wEX wFX wEY wFY x y : 128 < 2 * Z.max wFX wFY + 4 -> run word_sem (add_prog wER wFR wEX wFX wEY wFY x y) = None.
Proof.
  intro H. unfold add_prog. cbv zeta. rewrite !AddAltProofs2.ctMax_eq. do 3 sk. apply stop_bind. generalize dependent (Z.max wFX wFY). intros wF H. unfold add_align_prog. cbv zeta.
  repeat match goal with |- run _ (pbind (p_zpad_lo _ _ _) _) = None => apply stop_bind; unfold p_zpad_lo | |- _ => sk end.
Qed.
Lemma add_no_conv wER wFR wEX wFX wEY wFY x y : run (ac_sem false) (add_prog wER wFR wEX wFX wEY wFY x y) = None.
Proof. unfold add_prog. cbv zeta. do 3 sk. apply stop_bind. unfold add_align_prog. cbv zeta. repeat match goal with |- run _ (pbind (p_lut _ _ _ _) _) = None => apply stop_bind; unfold p_lut | |- _ => sk end. Qed.
Lemma div_no_conv wER wFR wEX wFX wEY wFY x y : 1 <= wFX -> run (ac_sem false) (div_prog wER wFR wEX wFX wEY wFY x y) = None.
Proof.
  intro H. unfold div_prog. cbv zeta. rewrite !AddAltProofs2.ctMax_eq. do 3 sk. assert (HF : 1 <= Z.max wFR (Z.max wFX wFY)) by lia. generalize dependent (Z.max wFR (Z.max wFX wFY)). intros wF HF.
  pose proof (digits wF HF) as [D _]. unfold div_body_prog. cbv zeta. assert (N : exists n, Z.to_nat ((wF + 6) / 2 - 1) = S n) by (exists (pred (Z.to_nat ((wF + 6) / 2 - 1))); lia). destruct N as [n ->].
  repeat match goal with |- run _ (pbind (div_loop_prog _ _ _ _ _ _) _) = None => apply stop_bind; cbn [div_loop_prog]; apply stop_bind; unfold div_step_prog | |- _ => sk end.
Qed.
