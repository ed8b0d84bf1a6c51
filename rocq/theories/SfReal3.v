(** The statements of C77 in terms of SoftFloat's own comparisons. *)
From Coq Require Import ZArith Bool Lia Reals Lra.
From Verif Require Import Fw Spec Spec754 SpecFlocq SpecReal SpecFlocq754 SpecSf754 Sf754Lemmas SoftFloat SfProofs10 SfReal1 SfReal2.
Open Scope Z_scope.

Section Cmp.
Context (E F : Z) (HE : 4 <= E <= 15) (HF : 1 <= F).
Notation W := (E + F + 1).
Notation dec := (decode754 E F).
Notation rl x := (rv (decode754 E F x)).
Notation okw := (okw E F).
Context (le lt eq : Z -> Z -> bool).
Context (LE : forall a b, okw a -> okw b -> le a b = le754 (dec a) (dec b)).
Context (LT : forall a b, okw a -> okw b -> lt a b = lt754 (dec a) (dec b)).
Context (EQ : forall a b, okw a -> okw b -> eq a b = eq754 (dec a) (dec b)).
Context (add mul dv : Z -> Z -> option Z) (ADD : op_ok E F add (add754 E F)) (MUL : op_ok E F mul (mul754 E F)) (DIV : op_ok E F dv (div754 E F)).
Lemma ok0 : okw 0.
Proof. unfold SfReal2.okw. split; [lia|]. apply Z.pow_pos_nonneg; lia. Qed.
Lemma dec0 : dec 0 = Zero false.
Proof. unfold decode754. rewrite !Z.div_0_l by (apply Z.pow_nonzero; lia). rewrite !Zmod_0_l. assert (Q : 2 ^ 1 < 2 ^ E) by (apply Z.pow_lt_mono_r; lia). destruct (Z.eqb_spec 0 (2 ^ E - 1)); [lia|]. reflexivity. Qed.
Lemma eq_nan r : okw r -> eq r r = true -> dec r <> NaN.
Proof. intros H K N. rewrite EQ, N in K by assumption. discriminate. Qed.
Lemma t_add_order a b c : okw a -> okw b -> okw c -> le a b = true -> exists r s, add a c = Some r /\ add b c = Some s /\ (eq r r = true -> eq s s = true -> le r s = true).
Proof.
  intros Wa Wb Wc L. rewrite LE in L by assumption. destruct (s_add_order E F HE HF add ADD a b c Wa Wb Wc L) as [r [s [A [B K]]]]. exists r, s. split; [exact A|]. split; [exact B|].
  destruct (ADD a c Wa Wc) as [r' [A' [Wr _]]]. destruct (ADD b c Wb Wc) as [s' [B' [Ws _]]]. rewrite A in A'. rewrite B in B'. injection A' as <-. injection B' as <-. intros Er Es. rewrite LE by assumption. apply K; apply eq_nan; assumption.
Qed.
Lemma t_mul_order a b c : okw a -> okw b -> okw c -> le a b = true -> exists r s, mul a c = Some r /\ mul b c = Some s /\
  (eq r r = true -> eq s s = true -> (le 0 c = true -> le r s = true) /\ (le c 0 = true -> le s r = true)).
Proof.
  intros Wa Wb Wc L. rewrite LE in L by assumption. destruct (s_mul_order E F HE HF mul MUL a b c Wa Wb Wc L) as [r [s [A [B K]]]]. exists r, s. split; [exact A|]. split; [exact B|].
  destruct (MUL a c Wa Wc) as [r' [A' [Wr _]]]. destruct (MUL b c Wb Wc) as [s' [B' [Ws _]]]. rewrite A in A'. rewrite B in B'. injection A' as <-. injection B' as <-. intros Er Es. pose proof ok0 as W0. rewrite !LE by assumption. rewrite dec0. apply K; apply eq_nan; assumption.
Qed.
Lemma t_div_order a b c : okw a -> okw b -> okw c -> le a b = true -> lt 0 c = true -> exists r s, dv a c = Some r /\ dv b c = Some s /\ (eq r r = true -> eq s s = true -> le r s = true).
Proof.
  intros Wa Wb Wc L C. rewrite LE in L by assumption. rewrite LT, dec0 in C by (try apply ok0; assumption). destruct (s_div_order E F HE HF dv DIV a b c Wa Wb Wc L C) as [r [s [A [B K]]]]. exists r, s. split; [exact A|]. split; [exact B|].
  destruct (DIV a c Wa Wc) as [r' [A' [Wr _]]]. destruct (DIV b c Wb Wc) as [s' [B' [Ws _]]]. rewrite A in A'. rewrite B in B'. injection A' as <-. injection B' as <-. intros Er Es. rewrite LE by assumption. apply K; apply eq_nan; assumption.
Qed.
Lemma eq_real x y : okw x -> okw y -> finite_v (dec x) -> finite_v (dec y) -> (eq x y = true <-> rl x = rl y).
Proof.
  intros Wx Wy Fx Fy. rewrite EQ by assumption. unfold eq754. rewrite cmp754_real by (apply (num_w E F HF); assumption). destruct (Raux.Rcompare_spec (rl x) (rl y)); split; intros; try discriminate; try lra; reflexivity.
Qed.
Lemma t_sub_zero x y : okw x -> okw y -> finite_v (dec x) -> finite_v (dec y) -> exists r, add x (flip W y) = Some r /\ (eq r 0 = true <-> eq x y = true).
Proof.
  intros Wx Wy Fx Fy. destruct (s_sub_zero E F HE HF add ADD x y Wx Wy Fx Fy) as [r [A [B K]]]. exists r. split; [exact A|]. rewrite (eq_real x y) by assumption. rewrite <- K. pose proof ok0 as W0. split.
  - intros Z. assert (FR : finite_v (dec r)). { rewrite EQ, dec0 in Z by assumption. destruct (dec r) as [|[]|s|s m e]; try discriminate; exact I. } split; [|exact FR]. apply eq_real in Z; try assumption; [rewrite Z, dec0; reflexivity|rewrite dec0; exact I].
  - intros [V FR]. apply eq_real; try assumption; [rewrite dec0; exact I|]. rewrite V, dec0. reflexivity.
Qed.
End Cmp.
