(** Representable results are returned exactly: proofs for C75. *)
From Coq Require Import ZArith Bool Lia Reals Lra.
From Flocq Require Import Core Sterbenz.
From Verif Require Import Fw FwLemmas Spec SpecLemmas SpecFma SpecFlocq SpecReal SpecOrder Flopoco CompareProofs FlopocoProofs ConvertProofs Mul MulProofs Div DivProofs3 AddDual AddDualProofs AddDualProofs5 Fma FmaProofs Ieee IeeeProofs IeeeProofs2 RealProofs PolicyProofs PolicyProofs2 OrderProofs OrderSingle OrderProofs2 OrderProofs3.
From Verif Require ValueLemmas.
Open Scope Z_scope.

(** Two numbers of a format with the same real value are the same number. *)
Lemma num_unique F s m e t n f : 0 <= F -> 2 ^ F <= m < 2 ^ (F + 1) -> 2 ^ F <= n < 2 ^ (F + 1) -> rv (Num s m e) = rv (Num t n f) -> s = t /\ m = n /\ e = f.
Proof.
  intros HF M N Q. pose proof (pow2_pos F HF) as P. pose proof (rv_pos s m e ltac:(lia)) as P1. pose proof (rv_pos t n f ltac:(lia)) as P2.
  assert (ST : s = t). { destruct s, t; try reflexivity; lra. } subst t. split; [reflexivity|].
  assert (V : (IZR m * bpow radix2 e = IZR n * bpow radix2 f)%R) by (cbn [rv] in Q; destruct s; lra).
  assert (E : e = f). 2: { subst f. split; [|reflexivity]. pose proof (bpow_gt_0 radix2 e). apply Rmult_eq_reg_r in V; [|lra]. apply eq_IZR in V. exact V. }
  assert (B : forall k g, 2 ^ F <= k < 2 ^ (F + 1) -> Core.Raux.mag radix2 (IZR k * bpow radix2 g) = F + g + 1 :> Z).
  { intros k g [K1 K2]. apply mag_unique_pos. replace (F + g + 1 - 1) with (F + g) by lia. split.
    - rewrite bpow_plus. apply Rmult_le_compat_r; [apply bpow_ge_0|]. rewrite <- pow_bpow by lia. apply IZR_le. exact K1.
    - replace (F + g + 1) with (F + 1 + g) by lia. rewrite (bpow_plus radix2 (F + 1) g). apply Rmult_lt_compat_r; [apply bpow_gt_0|]. rewrite <- pow_bpow by lia. apply IZR_lt. exact K2. }
  pose proof (B m e M) as B1. pose proof (B n f N) as B2. rewrite V, B2 in B1. lia.
Qed.
(** Rounding a real that is a number of the format gives that number. *)
Lemma rounded_exact E F x v w : 1 <= E -> 1 <= F -> finite_v (decode E F w) -> x = rv (decode E F w) -> rounded (emin E) (emax E) F x v ->
  finite_v v /\ rv v = x.
Proof.
  intros HE HF FW -> R. pose proof (dec_fmt E F F w HE ltac:(lia)) as G. unfold rounded in R. cbv zeta in R. assert (PR : Prec_gt_0 (F + 1)) by (unfold Prec_gt_0; lia). rewrite round_generic in R; [|apply valid_rnd_N|exact G].
  pose proof (bpow_gt_0 radix2 (emin E)) as B. pose proof (or_em E HE) as EM. pose proof (bpow_le radix2 (emin E) (emax E + 1) ltac:(lia)) as BL.
  destruct (decode E F w) as [|a|a|a m e] eqn:D; try contradiction.
  - cbn [rv] in *. rewrite Rabs_R0 in R. destruct v as [|t|t|t n f]; [contradiction|exfalso; lra|split; [exact I|reflexivity]|exfalso; lra].
  - pose proof (dec_clamp E F w HE HF ltac:(rewrite D; eauto)) as C. rewrite D in C. unfold clamp in C. destruct C as [_ [C1 C2]]. destruct v as [|t|t|t n f]; [contradiction|exfalso; lra|exfalso; lra|]. split; [exact I|]. apply R.
Qed.
Lemma word_unique E F r w s m e : 1 <= E -> 1 <= F -> wf (E + F + 3) r -> wf (E + F + 3) w -> decode E F r = Num s m e -> decode E F w = Num s m e -> r = w.
Proof.
  intros HE HF Wr Ww Dr Dw. assert (X : forall x, wf (E + F + 3) x -> decode E F x = Num s m e -> x = (e + bias E + F) * 2 ^ F + (m - 2 ^ F) + Z.b2z s * 2 ^ (E + F) + 2 ^ (E + F + 1)).
  { intros x Wx D. unfold decode in D. cbv zeta in D. destruct (x / 2 ^ (E + F + 1) =? 0); [discriminate|]. destruct (x / 2 ^ (E + F + 1) =? 1) eqn:Q; [|destruct (x / 2 ^ (E + F + 1) =? 2); discriminate]. apply Z.eqb_eq in Q.
    pose proof (f_equal (fun v => match v with Num a _ _ => a | _ => true end) D) as D1. pose proof (f_equal (fun v => match v with Num _ a _ => a | _ => 0 end) D) as D2. pose proof (f_equal (fun v => match v with Num _ _ a => a | _ => 0 end) D) as D3. cbv beta iota in D1, D2, D3. clear D.
    pose proof (pow2_pos F ltac:(lia)) as PF. pose proof (pow2_pos E ltac:(lia)) as PE. assert (P1 : 2 ^ (E + F) = 2 ^ F * 2 ^ E) by (rewrite Z.pow_add_r by lia; ring). assert (P2 : 2 ^ (E + F + 1) = 2 ^ (E + F) * 2) by (rewrite Z.pow_add_r by lia; ring).
    pose proof (Z.div_mod x (2 ^ F) ltac:(lia)) as A1. pose proof (Z.div_mod (x / 2 ^ F) (2 ^ E) ltac:(lia)) as A2. rewrite Z.div_div in A2 by lia. rewrite <- P1 in A2. pose proof (Z.div_mod (x / 2 ^ (E + F)) 2 ltac:(lia)) as A3. rewrite Z.div_div in A3 by lia. rewrite <- P2, Q in A3. rewrite Zmod_odd in A3. rewrite D1 in A3.
    assert (BZ : Z.b2z s = if s then 1 else 0) by (destruct s; reflexivity). rewrite BZ. rewrite P2. nia. }
  rewrite (X r Wr Dr), (X w Ww Dw). reflexivity.
Qed.
Definition exact_result (E F : Z) (x : R) (r : Z) : Prop := finite_v (decode E F r) /\ rv (decode E F r) = x.
Lemma exact_word E F r w : 1 <= E -> 1 <= F -> wf (E + F + 3) r -> wf (E + F + 3) w -> finite_v (decode E F w) -> rv (decode E F w) <> 0%R -> exact_result E F (rv (decode E F w)) r -> r = w.
Proof.
  intros HE HF Wr Ww FW NZ [Fr Q]. destruct (decode E F w) as [|a|a|a m e] eqn:Dw; try contradiction.
  destruct (decode E F r) as [|t|t|t n f] eqn:Dr; try contradiction. { exfalso. apply NZ. rewrite <- Q. reflexivity. }
  destruct (dec_num E F w a m e HE HF Dw) as [M _]. destruct (dec_num E F r t n f HE HF Dr) as [N _]. destruct (num_unique F t n f a m e ltac:(lia) N M Q) as [Q1 [Q2 Q3]]. rewrite Q1, Q2, Q3 in Dr. exact (word_unique E F r w a m e HE HF Wr Ww Dr Dw).
Qed.
Lemma x_add EX FX EY FY x y w : let E := Z.max EX EY in let F := Z.max FX FY in 1 <= EX -> 1 <= FX -> 1 <= EY -> 1 <= FY -> dual_ok_width E F -> wf (EX + FX + 3) x -> wf (EY + FY + 3) y -> wf (E + F + 3) w ->
  finite_v (decode EX FX x) -> finite_v (decode EY FY y) -> finite_v (decode E F w) -> (rv (decode EX FX x) + rv (decode EY FY y) = rv (decode E F w))%R ->
  exists r, add_dual E F EX FX EY FY x y = Some r /\ finite_v (decode E F r) /\ rv (decode E F r) = rv (decode E F w) /\ (rv (decode E F w) <> 0%R -> r = w).
Proof.
  intros E F H1 H2 H3 H4 OK Wx Wy Ww Fx Fy Fw Q. destruct (add_r EX FX EY FY x y H1 H2 H3 H4 OK Wx Wy Fx Fy) as [r [Ar [Wr R]]]. fold E F in Wr, R. exists r. split; [exact Ar|]. assert (1 <= E /\ 1 <= F) as [HE HF] by (unfold E, F; lia). clearbody E F.
  destruct (rounded_exact E F _ _ w HE HF Fw Q R) as [A B]. rewrite Q in B. split; [exact A|]. split; [exact B|]. intros NZ. apply (exact_word E F r w); try assumption. split; assumption.
Qed.
Lemma x_mul wE wFR wFX wFY x y w : 2 <= wE -> 1 <= wFX -> 1 <= wFY -> 1 <= wFR < wFX + wFY + 1 -> wf (wE + wFX + 3) x -> wf (wE + wFY + 3) y -> wf (wE + wFR + 3) w ->
  finite_v (decode wE wFX x) -> finite_v (decode wE wFY y) -> finite_v (decode wE wFR w) -> (rv (decode wE wFX x) * rv (decode wE wFY y) = rv (decode wE wFR w))%R ->
  exists r, mul wE wFR wE wFX wFY x y = Some r /\ finite_v (decode wE wFR r) /\ rv (decode wE wFR r) = rv (decode wE wFR w) /\ (rv (decode wE wFR w) <> 0%R -> r = w).
Proof.
  intros HE HX HY HR Wx Wy Ww Fx Fy Fw Q. destruct (mul_r wE wFR wFX wFY x y HE HX HY HR Wx Wy Fx Fy) as [r [Ar [Wr R]]]. exists r. split; [exact Ar|].
  destruct (rounded_exact wE wFR _ _ w ltac:(lia) ltac:(lia) Fw Q R) as [A B]. rewrite Q in B. split; [exact A|]. split; [exact B|]. intros NZ. apply (exact_word wE wFR r w); try assumption; try lia. split; assumption.
Qed.
Lemma x_div wER wFR wEX wFX wEY wFY x y w : 1 <= wEX <= wER -> 1 <= wEY <= wER -> 2 <= wER -> 1 <= wFX <= wFR -> 1 <= wFY <= wFR -> wf (wEX + wFX + 3) x -> wf (wEY + wFY + 3) y -> wf (wER + wFR + 3) w ->
  finite_v (decode wEX wFX x) -> finite_v (decode wEY wFY y) -> rv (decode wEY wFY y) <> 0%R -> finite_v (decode wER wFR w) -> (rv (decode wEX wFX x) / rv (decode wEY wFY y) = rv (decode wER wFR w))%R ->
  exists r, div wER wFR wEX wFX wEY wFY x y = Some r /\ finite_v (decode wER wFR r) /\ rv (decode wER wFR r) = rv (decode wER wFR w) /\ (rv (decode wER wFR w) <> 0%R -> r = w).
Proof.
  intros H1 H2 H3 H4 H5 Wx Wy Ww Fx Fy NY Fw Q. destruct (div_r wER wFR wEX wFX wEY wFY x y H1 H2 H3 H4 H5 Wx Wy Fx Fy NY) as [r [Ar [Wr R]]]. exists r. split; [exact Ar|].
  destruct (rounded_exact wER wFR _ _ w ltac:(lia) ltac:(lia) Fw Q R) as [A B]. rewrite Q in B. split; [exact A|]. split; [exact B|]. intros NZ. apply (exact_word wER wFR r w); try assumption; try lia. split; assumption.
Qed.
