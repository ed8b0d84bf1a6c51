(** The specifications of the operations on real numbers, by Flocq's rounding. *)
From Coq Require Import ZArith Bool Lia Reals Lra.
From Flocq Require Import Core.
From Verif Require Import Fw FwLemmas Spec SpecLemmas SpecFma SpecFlocq.
From Verif Require ValueLemmas.
Open Scope Z_scope.

(** v is x rounded to F+1 significant bits, to nearest even; below 2^lo in magnitude zero, from 2^(hi+1) on infinity, with
    the sign of x. *)
Definition rounded (lo hi F : Z) (x : R) (v : fval) : Prop :=
  let r := round radix2 (FLX_exp (F + 1)) ZnearestE x in
  match v with
  | Num t m e => (t = true <-> (x < 0)%R) /\ rv v = r /\ (bpow radix2 lo <= Rabs r < bpow radix2 (hi + 1))%R
  | Zero t => (x <> 0%R -> (t = true <-> (x < 0)%R)) /\ (Rabs r < bpow radix2 lo)%R
  | Inf t => (t = true <-> (x < 0)%R) /\ (bpow radix2 (hi + 1) <= Rabs r)%R
  | NaN => False
  end.
(** A value of a format: an exact number with a positive significand, or zero. *)
Definition number (x : fval) : Prop := match x with Num _ m _ => 0 < m | Zero _ => True | _ => False end.

Lemma rv_sgn s m e : rv (Num s m e) = sgnR s (IZR m * bpow radix2 e).
Proof. destruct s; reflexivity. Qed.
Lemma sgn_neg s x : (0 < x)%R -> (s = true <-> (sgnR s x < 0)%R).
Proof. intros H. destruct s; cbn [sgnR]; split; intros; try reflexivity; try lra; discriminate. Qed.
Lemma rounded_range lo hi F s n d k : 0 <= F -> lo <= hi -> 0 < n -> 0 < d -> rounded lo hi F (sgnR s (IZR n / IZR d * bpow radix2 k)) (round_range lo hi F s n d k).
Proof.
  intros HF HL Hn Hd. pose proof (round_range_flocq lo hi F s n d k HF HL Hn Hd) as H. cbv zeta in H. unfold rounded. cbv zeta.
  assert (P : (0 < IZR n / IZR d * bpow radix2 k)%R). { apply Rmult_lt_0_compat; [|apply bpow_gt_0]. apply Rdiv_lt_0_compat; apply IZR_lt; assumption. }
  destruct (round_range lo hi F s n d k) as [|t|t|t m e]; [exact H|..].
  - destruct H as [-> H]. split; [apply sgn_neg; exact P|exact H].
  - destruct H as [-> H]. split; [intros _; apply sgn_neg; exact P|apply H].
  - destruct H as [-> [M [E H]]]. split; [apply sgn_neg; exact P|]. split; [exact H|]. rewrite <- H. rewrite rv_sgn.
    assert (X : Rabs (sgnR s (IZR m * bpow radix2 e)) = (IZR m * bpow radix2 e)%R). { pose proof (bpow_gt_0 radix2 e). assert (0 < IZR m)%R by (apply IZR_lt; pose proof (pow2_pos F HF); lia). assert (0 < IZR m * bpow radix2 e)%R by (apply Rmult_lt_0_compat; assumption). destruct s; cbn [sgnR]; rewrite ?Rabs_Ropp; apply Rabs_pos_eq; lra. }
    rewrite X. destruct M as [M1 M2]. split.
    + apply Rle_trans with (bpow radix2 (F + e)); [apply bpow_le; lia|]. rewrite bpow_plus. apply Rmult_le_compat_r; [apply bpow_ge_0|]. rewrite <- pow_bpow by lia. apply IZR_le. exact M1.
    + apply Rlt_le_trans with (bpow radix2 (F + 1 + e)); [|apply bpow_le; lia]. rewrite (bpow_plus radix2 (F + 1) e). apply Rmult_lt_compat_r; [apply bpow_gt_0|]. rewrite <- pow_bpow by lia. apply IZR_lt. exact M2.
Qed.
Lemma rounded_eq lo hi F x y v : x = y -> rounded lo hi F x v -> rounded lo hi F y v.
Proof. intros ->. auto. Qed.
Lemma rounded_zero lo hi F t x : x = 0%R -> rounded lo hi F x (Zero t).
Proof. intros ->. unfold rounded. split; [intros H; exfalso; apply H; reflexivity|]. rewrite round_0 by (apply valid_rnd_N). rewrite Rabs_R0. apply bpow_gt_0. Qed.
Section Ops.
Context (lo hi F : Z) (HF : 0 <= F) (HL : lo <= hi).
Notation rnd := (round_range lo hi F).
Lemma mul_real x y : number x -> number y -> rounded lo hi F (rv x * rv y) (mul_gen rnd x y).
Proof.
  intros Hx Hy. destruct x as [| |s|s m e]; try contradiction; destruct y as [| |t|t n f]; try contradiction; try (apply rounded_zero; cbn [rv]; ring).
  cbn [number] in *. cbn [mul_gen]. eapply rounded_eq; [|apply rounded_range; nia]. rewrite !rv_sgn. rewrite mult_IZR, bpow_plus. destruct s, t; cbn [xorb sgnR]; field.
Qed.
Lemma div_real x y : number x -> number y -> rv y <> 0%R -> rounded lo hi F (rv x / rv y) (div_gen rnd x y).
Proof.
  intros Hx Hy N. destruct y as [| |t|t n f]; try contradiction. destruct x as [| |s|s m e]; try contradiction. { apply rounded_zero. cbn [rv]. unfold Rdiv. ring. }
  cbn [number] in *. cbn [div_gen]. eapply rounded_eq; [|apply rounded_range; lia]. rewrite !rv_sgn. unfold Z.sub. rewrite bpow_plus, bpow_opp. assert (IZR n <> 0)%R by (apply IZR_neq; lia). pose proof (bpow_gt_0 radix2 f). destruct s, t; cbn [xorb sgnR]; field; split; lra.
Qed.
Lemma convert_real x : number x -> rounded lo hi F (rv x) (convert_gen rnd x).
Proof.
  intros Hx. destruct x as [| |s|s m e]; try contradiction; [apply rounded_zero; reflexivity|]. cbn [number] in *. cbn [convert_gen]. eapply rounded_eq; [|apply rounded_range; lia]. rewrite rv_sgn. destruct s; cbn [sgnR]; field.
Qed.
Lemma sgn_real s m e k : k <= e -> rv (Num s m e) = (IZR (sgn s (m * 2 ^ (e - k))) * bpow radix2 k)%R.
Proof.
  intros H. rewrite rv_sgn. replace e with (e - k + k) at 1 by lia. rewrite bpow_plus. unfold sgn, sgnR. destruct s; rewrite ?opp_IZR, mult_IZR, pow_bpow by lia; ring.
Qed.
Lemma add_real x y : number x -> number y -> rounded lo hi F (rv x + rv y) (add_gen rnd x y).
Proof.
  intros Hx Hy. destruct x as [| |s|s m e]; try contradiction; destruct y as [| |t|t n f]; try contradiction.
  - apply rounded_zero; cbn [rv]; ring.
  - apply (rounded_eq lo hi F (rv (Num t n f))); [cbn [rv]; destruct t; ring|]. apply (convert_real (Num t n f)). exact Hy.
  - apply (rounded_eq lo hi F (rv (Num s m e))); [cbn [rv]; destruct s; ring|]. apply (convert_real (Num s m e)). exact Hx.
  - cbn [add_gen]. cbv zeta. remember (Z.min e f) as k. rewrite (sgn_real s m e k), (sgn_real t n f k) by lia. rewrite <- Rmult_plus_distr_r, <- plus_IZR. remember (sgn s (m * 2 ^ (e - k)) + sgn t (n * 2 ^ (f - k))) as v.
    destruct (v =? 0) eqn:Q. { apply Z.eqb_eq in Q. rewrite Q. apply rounded_zero. ring. }
    apply Z.eqb_neq in Q. eapply rounded_eq; [|apply rounded_range; [assumption|assumption|lia|lia]]. destruct (v <? 0) eqn:S; cbn [sgnR].
    + rewrite Z.abs_neq by lia. rewrite opp_IZR. field.
    + rewrite Z.abs_eq by lia. field.
Qed.
End Ops.
Lemma prod_number x y : number x -> number y -> number (prod_exact x y) /\ rv (prod_exact x y) = (rv x * rv y)%R.
Proof.
  intros Hx Hy. destruct x as [| |s|s m e]; try contradiction; destruct y as [| |t|t n f]; try contradiction; try (split; [exact I|unfold prod_exact; cbn [mul_gen rv]; ring]).
  change (prod_exact (Num s m e) (Num t n f)) with (Num (xorb s t) (m * n) (e + f)). cbn [number] in *. split; [nia|]. rewrite !rv_sgn. rewrite mult_IZR, bpow_plus. destruct s, t; cbn [xorb sgnR]; ring.
Qed.
Lemma fma_real E F x y z : 0 <= F -> 1 <= E -> number x -> number y -> number z -> rounded (emin E) (emax E) F (rv x * rv y + rv z) (fma_spec E F x y z).
Proof.
  intros HF HE Hx Hy Hz. destruct (prod_number x y Hx Hy) as [P <-]. apply add_real; try assumption. unfold emin, emax, bias. pose proof (pow2_pos (E - 1) ltac:(lia)). lia.
Qed.
Lemma decode_number E F x : 1 <= E -> 1 <= F -> finite_v (decode E F x) -> number (decode E F x).
Proof. intros HE HF. pose proof (ValueLemmas.decode_pos E F x ltac:(lia)) as P. destruct (decode E F x); cbn in *; auto. Qed.
