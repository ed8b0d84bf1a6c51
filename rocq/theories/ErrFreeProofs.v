(** Error-free transformations; proofs for C76. *)
From Coq Require Import ZArith Bool Lia Reals Lra.
From Flocq Require Import Core Mult_error Pff2Flocq.
From Verif Require Import Fw FwLemmas Spec SpecLemmas SpecFma SpecFlocq SpecReal SpecOrder SpecErrFree Flopoco CompareProofs FlopocoProofs ConvertProofs Mul MulProofs Div DivProofs3 AddDual AddDualProofs AddDualProofs5 AddDualProofs6 Fma FmaProofs RealProofs OrderProofs OrderSingle OrderProofs2 OrderProofs3 ExactProofs ExactProofs2.
Open Scope Z_scope.

Notation flt lo F := (generic_format radix2 (FLT_exp lo (F + 1))).
Notation rt lo F := (round radix2 (FLT_exp lo (F + 1)) ZnearestE).
Lemma gf_ext (f g : Z -> Z) (x : R) : f (Raux.mag radix2 x) = g (Raux.mag radix2 x) -> generic_format radix2 f x -> generic_format radix2 g x.
Proof. unfold generic_format, scaled_mantissa, cexp. intros ->. exact (fun h => h). Qed.
Lemma coarse_fix lo x : coarse lo x -> generic_format radix2 (FIX_exp lo) x.
Proof. intros [k K]. apply generic_format_FIX. exists (Float radix2 k lo); [exact K|reflexivity]. Qed.
Lemma flt_of lo F x : coarse lo x -> fmt F x -> flt lo F x.
Proof.
  intros C G. destruct (Z.max_spec (Raux.mag radix2 x - (F + 1)) lo) as [[_ M] | [_ M]].
  - apply (gf_ext (FIX_exp lo)); [unfold FIX_exp, FLT_exp; lia|apply coarse_fix; exact C].
  - apply (gf_ext (FLX_exp (F + 1))); [unfold FLX_exp, FLT_exp; lia|exact G].
Qed.
Lemma flt_fmt lo F x : 0 <= F -> flt lo F x -> fmt F x.
Proof. intros HF. unfold fmt. apply generic_inclusion_mag. intros _. unfold FLX_exp, FLT_exp. lia. Qed.
Lemma flt_coarse lo F x : 0 <= F -> flt lo F x -> coarse lo x.
Proof.
  intros HF G. assert (PR : Prec_gt_0 (F + 1)) by (unfold Prec_gt_0; lia). apply generic_format_FIX_FLT in G. apply FIX_format_generic in G. destruct G as [f A B]. exists (Fnum f). rewrite A. unfold F2R. rewrite B. reflexivity.
Qed.
Lemma small_flt lo F x : 0 <= F -> coarse lo x -> (Rabs x < bpow radix2 (lo + (F + 1)))%R -> flt lo F x.
Proof.
  intros HF C B. destruct (Req_dec x 0) as [-> | N]; [apply generic_format_0|]. apply (gf_ext (FIX_exp lo)); [|apply coarse_fix; exact C].
  pose proof (mag_le_bpow radix2 x (lo + (F + 1)) N B). unfold FIX_exp, FLT_exp. lia.
Qed.
Lemma round_coarse lo F x : 0 <= F -> coarse lo x -> rn F x = rt lo F x.
Proof.
  intros HF C. assert (PR : Prec_gt_0 (F + 1)) by (unfold Prec_gt_0; lia). destruct (Rlt_or_le (Rabs x) (bpow radix2 (lo + (F + 1)))) as [B | B].
  - pose proof (small_flt lo F x HF C B) as G. rewrite !round_generic; try reflexivity; try apply valid_rnd_N; [exact G|]. apply (flt_fmt lo); assumption.
  - symmetry. apply round_FLT_FLX. apply Rle_trans with (2 := B). apply bpow_le. lia.
Qed.
Lemma flt_opp lo F x : flt lo F x -> flt lo F (- x).
Proof. apply generic_format_opp. Qed.
Lemma choice_ok : forall x : Z, negb (Z.even x) = negb (negb (Z.even (- (x + 1)))).
Proof. intros x. rewrite Z.even_opp, Z.even_add. cbn. destruct (Z.even x); reflexivity. Qed.
Lemma emin_neg E : 1 <= E -> emin E <= 0.
Proof. intros H. unfold emin, bias. pose proof (pow2_pos (E - 1) ltac:(lia)). lia. Qed.
(** The product of two numbers of the format, as a multiple of 2^emin when it is large enough. *)
Lemma num_split E F x : 1 <= E -> 1 <= F -> finite_v (decode E F x) -> real E F x <> 0%R -> exists s m e, decode E F x = Num s m e /\ 2 ^ F <= m < 2 ^ (F + 1).
Proof.
  intros HE HF FX N. destruct (decode E F x) as [|a|a|a m e] eqn:D; try contradiction. exists a, m, e. split; [reflexivity|]. apply (dec_num E F x a m e); assumption.
Qed.
Lemma rv_signed s m e : rv (Num s m e) = (IZR (sgn s m) * bpow radix2 e)%R.
Proof. rewrite rv_sgn. destruct s; cbn [sgnR sgn]; [rewrite opp_IZR; ring|reflexivity]. Qed.
Lemma prod_coarse E F x y : 1 <= E -> 1 <= F -> finite_v (decode E F x) -> finite_v (decode E F y) -> (real E F x * real E F y = 0)%R \/ (bpow radix2 (emin E + 2 * F + 1) <= Rabs (real E F x * real E F y))%R ->
  coarse (emin E) (real E F x * real E F y).
Proof.
  intros HE HF Fx Fy H. destruct (Req_dec (real E F x * real E F y) 0) as [Z | N]; [exists 0; rewrite Z; ring|]. destruct H as [H | H]; [contradiction|].
  destruct (num_split E F x HE HF Fx) as [s [m [e [Dx Mx]]]]; [intros K; apply N; rewrite K; ring|]. destruct (num_split E F y HE HF Fy) as [t [n [f [Dy My]]]]; [intros K; apply N; rewrite K; ring|].
  rewrite Dx, Dy, !rv_signed in *. pose proof (pow2_pos F ltac:(lia)) as P.
  replace (IZR (sgn s m) * bpow radix2 e * (IZR (sgn t n) * bpow radix2 f))%R with (IZR (sgn s m * sgn t n) * bpow radix2 (e + f))%R in * by (rewrite mult_IZR, bpow_plus; ring).
  assert (A : Z.abs (sgn s m * sgn t n) = m * n) by (rewrite Z.abs_mul; destruct s, t; cbn [sgn]; lia).
  rewrite Rabs_mult, (Rabs_pos_eq (bpow radix2 (e + f))), <- abs_IZR, A in H by apply bpow_ge_0.
  assert (L : (IZR (m * n) * bpow radix2 (e + f) < bpow radix2 (2 * F + 2 + (e + f)))%R). { rewrite (bpow_plus radix2 (2 * F + 2) (e + f)). apply Rmult_lt_compat_r; [apply bpow_gt_0|]. rewrite <- pow_bpow by lia. apply IZR_lt. replace (2 * F + 2) with ((F + 1) + (F + 1)) by lia. rewrite (Z.pow_add_r 2 (F + 1) (F + 1)) by lia. nia. }
  assert (K : (bpow radix2 (emin E + 2 * F + 1) < bpow radix2 (2 * F + 2 + (e + f)))%R) by lra. apply lt_bpow in K.
  exists (sgn s m * sgn t n * 2 ^ (e + f - emin E)). rewrite (mult_IZR _ (2 ^ _)), pow_bpow by lia. rewrite Rmult_assoc, <- bpow_plus. f_equal. f_equal. lia.
Qed.
