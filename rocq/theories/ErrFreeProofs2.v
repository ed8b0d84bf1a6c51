(** Error-free transformations up to the top of the range; proofs for C76. *)
From Coq Require Import ZArith Bool Lia Reals Lra.
From Flocq Require Import Core Mult_error Sterbenz Pff2Flocq.
From Verif Require Import Fw FwLemmas Spec SpecLemmas SpecFma SpecFlocq SpecReal SpecOrder SpecErrFree Flopoco CompareProofs FlopocoProofs ConvertProofs Mul MulProofs AddDual AddDualProofs AddDualProofs5 AddDualProofs6 Fma FmaProofs RealProofs OrderProofs OrderSingle OrderProofs2 OrderProofs3 ExactProofs ExactProofs2 ErrFreeProofs ErrFreeReal.
Open Scope Z_scope.

Section Top.
Variables (E F : Z).
Hypothesis (OK : dual_ok_width E F) (LO : emin E + 1 <= emax E - F).
Let HE : 3 < E := proj1 (dual_EF E F OK).
Let HF : 1 <= F := proj2 (dual_EF E F OK).
Notation lo := (emin E).
Notation RT := (rt (emin E) F).
Notation FL := (flt (emin E) F).
Notation Om := (top (emax E) F).
Notation U := (lastp (emax E) F).
Let L0 : lo <= 0.
Proof. apply emin_neg. lia. Qed.

Lemma fin_cases w : finite_v (decode E F w) -> (Rabs (real E F w) = Om \/ Rabs (real E F w) <= Om - U)%R.
Proof.
  intros FW. destruct (decode E F w) as [|s|s|s m e] eqn:D; try contradiction.
  - cbn [rv]. rewrite Rabs_R0. replace 0%R with (IZR 0 * bpow radix2 (emax E - F))%R by ring. apply num_cases; pose proof (pow2_pos (F + 1) ltac:(lia)); lia.
  - destruct (dec_num E F w s m e ltac:(lia) HF D) as [M X]. rewrite rv_sgn. pose proof (pow2_pos F ltac:(lia)).
    replace (Rabs (sgnR s (IZR m * bpow radix2 e))) with (IZR m * bpow radix2 e)%R; [apply num_cases; lia|].
    assert (0 <= IZR m * bpow radix2 e)%R by (apply Rmult_le_pos; [apply IZR_le; lia|apply bpow_ge_0]). destruct s; cbn [sgnR]; [rewrite Rabs_Ropp|]; symmetry; apply Rabs_pos_eq; assumption.
Qed.
Lemma fin_le w : finite_v (decode E F w) -> (Rabs (real E F w) <= Om)%R.
Proof. intros H. pose proof (U_pos (emax E) F). destruct (fin_cases w H); lra. Qed.

Definition fin (w : Z) : Prop := wf (E + F + 3) w /\ finite_v (decode E F w) /\ FL (real E F w).
Lemma fin_coarse w : fin w -> coarse lo (real E F w).
Proof. intros [_ [_ H]]. apply (flt_coarse lo F); [lia|exact H]. Qed.
Lemma rounded_fin r v : wf (E + F + 3) r -> coarse lo v -> rounded lo (emax E) F v (decode E F r) ->
  finite_v (decode E F r) \/ (Rabs (RT v) < bpow radix2 (emax E + 1))%R -> fin r /\ real E F r = RT v.
Proof.
  intros W C R H. unfold rounded in R. cbv zeta in R. rewrite (round_coarse lo F v ltac:(lia) C) in R.
  assert (K : finite_v (decode E F r) /\ real E F r = RT v). { destruct (decode E F r) as [|t|t|t n f]; [contradiction|exfalso; destruct H as [H|H]; [exact H|lra]| |].
    - split; [exact I|]. destruct (Req_dec (RT v) 0) as [Z0|N]; [rewrite Z0; reflexivity|exfalso]. destruct R as [_ R]. pose proof (coarse_ge _ _ (flt_coarse lo F (RT v) ltac:(lia) (rt_flt lo F HF v)) N). lra.
    - split; [exact I|]. apply R. }
  destruct K as [K1 K2]. split; [|exact K2]. split; [exact W|]. split; [exact K1|]. rewrite K2. apply rt_flt; exact HF.
Qed.
Lemma add_fin x y : fin x -> fin y -> (Rabs (RT (real E F x + real E F y)) <= Om)%R ->
  exists r, fp_add E F x y = Some r /\ fin r /\ real E F r = RT (real E F x + real E F y).
Proof.
  intros Fx Fy H. destruct (add_same_r E F x y OK ltac:(apply Fx) ltac:(apply Fy) ltac:(apply Fx) ltac:(apply Fy)) as [r [A [W R]]]. exists r. split; [exact A|].
  apply rounded_fin; try assumption; [apply coarse_add; apply fin_coarse; assumption|]. right. pose proof (Om_lt (emax E) F HF). lra.
Qed.
Lemma sub_fin x y : fin x -> fin y -> (Rabs (RT (real E F x - real E F y)) <= Om)%R ->
  exists r, fp_sub E F x y = Some r /\ fin r /\ real E F r = RT (real E F x - real E F y).
Proof.
  intros Fx [Wy [Fy Ly]] H. destruct (neg_ok E F y ltac:(lia) HF Wy) as [n [A [W [Fn V]]]]. unfold fp_sub. rewrite A. cbv beta iota.
  destruct (add_fin x n Fx) as [r [Ar [Gr Vr]]]; [split; [exact W|]; split; [exact (Fn Fy)|]; rewrite V; apply flt_opp; exact Ly|rewrite V; exact H|].
  exists r. split; [exact Ar|]. split; [exact Gr|]. rewrite Vr, V. reflexivity.
Qed.
Lemma first x y a : fin x -> fin y -> fp_add E F x y = Some a -> finite_v (decode E F a) -> fin a /\ real E F a = RT (real E F x + real E F y).
Proof.
  intros Fx Fy A FA. destruct (add_same_r E F x y OK ltac:(apply Fx) ltac:(apply Fy) ltac:(apply Fx) ltac:(apply Fy)) as [r [A' [W R]]].
  unfold fp_add in A. rewrite A in A'. injection A' as <-. exact (rounded_fin a _ W (coarse_add _ _ _ (fin_coarse _ Fx) (fin_coarse _ Fy)) R (or_introl FA)).
Qed.
Lemma tiny_fin x : wf (E + F + 3) x -> not_tiny E F x -> fin x.
Proof.
  intros W [FX S]. split; [exact W|]. split; [exact FX|]. apply flt_of; [|apply dec_fmt; lia]. apply dec_coarse; try assumption; lia.
Qed.

Lemma fast_top x y a : fin x -> fin y -> (Rabs (real E F y) <= Rabs (real E F x))%R -> fp_add E F x y = Some a -> finite_v (decode E F a) ->
  exists b, fast_two_sum E F x y = Some (a, b) /\ finite_v (decode E F b) /\ (real E F a + real E F b = real E F x + real E F y)%R.
Proof.
  intros Fx Fy L A FA. destruct (first x y a Fx Fy A FA) as [Ga Va].
  pose proof (fin_le x ltac:(apply Fx)) as Bx. pose proof (fin_le a FA) as Ba. rewrite Va in Ba.
  destruct (fast_real lo (emax E) F HF L0 LO _ _ ltac:(apply Fx) ltac:(apply Fy) Bx Ba L) as [Bz [Bb Q]]. rewrite <- Va in Bz, Bb, Q.
  destruct (sub_fin x a Fx Ga Bz) as [z [Az [Gz Vz]]]. rewrite <- Vz in Bb, Q. destruct (add_fin y z Fy Gz Bb) as [b [Ab [Gb Vb]]].
  exists b. unfold fast_two_sum. rewrite A. cbn. rewrite Az. cbn. rewrite Ab. cbn. split; [reflexivity|]. split; [apply Gb|]. rewrite Vb. exact Q.
Qed.
Lemma two_top x y a : fin x -> fin y -> (Rabs (real E F y) <> Om)%R -> fp_add E F x y = Some a -> finite_v (decode E F a) ->
  exists b, two_sum E F x y = Some (a, b) /\ finite_v (decode E F b) /\ (real E F a + real E F b = real E F x + real E F y)%R.
Proof.
  intros Fx Fy NY A FA. destruct (first x y a Fx Fy A FA) as [Ga Va]. pose proof (fin_le a FA) as Ba. rewrite Va in Ba.
  destruct (fin_cases y ltac:(apply Fy)) as [Cy|Cy]; [contradiction|].
  destruct (two_real lo (emax E) F HF L0 LO _ _ ltac:(apply Fx) ltac:(apply Fy) (fin_cases x ltac:(apply Fx)) Cy Ba) as [B1 [B2 [B3 [B4 [B5 Q]]]]]. rewrite <- Va in *.
  destruct (sub_fin a x Ga Fx B1) as [x' [Ax [Gx Vx]]]. rewrite <- Vx in *. destruct (sub_fin a x' Ga Gx B2) as [t [At [Gt Vt]]]. rewrite <- Vt in *.
  destruct (sub_fin x t Fx Gt B3) as [dx [Adx [Gdx Vdx]]]. rewrite <- Vdx in *. destruct (sub_fin y x' Fy Gx B4) as [dy [Ady [Gdy Vdy]]]. rewrite <- Vdy in *.
  destruct (add_fin dx dy Gdx Gdy B5) as [b [Ab [Gb Vb]]].
  exists b. unfold two_sum. rewrite A. cbn. rewrite Ax. cbn. rewrite At. cbn. rewrite Adx. cbn. rewrite Ady. cbn. rewrite Ab. cbn. split; [reflexivity|]. split; [apply Gb|]. rewrite Vb. exact Q.
Qed.
End Top.

Lemma room E F : 1 <= E -> F + 2 <= 2 ^ E -> emin E + 1 <= emax E - F.
Proof. intros HE H. unfold emin, emax, bias. replace (2 ^ E) with (2 * 2 ^ (E - 1)) in H by (rewrite <- pow2_S by lia; f_equal; lia). lia. Qed.
Lemma fast_two_sum_top E F x y a : dual_ok_width E F -> F + 2 <= 2 ^ E -> wf (E + F + 3) x -> wf (E + F + 3) y -> not_tiny E F x -> not_tiny E F y ->
  (Rabs (real E F y) <= Rabs (real E F x))%R -> add_dual E F E F E F x y = Some a -> finite_v (decode E F a) ->
  exists b, fast_two_sum E F x y = Some (a, b) /\ finite_v (decode E F b) /\ (real E F a + real E F b = real E F x + real E F y)%R.
Proof.
  intros OK R Wx Wy Sx Sy L A FA. destruct (dual_EF E F OK). apply (fast_top E F OK (room E F ltac:(lia) R)); try assumption; apply tiny_fin; assumption.
Qed.
Lemma top_num E F y : 1 <= E -> 1 <= F -> finite_v (decode E F y) -> (Rabs (real E F y) = top (emax E) F)%R ->
  exists s, decode E F y = Num s (2 ^ (F + 1) - 1) (emax E - F).
Proof.
  intros HE HF FY H. pose proof (U_pos (emax E) F). pose proof (Om_U (emax E) F HF). destruct (decode E F y) as [|s|s|s m e] eqn:D; try contradiction.
  - exfalso. cbn [rv] in H. rewrite Rabs_R0 in H. lra.
  - destruct (dec_num E F y s m e HE HF D) as [M X]. rewrite rv_sgn in H. exists s.
    destruct (top_only (emax E) F HF m e M ltac:(lia)) as [-> ->]; [|reflexivity].
    rewrite <- H. symmetry. assert (0 <= IZR m * bpow radix2 e)%R by (apply Rmult_le_pos; [apply IZR_le; pose proof (pow2_pos F ltac:(lia)); lia|apply bpow_ge_0]). destruct s; cbn [sgnR]; [rewrite Rabs_Ropp|]; apply Rabs_pos_eq; assumption.
Qed.
Lemma two_sum_top E F x y a : dual_ok_width E F -> F + 2 <= 2 ^ E -> wf (E + F + 3) x -> wf (E + F + 3) y -> not_tiny E F x -> not_tiny E F y ->
  (forall s, decode E F y <> Num s (2 ^ (F + 1) - 1) (emax E - F)) -> add_dual E F E F E F x y = Some a -> finite_v (decode E F a) ->
  exists b, two_sum E F x y = Some (a, b) /\ finite_v (decode E F b) /\ (real E F a + real E F b = real E F x + real E F y)%R.
Proof.
  intros OK R Wx Wy Sx Sy L A FA. destruct (dual_EF E F OK). apply (two_top E F OK (room E F ltac:(lia) R)); try assumption; try (apply tiny_fin; assumption).
  intros H1. destruct (top_num E F y ltac:(lia) ltac:(lia) (proj1 Sy) H1) as [s Hs]. exact (L s Hs).
Qed.
Lemma two_product_top E F x y p : 2 <= E -> 1 <= F -> dual_ok_width (E + 2) (2 * F + 2) -> wf (E + F + 3) x -> wf (E + F + 3) y ->
  finite_v (decode E F x) -> finite_v (decode E F y) ->
  (real E F x * real E F y = 0)%R \/ (bpow radix2 (emin E + 2 * F + 1) <= Rabs (real E F x * real E F y))%R ->
  mul E F E F F x y = Some p -> finite_v (decode E F p) ->
  exists e, two_product E F x y = Some (p, e) /\ finite_v (decode E F e) /\ (real E F p + real E F e = real E F x * real E F y)%R.
Proof.
  intros HE HF OK Wx Wy Fx Fy H Mp FP. assert (NF : 0 <= F) by lia. assert (PR1 : Prec_gt_0 (F + 1)) by (unfold Prec_gt_0; lia).
  pose proof (prod_coarse E F x y ltac:(lia) HF Fx Fy H) as C. pose proof (or_em E ltac:(lia)) as EM.
  destruct (mul_r E F F F x y ltac:(lia) ltac:(lia) ltac:(lia) ltac:(lia) Wx Wy Fx Fy) as [p' [Ap [Wp R]]]. rewrite Mp in Ap. injection Ap as <-.
  destruct (neg_ok E F p ltac:(lia) HF Wp) as [n [An [Wn [Fn Vn]]]]. specialize (Fn FP).
  set (v := (real E F x * real E F y)%R) in *.
  assert (G0 : flt (emin E) F (rt (emin E) F v)) by (apply generic_format_round; [apply FLT_exp_valid; exact PR1|apply valid_rnd_N]).
  assert (K : real E F p = rt (emin E) F v /\ (Rabs (rt (emin E) F v) < bpow radix2 (emax E + 1))%R).
  { unfold rounded in R. cbv zeta in R. rewrite (round_coarse (emin E) F v NF C) in R. destruct (decode E F p) as [|t|t|t m f]; try contradiction.
    - destruct R as [_ R]. destruct (Req_dec (rt (emin E) F v) 0) as [Z0|N]; [rewrite Z0, Rabs_R0; split; [reflexivity|apply bpow_gt_0]|exfalso]. pose proof (coarse_ge _ _ (flt_coarse (emin E) F _ NF G0) N). lra.
    - destruct R as [_ [R1 R2]]. split; [exact R1|apply R2]. }
  destruct K as [Vp KB].
  assert (G : fmt F (v + real E F n)). { rewrite Vn, Vp, <- (round_coarse (emin E) F v NF C). replace (v + - rn F v)%R with (- (rn F v - v))%R by ring. apply generic_format_opp. apply mult_error_FLX; try typeclasses eauto; apply dec_fmt; lia. }
  assert (CP : coarse (emin E) (real E F p)) by (rewrite Vp; apply (flt_coarse (emin E) F); assumption).
  assert (CE : coarse (emin E) (v + real E F n)). { rewrite Vn. apply coarse_sub; assumption. }
  assert (NE : (Rabs (v + real E F n) < bpow radix2 (emax E + 1))%R).
  { rewrite Vn, Vp. replace (v + - rt (emin E) F v)%R with (- (rt (emin E) F v - v))%R by ring. rewrite Rabs_Ropp.
    pose proof (error_le_half_ulp_round radix2 (FLT_exp (emin E) (F + 1)) (fun x => negb (Z.even x)) v) as Q.
    assert (UB : (ulp radix2 (FLT_exp (emin E) (F + 1)) (rt (emin E) F v) <= bpow radix2 (emax E + 1))%R).
    { destruct (Req_dec (rt (emin E) F v) 0) as [Z0|NZ]; [rewrite Z0, ulp_FLT_0 by exact PR1; apply bpow_le; lia|]. rewrite ulp_neq_0 by exact NZ. apply bpow_le.
      pose proof (mag_le_bpow radix2 _ _ NZ KB) as M. unfold cexp. remember (rt (emin E) F v) as q. unfold FLT_exp. lia. }
    pose proof (bpow_gt_0 radix2 (emax E + 1)). lra. }
  assert (IR : in_range (emin E) (emax E) (v + real E F n)). { destruct (Req_dec (v + real E F n) 0) as [Z0 | N]; [left; exact Z0|right]. split; [apply coarse_ge; assumption|exact NE]. }
  assert (XE : Z.max (Z.max E E + 2) (E + 1) = E + 2) by lia. assert (XF : Z.max (F + F + 2) F = 2 * F + 2) by lia.
  destruct (fma_fits E F E F E F E F x y n) as [e [Ae [We [Fe Ve]]]]; try assumption; try lia; [rewrite XE, XF; exact OK|].
  exists e. unfold two_product. rewrite Mp. cbn. rewrite An. cbn. rewrite Ae. cbn. split; [reflexivity|]. split; [exact Fe|]. rewrite Ve. fold v. rewrite Vn. ring.
Qed.

Lemma two_sum_overflow : forall E F, (E, F) = (5, 4) \/ (E, F) = (8, 23) \/ (E, F) = (11, 52) -> exists x y a b,
  wf (E + F + 3) x /\ wf (E + F + 3) y /\ decode E F x = Num true (3 * 2 ^ (F - 1)) (emax E - 2 * F) /\ decode E F y = Num false (2 ^ (F + 1) - 1) (emax E - F) /\
  two_sum E F x y = Some (a, b) /\ finite_v (decode E F a) /\ decode E F b = NaN.
Proof.
  assert (K : forall E F, (let x := (3 * 2 ^ E + (emax E - F + bias E)) * 2 ^ F + 2 ^ (F - 1) in let y := 2 ^ (E + F + 1) + 2 ^ (E + F) - 1 in
    match two_sum E F x y with Some (a, b) => 0 <= x < 2 ^ (E + F + 3) /\ 0 <= y < 2 ^ (E + F + 3) /\ decode E F x = Num true (3 * 2 ^ (F - 1)) (emax E - 2 * F) /\
      decode E F y = Num false (2 ^ (F + 1) - 1) (emax E - F) /\ finite_v (decode E F a) /\ decode E F b = NaN | None => False end) -> exists x y a b,
    wf (E + F + 3) x /\ wf (E + F + 3) y /\ decode E F x = Num true (3 * 2 ^ (F - 1)) (emax E - 2 * F) /\ decode E F y = Num false (2 ^ (F + 1) - 1) (emax E - F) /\
    two_sum E F x y = Some (a, b) /\ finite_v (decode E F a) /\ decode E F b = NaN).
  { intros E F H. cbv zeta in H. destruct (two_sum E F _ _) as [[a b]|] eqn:T; [|contradiction]. eexists _, _, a, b. destruct H as (A & B & C & D & G & I). repeat split; try eassumption; try apply A; try apply B. }
  intros E F [H|[H|H]]; injection H as -> ->; apply K; vm_compute; repeat split; congruence.
Qed.
