(** Identities, scaling by powers of two, and a difference lost for want of gradual underflow; proofs for C75. *)
From Coq Require Import ZArith Bool Lia Reals Lra.
From Flocq Require Import Core Mult_error.
From Verif Require Import Fw FwLemmas Spec SpecLemmas SpecFma SpecFlocq SpecReal SpecOrder Flopoco Ieee CompareProofs FlopocoProofs ConvertProofs Mul MulProofs Div DivProofs3 AddDual AddDualProofs AddDualProofs5 AddDualProofs6 Fma FmaProofs RealProofs OrderProofs OrderSingle OrderProofs2 OrderProofs3 ExactProofs ExactProofs2 PolicyProofs2.
Open Scope Z_scope.

Lemma rv_one F s : 0 <= F -> rv (Num s (2 ^ F) (- F)) = (if s then -1 else 1)%R.
Proof. intros HF. rewrite rv_sgn, pow_bpow by lia. rewrite <- bpow_plus, Z.add_opp_diag_r. destruct s; cbn; ring. Qed.
Lemma zero_r E F z t : decode E F z = Zero t -> finite_v (decode E F z) /\ rv (decode E F z) = 0%R.
Proof. intros ->. split; [exact I|reflexivity]. Qed.
Lemma id_add E F x z t : dual_ok_width E F -> wf (E + F + 3) x -> wf (E + F + 3) z -> finite_v (decode E F x) -> rv (decode E F x) <> 0%R -> decode E F z = Zero t ->
  add_dual E F E F E F x z = Some x /\ add_dual E F E F E F z x = Some x.
Proof.
  intros OK Wx Wz Fx N D. destruct (dual_EF E F OK) as [HE HF]. destruct (zero_r E F z t D) as [Fz Vz]. pose proof (x_add E F E F x z x) as A. pose proof (x_add E F E F z x x) as B. cbv zeta in A, B. rewrite !Z.max_id in A, B.
  destruct A as [r [A [_ [_ A3]]]]; try assumption; try lia; [rewrite Vz; ring|]. destruct B as [r' [B [_ [_ B3]]]]; try assumption; try lia; [rewrite Vz; ring|]. rewrite A, B, (A3 N), (B3 N). split; reflexivity.
Qed.
Lemma id_mul E F x : 2 <= E -> 1 <= F -> wf (E + F + 3) x -> finite_v (decode E F x) -> rv (decode E F x) <> 0%R ->
  exists one none n, lim_pos_one E F = Some one /\ lim_neg_one E F = Some none /\ neg E F E F x = Some n /\ mul E F E F F x one = Some x /\ mul E F E F F one x = Some x /\ mul E F E F F x none = Some n.
Proof.
  intros HE HF Wx Fx N. destruct (one_correct E F ltac:(lia) HF) as [u [u' [A [A' [W [W' [D D']]]]]]]. destruct (neg_ok E F x ltac:(lia) HF Wx) as [n [An [Wn [Fn Vn]]]]. specialize (Fn Fx).
  assert (FU : finite_v (decode E F u)) by (rewrite D; exact I). assert (FU' : finite_v (decode E F u')) by (rewrite D'; exact I).
  assert (VU : rv (decode E F u) = 1%R) by (rewrite D; apply (rv_one F false); lia). assert (VU' : rv (decode E F u') = (-1)%R) by (rewrite D'; apply (rv_one F true); lia).
  exists u, u', n. split; [exact A|]. split; [exact A'|]. split; [exact An|].
  destruct (x_mul E F F F x u x) as [r [R1 [_ [_ R2]]]]; try assumption; try lia; [rewrite VU; ring|].
  destruct (x_mul E F F F u x x) as [q [Q1 [_ [_ Q2]]]]; try assumption; try lia; [rewrite VU; ring|].
  destruct (x_mul E F F F x u' n) as [p [P1 [_ [_ P2]]]]; try assumption; try lia; [rewrite VU', Vn; ring|].
  rewrite R1, Q1, P1, (R2 N), (Q2 N), P2 by (rewrite Vn; lra). repeat split; reflexivity.
Qed.
Lemma id_div E F x : 2 <= E -> 1 <= F -> wf (E + F + 3) x -> finite_v (decode E F x) -> rv (decode E F x) <> 0%R ->
  exists one, lim_pos_one E F = Some one /\ div E F E F E F x one = Some x /\ div E F E F E F x x = Some one.
Proof.
  intros HE HF Wx Fx N. destruct (one_correct E F ltac:(lia) HF) as [u [u' [A [_ [W [_ [D _]]]]]]].
  assert (FU : finite_v (decode E F u)) by (rewrite D; exact I). assert (VU : rv (decode E F u) = 1%R) by (rewrite D; apply (rv_one F false); lia). exists u. split; [exact A|].
  destruct (x_div E F E F E F x u x) as [r [R1 [_ [_ R2]]]]; try assumption; try lia; [rewrite VU; lra|rewrite VU; field|].
  destruct (x_div E F E F E F x x u) as [q [Q1 [_ [_ Q2]]]]; try assumption; try lia; [rewrite VU; field; exact N|].
  rewrite R1, Q1, (R2 N), Q2 by (rewrite VU; lra). split; reflexivity.
Qed.
Lemma fmt_scale F x k : 0 <= F -> fmt F x -> fmt F (x * bpow radix2 k).
Proof. intros HF. unfold fmt. assert (PR : Prec_gt_0 (F + 1)) by (unfold Prec_gt_0; lia). apply mult_bpow_exact_FLX. Qed.
Lemma fmt_opp F x : fmt F x -> fmt F (- x).
Proof. apply generic_format_opp. Qed.
(** Multiplication and division by a power of two, doubling by addition. *)
Lemma x_scale E F x y k : 2 <= E -> 1 <= F -> wf (E + F + 3) x -> wf (E + F + 3) y -> finite_v (decode E F x) -> finite_v (decode E F y) -> Rabs (rv (decode E F y)) = bpow radix2 k ->
  (bpow radix2 (emin E) <= Rabs (rv (decode E F x) * rv (decode E F y)) < bpow radix2 (emax E + 1) -> exists r, mul E F E F F x y = Some r /\ finite_v (decode E F r) /\ rv (decode E F r) = rv (decode E F x) * rv (decode E F y))%R /\
  (bpow radix2 (emin E) <= Rabs (rv (decode E F x) / rv (decode E F y)) < bpow radix2 (emax E + 1) -> exists r, div E F E F E F x y = Some r /\ finite_v (decode E F r) /\ rv (decode E F r) = rv (decode E F x) / rv (decode E F y))%R.
Proof.
  intros HE HF Wx Wy Fx Fy Y. assert (NF : 0 <= F) by lia. pose proof (or_em E ltac:(lia)) as EM. pose proof (bpow_gt_0 radix2 k) as BK. pose proof (dec_fmt E F F x ltac:(lia) ltac:(lia)) as G.
  assert (YC : rv (decode E F y) = bpow radix2 k \/ rv (decode E F y) = (- bpow radix2 k)%R). { unfold Rabs in Y. destruct (Rcase_abs (rv (decode E F y))); [right|left]; lra. }
  assert (YN : rv (decode E F y) <> 0%R) by (destruct YC as [-> | ->]; lra).
  split; intros IR.
  - destruct (mul_r E F F F x y ltac:(lia) ltac:(lia) ltac:(lia) ltac:(lia) Wx Wy Fx Fy) as [r [A [W R]]]. exists r. split; [exact A|]. refine (rounded_fits _ _ _ _ _ NF EM _ (or_intror IR) R).
    destruct YC as [-> | ->]; [apply fmt_scale; assumption|]. replace (rv (decode E F x) * - bpow radix2 k)%R with (- (rv (decode E F x) * bpow radix2 k))%R by ring. apply fmt_opp, fmt_scale; assumption.
  - destruct (div_r E F E F E F x y ltac:(lia) ltac:(lia) ltac:(lia) ltac:(lia) ltac:(lia) Wx Wy Fx Fy YN) as [r [A [W R]]]. exists r. split; [exact A|]. refine (rounded_fits _ _ _ _ _ NF EM _ (or_intror IR) R).
    assert (BI : (/ bpow radix2 k = bpow radix2 (- k))%R) by (symmetry; apply bpow_opp). destruct YC as [-> | ->].
    + unfold Rdiv. rewrite BI. apply fmt_scale; assumption.
    + replace (rv (decode E F x) / - bpow radix2 k)%R with (- (rv (decode E F x) * / bpow radix2 k))%R by (field; lra). rewrite BI. apply fmt_opp, fmt_scale; assumption.
Qed.
Lemma x_double E F x : dual_ok_width E F -> wf (E + F + 3) x -> finite_v (decode E F x) -> (Rabs (rv (decode E F x)) < bpow radix2 (emax E))%R ->
  exists r, add_dual E F E F E F x x = Some r /\ finite_v (decode E F r) /\ rv (decode E F r) = (2 * rv (decode E F x))%R.
Proof.
  intros OK Wx Fx B. destruct (dual_EF E F OK) as [HE HF]. assert (NF : 0 <= F) by lia. pose proof (or_em E ltac:(lia)) as EM. destruct (add_same_r E F x x OK Wx Wx Fx Fx) as [r [A [W R]]]. exists r. split; [exact A|].
  replace (rv (decode E F x) + rv (decode E F x))%R with (rv (decode E F x) * bpow radix2 1)%R in R by (change (bpow radix2 1) with 2%R; ring). replace (2 * rv (decode E F x))%R with (rv (decode E F x) * bpow radix2 1)%R by (change (bpow radix2 1) with 2%R; ring).
  refine (rounded_fits _ _ _ _ _ NF EM _ _ R); [apply fmt_scale; [exact NF|apply dec_fmt; lia]|].
  destruct (dec_range E F x ltac:(lia) HF Fx) as [-> | [L _]]; [left; ring|right]. rewrite Rabs_mult, (Rabs_pos_eq (bpow radix2 1)) by apply bpow_ge_0. rewrite (bpow_plus radix2 (emax E) 1). change (bpow radix2 1) with 2%R. pose proof (Rabs_pos (rv (decode E F x))). lra.
Qed.
(** Two different words of the smallest binade subtract to zero, in every format. *)
Lemma sub_lost E F : dual_ok_width E F -> let x := 2 ^ (E + F + 1) + 1 in let y := 2 ^ (E + F + 1) in
  wf (E + F + 3) x /\ wf (E + F + 3) y /\ (rv (decode E F y) < rv (decode E F x))%R /\ finite_v (decode E F x) /\ finite_v (decode E F y) /\
  exists ny r t, neg E F E F y = Some ny /\ add_dual E F E F E F x ny = Some r /\ decode E F r = Zero t.
Proof.
  intros OK x y. destruct (dual_EF E F OK) as [HE HF]. pose proof (pow2_pos (E + F + 1) ltac:(lia)) as P. assert (P2 : 2 ^ (E + F + 3) = 4 * 2 ^ (E + F + 1)) by (replace (E + F + 3) with (2 + (E + F + 1)) by lia; rewrite (Z.pow_add_r 2 2 (E + F + 1)) by lia; reflexivity).
  assert (PF : 2 <= 2 ^ F) by (pose proof (pow2_le 1 F ltac:(lia)); lia). pose proof (pow2_pos E ltac:(lia)) as PE.
  assert (Wx : wf (E + F + 3) x) by (unfold wf, x; lia). assert (Wy : wf (E + F + 3) y) by (unfold wf, y; lia).
  assert (Dx : decode E F x = Num false (2 ^ F + 1) (emin E - F)). { replace x with (1 * 2 ^ (E + F + 1) + Z.b2z false * 2 ^ (E + F) + (0 * 2 ^ F + 1)) by (unfold x; cbn [Z.b2z]; ring). rewrite decode_fields_ef by lia. reflexivity. }
  assert (Dy : decode E F y = Num false (2 ^ F) (emin E - F)). { replace y with (1 * 2 ^ (E + F + 1) + Z.b2z false * 2 ^ (E + F) + (0 * 2 ^ F + 0)) by (unfold y; cbn [Z.b2z]; ring). rewrite decode_fields_ef by lia. rewrite Z.add_0_r. reflexivity. }
  assert (Fx : finite_v (decode E F x)) by (rewrite Dx; exact I). assert (Fy : finite_v (decode E F y)) by (rewrite Dy; exact I).
  assert (V : (rv (decode E F x) - rv (decode E F y))%R = bpow radix2 (emin E - F)). { rewrite Dx, Dy, !rv_sgn. cbn [sgnR]. rewrite plus_IZR. ring. }
  pose proof (bpow_gt_0 radix2 (emin E - F)) as B0. pose proof (bpow_lt radix2 (emin E - F) (emin E) ltac:(lia)) as BL. clearbody x y.
  split; [exact Wx|]. split; [exact Wy|]. split; [lra|]. split; [exact Fx|]. split; [exact Fy|].
  destruct (neg_ok E F y ltac:(lia) HF Wy) as [ny [An [Wn [Fn Vn]]]]. specialize (Fn Fy). destruct (add_same_r E F x ny OK Wx Wn Fx Fn) as [r [Ar [Wr R]]]. rewrite Vn in R. exists ny, r.
  unfold rounded in R. cbv zeta in R. change (rv (decode E F x) + - rv (decode E F y))%R with (rv (decode E F x) - rv (decode E F y))%R in R. rewrite V in R.
  rewrite round_generic in R; [|apply valid_rnd_N|apply generic_format_bpow; unfold FLX_exp; lia]. rewrite Rabs_pos_eq in R by lra. pose proof (or_em E ltac:(lia)) as EM. pose proof (bpow_le radix2 (emin E) (emax E + 1) ltac:(lia)) as B1.
  destruct (decode E F r) as [|t|t|t m e]; [contradiction|exfalso; lra| |exfalso; lra]. exists t. split; [exact An|]. split; [exact Ar|reflexivity].
Qed.
(** The IEEE operators: an exact result that fits is returned. *)
Lemma ie_num E F x s m e : 1 <= E -> 1 <= F -> decode_ieee E F x = Num s m e -> 2 ^ F <= m < 2 ^ (F + 1).
Proof.
  intros HE HF D. unfold decode_ieee in D. cbv zeta in D. destruct (_ =? 0) in D; [discriminate|]. destruct (_ =? 2 ^ E - 1) in D; [destruct (_ =? 0) in D; discriminate|].
  pose proof (f_equal (fun v => match v with Num _ k _ => k | _ => 0 end) D) as M. cbv beta iota in M. pose proof (pow2_pos F ltac:(lia)) as P. pose proof (Z.mod_pos_bound x (2 ^ F) P). rewrite (Z.pow_add_r 2 F 1) by lia. lia.
Qed.
Lemma ie_fmt E F x : 1 <= E -> 1 <= F -> wf (E + F + 1) x -> finite_v (decode_ieee E F x) -> fmt F (rv (decode_ieee E F x)) /\ in_range (emin E + 1) (emax E - 1) (rv (decode_ieee E F x)).
Proof.
  intros HE HF W FX. destruct (decode_ieee E F x) as [|a|a|s m e] eqn:D; try contradiction; [split; [apply generic_format_0|left; reflexivity]|].
  pose proof (ie_num E F x s m e HE HF D) as M. pose proof (decode_ieee_in E F x s m e HE HF D) as L. pose proof (pow2_pos F ltac:(lia)) as P. split.
  - unfold fmt. assert (X : generic_format radix2 (FLX_exp (F + 1)) (IZR m * bpow radix2 e)). { apply generic_format_FLX. exists (Float radix2 m e); [reflexivity|]. cbn [Fnum]. change (Zpower radix2 (F + 1)) with (2 ^ (F + 1)). lia. }
    rewrite rv_sgn. destruct s; cbn [sgnR]; [apply generic_format_opp|]; exact X.
  - right. assert (X : Rabs (rv (Num s m e)) = (IZR m * bpow radix2 e)%R). { pose proof (rv_pos false m e ltac:(lia)) as Q. cbn [rv] in Q. rewrite rv_sgn. destruct s; cbn [sgnR]; rewrite ?Rabs_Ropp; apply Rabs_pos_eq; lra. }
    rewrite X. split.
    + apply Rle_trans with (bpow radix2 (F + e)); [apply bpow_le; lia|]. rewrite bpow_plus. apply Rmult_le_compat_r; [apply bpow_ge_0|]. rewrite <- pow_bpow by lia. apply IZR_le. lia.
    + apply Rlt_le_trans with (bpow radix2 (F + 1 + e)); [|apply bpow_le; lia]. rewrite (bpow_plus radix2 (F + 1) e). apply Rmult_lt_compat_r; [apply bpow_gt_0|]. rewrite <- pow_bpow by lia. apply IZR_lt. lia.
Qed.
Definition ie_exact (E F : Z) (v : R) (o : option Z) : Prop := exists r, o = Some r /\ wf (E + F + 1) r /\ finite_v (decode_ieee E F r) /\ rv (decode_ieee E F r) = v.
Lemma ie_rounded E F o v w : 2 <= E -> 1 <= F -> wf (E + F + 1) w -> finite_v (decode_ieee E F w) -> v = rv (decode_ieee E F w) ->
  (exists r, o = Some r /\ wf (E + F + 1) r /\ rounded (emin E + 1) (emax E - 1) F v (decode_ieee E F r)) -> ie_exact E F v o.
Proof.
  intros HE HF W FW Q (r & A & B & R). destruct (ie_fmt E F w ltac:(lia) HF W FW) as [G IR]. rewrite <- Q in G, IR. exists r. split; [exact A|]. split; [exact B|].
  assert (EM : emin E + 1 <= emax E - 1). { unfold emin, emax, bias. pose proof (pow2_le 1 (E - 1) ltac:(lia)). lia. }
  assert (NF : 0 <= F) by lia. exact (rounded_fits _ _ _ _ _ NF EM G IR R).
Qed.
Lemma x_ieee E F x y w : dual_ok_width E F -> wf (E + F + 1) x -> wf (E + F + 1) y -> wf (E + F + 1) w -> finite_v (decode_ieee E F x) -> finite_v (decode_ieee E F y) -> finite_v (decode_ieee E F w) ->
  let a := rv (decode_ieee E F x) in let b := rv (decode_ieee E F y) in let c := rv (decode_ieee E F w) in
  ((a + b = c -> ie_exact E F c (w_add E F x y)) /\ (a * b = c -> ie_exact E F c (w_mul E F x y)) /\ (b <> 0 -> a / b = c -> ie_exact E F c (w_div E F x y)))%R.
Proof.
  intros OK Wx Wy Ww Fx Fy Fw a b c. destruct (dual_EF E F OK) as [HE HF]. split; [|split].
  - intros Q. rewrite <- Q. apply (ie_rounded E F _ _ w); try assumption; try lia. apply w_add_r; assumption.
  - intros Q. rewrite <- Q. apply (ie_rounded E F _ _ w); try assumption; try lia. apply w_mul_r; try assumption; lia.
  - intros N Q. rewrite <- Q. apply (ie_rounded E F _ _ w); try assumption; try lia. apply w_div_r; try assumption; lia.
Qed.
