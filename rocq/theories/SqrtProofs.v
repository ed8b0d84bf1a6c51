(** The reference square root, on real numbers. *)
From Coq Require Import ZArith Bool Lia Reals Lra.
From Flocq Require Import Core.
From Verif Require Import Fw FwLemmas Spec SpecLemmas SpecFma Flopoco FlopocoLemmas SpecFlocq SpecReal RealProofs MpfrLib Mpfr MpfrProofs MpfrProofs2.
From Verif Require OrderProofs2.
Open Scope Z_scope.

Definition nearg (p r : Z) : Z := let g := 2 ^ (Z.log2 r + 1 - p) in if r mod g <? g / 2 then r / g else r / g + 1.
(** No number of p+1 bits, and no midpoint of p bits, is strictly between the consecutive integers r and r+1 when r has
    p+2 bits. *)
Lemma near_gap p r t x : 1 <= p -> 2 ^ (p + 1) <= r -> (IZR r < x < IZR r + 1)%R ->
  round radix2 (FLX_exp p) ZnearestE (x * bpow radix2 t) =
  (IZR (nearg p r) * bpow radix2 (Z.log2 r + 1 - p + t))%R.
Proof.
  intros Hp Hr Hx. pose proof (pow2_pos (p + 1) ltac:(lia)) as P1. assert (R0 : 0 < r) by lia.
  destruct (Z.log2_spec r R0) as [L1 L2]. assert (LP : p + 1 <= Z.log2 r) by (apply Z.log2_le_pow2; lia).
  unfold nearg. remember (Z.log2 r) as k. assert (A1 : (bpow radix2 k <= IZR r)%R) by (rewrite <- pow_bpow by lia; apply IZR_le; exact L1).
  assert (A2 : (IZR r + 1 <= bpow radix2 (k + 1))%R). { rewrite <- pow_bpow by lia. rewrite <- plus_IZR. apply IZR_le. replace (k + 1) with (Z.succ k) by lia. lia. }
  pose proof (bpow_gt_0 radix2 t) as BT. pose proof (bpow_gt_0 radix2 k) as BK.
  assert (M : Raux.mag radix2 (x * bpow radix2 t)%R = (k + 1 + t)%Z :> Z).
  { apply Raux.mag_unique. rewrite Rabs_pos_eq by (apply Rmult_le_pos; lra). replace (k + 1 + t - 1) with (k + t) by lia. rewrite (bpow_plus radix2 k t), (bpow_plus radix2 (k + 1) t). split; [apply Rmult_le_compat_r|apply Rmult_lt_compat_r]; lra. }
  unfold round, F2R, scaled_mantissa, cexp. rewrite M. cbn [Fnum Fexp]. unfold FLX_exp. replace (k + 1 + t - p) with (k + 1 - p + t) by lia. f_equal. f_equal.
  rewrite Rmult_assoc, <- bpow_plus. replace (t + - (k + 1 - p + t)) with (- (k + 1 - p)) by lia. set (e := k + 1 - p) in *. assert (E2 : 2 <= e) by lia.
  cbv zeta. remember (2 ^ e) as g. assert (G : g = 2 * (g / 2)). { subst g. replace e with (e - 1 + 1) by lia. rewrite pow2_S by lia. rewrite (Z.mul_comm 2), Z.div_mul by lia. lia. }
  pose proof (pow2_pos e ltac:(lia)) as GP. rewrite <- Heqg in GP. pose proof (Z.div_mod r g ltac:(lia)) as DM. pose proof (Z.mod_pos_bound r g GP) as MB.
  assert (BG : bpow radix2 (- e) = (/ IZR g)%R) by (rewrite bpow_opp, <- pow_bpow by lia; rewrite <- Heqg; reflexivity). rewrite BG.
  remember (r / g) as q. remember (r mod g) as s. remember (g / 2) as h. assert (GR : (0 < IZR g)%R) by (apply IZR_lt; exact GP).
  assert (GH : (IZR g = 2 * IZR h)%R) by (rewrite G, mult_IZR; reflexivity).
  assert (X : (x * / IZR g = IZR q + (x - IZR g * IZR q) / IZR g)%R) by (field; lra).
  assert (RQ : (IZR r = IZR g * IZR q + IZR s)%R) by (rewrite DM at 1; rewrite plus_IZR, mult_IZR; reflexivity).
  destruct (s <? h) eqn:S.
  - apply Z.ltb_lt in S. assert (SH : (IZR s + 1 <= IZR h)%R) by (rewrite <- plus_IZR; apply IZR_le; lia). assert (S0 : (0 <= IZR s)%R) by (apply IZR_le; lia).
    apply Znearest_imp. rewrite X. replace (IZR q + (x - IZR g * IZR q) / IZR g - IZR q)%R with ((x - IZR g * IZR q) / IZR g)%R by ring.
    rewrite Rabs_pos_eq by (apply Rmult_le_pos; [lra|left; apply Rinv_0_lt_compat; lra]). apply Rmult_lt_reg_r with (IZR g); [lra|]. unfold Rdiv. rewrite Rmult_assoc, Rinv_l by lra. lra.
  - apply Z.ltb_ge in S. assert (SH : (IZR h <= IZR s)%R) by (apply IZR_le; lia). assert (S1 : (IZR s + 1 <= IZR g)%R) by (rewrite <- plus_IZR; apply IZR_le; lia).
    apply Znearest_imp. rewrite X. rewrite plus_IZR. replace (IZR q + (x - IZR g * IZR q) / IZR g - (IZR q + 1))%R with (- ((IZR g * IZR q + IZR g - x) / IZR g))%R by (field; lra).
    rewrite Rabs_Ropp, Rabs_pos_eq by (apply Rmult_le_pos; [lra|left; apply Rinv_0_lt_compat; lra]). apply Rmult_lt_reg_r with (IZR g); [lra|]. unfold Rdiv. rewrite Rmult_assoc, Rinv_l by lra. lra.
Qed.
(** The sticky bit of the model rounds as the root. *)
Lemma sqrt_sticky p m e : 1 <= p -> 0 < m ->
  let par := e mod 2 in let j := Z.max 0 (p + 1 - Z.log2 m / 2) in let n := m * 2 ^ (par + 2 * j) in let r := Z.sqrt n in
  let c := if r * r =? n then 0 else 1 in
  0 < 2 * r + c /\
  round radix2 (FLX_exp p) ZnearestE (IZR (2 * r + c) * bpow radix2 ((e - par) / 2 - j - 1)) = round radix2 (FLX_exp p) ZnearestE (sqrt (IZR m * bpow radix2 e)).
Proof.
  intros Hp Hm par j n r c. assert (PAR : 0 <= par < 2) by (apply Z.mod_pos_bound; lia). assert (J : 0 <= j /\ p + 1 - Z.log2 m / 2 <= j) by (unfold j; lia).
  assert (PB : 0 < 2 ^ (par + 2 * j)) by (apply pow2_pos; lia). assert (N0 : 0 < n) by (unfold n; nia). destruct (Z.sqrt_spec n ltac:(lia)) as [S1 S2]. fold r in S1, S2. unfold Z.succ in S2.
  assert (R1 : 2 ^ (p + 1) <= r).
  { apply Z.sqrt_le_square; [lia|pose proof (pow2_pos (p + 1)); lia|]. fold n. rewrite <- Z.pow_add_r by lia. destruct (Z.log2_spec m Hm) as [L1 _]. unfold n.
    apply Z.le_trans with (2 ^ Z.log2 m * 2 ^ (par + 2 * j)); [|apply Z.mul_le_mono_nonneg_r; lia]. rewrite <- Z.pow_add_r by (pose proof (Z.log2_nonneg m); lia). apply pow2_le.
    pose proof (Z.div_mod (Z.log2 m) 2 ltac:(lia)). pose proof (Z.mod_pos_bound (Z.log2 m) 2 ltac:(lia)). lia. }
  pose proof (pow2_pos (p + 1) ltac:(lia)) as PP. assert (C : 0 <= c <= 1) by (unfold c; destruct (r * r =? n); lia). split; [lia|].
  assert (EV : e - par = 2 * ((e - par) / 2)). { unfold par. pose proof (Z.div_mod e 2 ltac:(lia)) as D. replace (e - e mod 2) with (e / 2 * 2) by lia. rewrite Z.div_mul by lia. lia. }
  remember ((e - par) / 2) as h. assert (NR : (0 < IZR n)%R) by (apply IZR_lt; exact N0).
  assert (SQ : sqrt (IZR m * bpow radix2 e) = (sqrt (IZR n) * bpow radix2 (h - j))%R).
  { apply sqrt_lem_1; [apply Rmult_le_pos; [apply IZR_le; lia|apply bpow_ge_0]|apply Rmult_le_pos; [apply sqrt_pos|apply bpow_ge_0]|].
    replace (sqrt (IZR n) * bpow radix2 (h - j) * (sqrt (IZR n) * bpow radix2 (h - j)))%R with ((sqrt (IZR n) * sqrt (IZR n)) * (bpow radix2 (h - j) * bpow radix2 (h - j)))%R by ring.
    rewrite sqrt_sqrt by lra. rewrite <- bpow_plus. unfold n. rewrite mult_IZR, pow_bpow by lia. rewrite Rmult_assoc, <- bpow_plus. f_equal. f_equal. lia. }
  assert (BJ : bpow radix2 (h - j) = (2 * bpow radix2 (h - j - 1))%R) by (replace (h - j) with (1 + (h - j - 1)) at 1 by lia; rewrite bpow_plus; reflexivity).
  rewrite SQ. unfold c. destruct (r * r =? n) eqn:Q.
  - apply Z.eqb_eq in Q. rewrite <- Q, mult_IZR, sqrt_square by (apply IZR_le; lia). f_equal. rewrite Z.add_0_r, mult_IZR. rewrite BJ. ring.
  - apply Z.eqb_neq in Q. assert (G : (IZR r < sqrt (IZR n) < IZR r + 1)%R).
    { split.
      - rewrite <- (sqrt_square (IZR r)) by (apply IZR_le; lia). apply sqrt_lt_1; [rewrite <- mult_IZR; apply IZR_le; nia|lra|rewrite <- mult_IZR; apply IZR_lt; lia].
      - rewrite <- plus_IZR. rewrite <- (sqrt_square (IZR (r + 1))) by (apply IZR_le; lia). apply sqrt_lt_1; [lra|rewrite <- mult_IZR; apply IZR_le; nia|rewrite <- mult_IZR; apply IZR_lt; lia]. }
    rewrite (near_gap p r (h - j) (sqrt (IZR n)) Hp R1 G). replace (IZR (2 * r + 1) * bpow radix2 (h - j - 1))%R with ((IZR r + / 2) * bpow radix2 (h - j))%R.
    + apply near_gap; [exact Hp|exact R1|lra].
    + rewrite BJ. rewrite plus_IZR, mult_IZR. field.
Qed.
Lemma rounded_same lo hi F x y v : (0 < x)%R -> (0 < y)%R -> round radix2 (FLX_exp (F + 1)) ZnearestE x = round radix2 (FLX_exp (F + 1)) ZnearestE y -> rounded lo hi F x v -> rounded lo hi F y v.
Proof.
  intros Hx Hy H. unfold rounded. rewrite H. cbv zeta. destruct v as [|t|t|t m e]; [auto|..].
  - intros [A B]. split; [|exact B]. rewrite A. split; lra.
  - intros [A B]. split; [|exact B]. intros _. rewrite A by lra. split; lra.
  - intros [A B]. split; [|exact B]. rewrite A. split; lra.
Qed.
Lemma ref_sqrt_num ER FR EA FA a m e : ok_ef ER FR -> ok_ef EA FA -> wf (EA + FA + 3) a -> decode EA FA a = Num false m e ->
  exists r, ref_sqrt ER FR EA FA a = Some r /\ wf (ER + FR + 3) r /\ rounded (emin ER) (emax ER) FR (sqrt (rv (decode EA FA a))) (decode ER FR r).
Proof.
  intros R A Ha D. pose proof (pos_of EA FA a false m e A Ha D) as M. unfold ref_sqrt. pose proof A as [A1 A2]. rewrite fl_get_ok by assumption. cbn [bind]. rewrite D. cbn [mpfr_sqrt]. unfold mp_sqrt_num.
  pose proof R as [R1 R2]. destruct (sqrt_sticky (FR + 1) m e ltac:(lia) M) as [P Q]. cbv zeta in *. remember (2 * Z.sqrt _ + _) as w. remember ((e - e mod 2) / 2 - _ - 1) as k.
  destruct (sp_round ER FR false w 1 k R P ltac:(lia)) as [r [B [C E]]]. exists r. split; [exact B|]. split; [exact C|]. rewrite E.
  assert (MR : (0 < IZR m * bpow radix2 e)%R) by (apply Rmult_lt_0_compat; [apply IZR_lt; exact M|apply bpow_gt_0]). assert (WR : (0 < IZR w * bpow radix2 k)%R) by (apply Rmult_lt_0_compat; [apply IZR_lt; exact P|apply bpow_gt_0]).
  apply (rounded_same _ _ _ (IZR w * bpow radix2 k)); [exact WR|cbn [rv]; apply sqrt_lt_R0; exact MR|exact Q|].
  unfold round_to. apply (rounded_eq _ _ _ (sgnR false (IZR w / IZR 1 * bpow radix2 k))); [cbn [sgnR]; field|]. apply rounded_range; try lia. unfold emin, emax, bias. pose proof (pow2_pos (ER - 1) ltac:(lia)). pose proof (pow2_pos ER ltac:(lia)). lia.
Qed.
Lemma ref_sqrt_special ER FR EA FA a : ok_ef ER FR -> ok_ef EA FA -> wf (EA + FA + 3) a ->
  match decode EA FA a with
  | NaN | Inf true | Num true _ _ => rounds_to ER FR (ref_sqrt ER FR EA FA a) NaN
  | Inf false => rounds_to ER FR (ref_sqrt ER FR EA FA a) (Inf false)
  | Zero s => rounds_to ER FR (ref_sqrt ER FR EA FA a) (Zero s)
  | Num false _ _ => True
  end.
Proof.
  intros R A Ha. unfold ref_sqrt. pose proof A as [A1 A2]. rewrite fl_get_ok by assumption. cbn [bind]. destruct (decode EA FA a) as [|s|s|s m e]; cbn [mpfr_sqrt].
  - apply sp_nan. exact R.
  - destruct s; [apply sp_nan|apply sp_inf]; exact R.
  - apply sp_zero. exact R.
  - destruct s; [apply sp_nan; exact R|exact I].
Qed.
(** The root of a number is no further from one than the number: with the exponents of the operand there is no overflow or
    underflow. *)
Lemma ref_sqrt_range E FR FA a m e : ok_ef E FR -> ok_ef E FA -> wf (E + FA + 3) a -> decode E FA a = Num false m e ->
  exists r n f, ref_sqrt E FR E FA a = Some r /\ wf (E + FR + 3) r /\ decode E FR r = Num false n f /\
    rv (decode E FR r) = round radix2 (FLX_exp (FR + 1)) ZnearestE (sqrt (rv (decode E FA a))).
Proof.
  intros R A Ha D. destruct (ref_sqrt_num E FR E FA a m e R A Ha D) as [r [B [C H]]]. pose proof A as [A1 A2]. pose proof R as [R1 R2].
  destruct (OrderProofs2.dec_num E FA a false m e ltac:(lia) ltac:(lia) D) as [M RG]. assert (EM : emin E <= 0 /\ 1 <= emax E).
  { unfold emin, emax, bias. pose proof (pow2_pos (E - 1) ltac:(lia)). assert (2 ^ E = 2 * 2 ^ (E - 1)) by (replace E with (E - 1 + 1) at 1 by lia; apply pow2_S; lia). lia. }
  rewrite D in *. cbn [rv] in *. set (v := (IZR m * bpow radix2 e)%R) in *.
  assert (V1 : (bpow radix2 (emin E) <= v)%R). { apply Rle_trans with (bpow radix2 (FA + e)); [apply bpow_le; lia|]. unfold v. rewrite bpow_plus. apply Rmult_le_compat_r; [apply bpow_ge_0|]. rewrite <- pow_bpow by lia. apply IZR_le. lia. }
  assert (V2 : (v < bpow radix2 (emax E + 1))%R). { apply Rlt_le_trans with (bpow radix2 (FA + 1 + e)); [|apply bpow_le; lia]. unfold v. rewrite (bpow_plus radix2 (FA + 1) e). apply Rmult_lt_compat_r; [apply bpow_gt_0|]. rewrite <- pow_bpow by lia. apply IZR_lt. lia. }
  assert (SB : forall k, sqrt (bpow radix2 (2 * k)) = bpow radix2 k). { intros k. replace (2 * k) with (k + k) by lia. rewrite bpow_plus. apply sqrt_square. apply bpow_ge_0. }
  assert (V0 : (0 < v)%R) by (pose proof (bpow_gt_0 radix2 (emin E)); lra).
  assert (S1 : (bpow radix2 (emin E) <= sqrt v)%R). { rewrite <- SB. apply sqrt_le_1; [apply bpow_ge_0|lra|]. apply Rle_trans with (bpow radix2 (emin E)); [apply bpow_le; lia|exact V1]. }
  assert (S2 : (sqrt v <= bpow radix2 (emax E))%R). { rewrite <- SB. apply sqrt_le_1; [lra|apply bpow_ge_0|]. apply Rle_trans with (bpow radix2 (emax E + 1)); [lra|apply bpow_le; lia]. }
  assert (FX : Prec_gt_0 (FR + 1)) by (red; lia). assert (GB : forall k, generic_format radix2 (FLX_exp (FR + 1)) (bpow radix2 k)) by (intros k; apply generic_format_bpow; unfold FLX_exp; lia).
  assert (Q1 : (bpow radix2 (emin E) <= round radix2 (FLX_exp (FR + 1)) ZnearestE (sqrt v))%R) by (apply round_ge_generic; [apply FLX_exp_valid; exact FX|apply valid_rnd_N|apply GB|exact S1]).
  assert (Q2 : (round radix2 (FLX_exp (FR + 1)) ZnearestE (sqrt v) <= bpow radix2 (emax E))%R) by (apply round_le_generic; [apply FLX_exp_valid; exact FX|apply valid_rnd_N|apply GB|exact S2]).
  pose proof (bpow_gt_0 radix2 (emin E)) as BP. pose proof (bpow_lt radix2 (emax E) (emax E + 1) ltac:(lia)) as BL. unfold rounded in H. cbv zeta in H. rewrite Rabs_pos_eq in H by lra.
  destruct (decode E FR r) as [|t|t|t n f] eqn:DR; [contradiction|lra|lra|]. destruct H as [T [V _]]. assert (t = false) by (destruct t; [exfalso; assert (sqrt v < 0)%R by (apply T; reflexivity); lra|reflexivity]). subst t.
  exists r, n, f. split; [exact B|]. split; [exact C|]. rewrite DR. split; [reflexivity|exact V].
Qed.
(** The root of the square of a number of the result's format is that number. *)
Lemma ref_sqrt_square ER FR EA FA a b s m e n f : ok_ef ER FR -> ok_ef EA FA -> wf (EA + FA + 3) a -> decode EA FA a = Num false m e -> decode ER FR b = Num s n f ->
  rv (decode EA FA a) = (rv (decode ER FR b) * rv (decode ER FR b))%R ->
  exists r, ref_sqrt ER FR EA FA a = Some r /\ wf (ER + FR + 3) r /\ rv (decode ER FR r) = Rabs (rv (decode ER FR b)).
Proof.
  intros R A Ha D DB SQ. destruct (ref_sqrt_num ER FR EA FA a m e R A Ha D) as [r [B [C H]]]. exists r. split; [exact B|]. split; [exact C|]. pose proof R as [R1 R2].
  rewrite SQ in H. change (rv (decode ER FR b) * rv (decode ER FR b))%R with (Rsqr (rv (decode ER FR b))) in H. rewrite sqrt_Rsqr_abs in H. destruct (OrderProofs2.dec_num ER FR b s n f ltac:(lia) ltac:(lia) DB) as [M RG]. rewrite DB in *.
  assert (X : Rabs (rv (Num s n f)) = (IZR n * bpow radix2 f)%R). { pose proof (bpow_gt_0 radix2 f). assert (0 < IZR n)%R by (apply IZR_lt; pose proof (pow2_pos FR ltac:(lia)); lia). assert (0 < IZR n * bpow radix2 f)%R by (apply Rmult_lt_0_compat; assumption). rewrite rv_sgn. destruct s; cbn [sgnR]; rewrite ?Rabs_Ropp; apply Rabs_pos_eq; lra. }
  rewrite X in *. assert (FX : Prec_gt_0 (FR + 1)) by (red; lia).
  assert (G : generic_format radix2 (FLX_exp (FR + 1)) (IZR n * bpow radix2 f)). { apply generic_format_FLX. exists (Float radix2 n f); [reflexivity|]. cbn [Fnum]. rewrite Z.abs_eq by (pose proof (pow2_pos FR ltac:(lia)); lia). exact (proj2 M). }
  unfold rounded in H. cbv zeta in H. rewrite round_generic in H by (try apply valid_rnd_N; exact G). rewrite Rabs_pos_eq in H by (apply Rmult_le_pos; [apply IZR_le; pose proof (pow2_pos FR ltac:(lia)); lia|apply bpow_ge_0]).
  assert (V1 : (bpow radix2 (emin ER) <= IZR n * bpow radix2 f)%R). { apply Rle_trans with (bpow radix2 (FR + f)); [apply bpow_le; lia|]. rewrite bpow_plus. apply Rmult_le_compat_r; [apply bpow_ge_0|]. rewrite <- pow_bpow by lia. apply IZR_le. lia. }
  assert (V2 : (IZR n * bpow radix2 f < bpow radix2 (emax ER + 1))%R). { apply Rlt_le_trans with (bpow radix2 (FR + 1 + f)); [|apply bpow_le; lia]. rewrite (bpow_plus radix2 (FR + 1) f). apply Rmult_lt_compat_r; [apply bpow_gt_0|]. rewrite <- pow_bpow by lia. apply IZR_lt. lia. }
  destruct (decode ER FR r) as [|t|t|t p q]; [contradiction|lra|lra|]. apply H.
Qed.
