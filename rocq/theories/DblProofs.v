(** Proofs about the conversions to and from double. *)
From Coq Require Import ZArith Bool Lia.
From Verif Require Import Fw FwLemmas FwWord FwWordProofs FwWordProofs2 Spec SpecLemmas SpecDbl Flopoco FlopocoLemmas AddLemmas MpfrLib Mpfr MpfrProofs MpfrProofs2 Dbl.
Open Scope Z_scope.

Lemma rne_bounds a b : 0 < b -> a / b <= rne_div a b <= a / b + 1.
Proof. intros H. unfold rne_div. cbv zeta. destruct (_ <? b); [lia|]. destruct (b <? _); [lia|]. destruct (Z.even _); lia. Qed.
Lemma num2_pos n k : 0 < n -> 0 < num2 n k.
Proof. intros. unfold num2. pose proof (pow2_pos (Z.max 0 k) ltac:(lia)). nia. Qed.
Lemma den2_pos n k : 0 < n -> 0 < den2 n k.
Proof. intros. unfold den2. pose proof (pow2_pos (Z.max 0 (- k)) ltac:(lia)). nia. Qed.
(** The scaled significand stays below 2^53, and is at least 2^52 away from the subnormals. *)
Lemma dbl_scaled m e : 0 < m -> let q := Z.max (Z.log2 m + e - 52) (-1074) in
  num2 m (e - q) < 2 ^ 53 * den2 1 (e - q) /\ (-1074 < q -> 2 ^ 52 * den2 1 (e - q) <= num2 m (e - q)).
Proof.
  intros Hm q. destruct (Z.log2_spec m Hm) as [L1 L2]. pose proof (Z.log2_nonneg m) as L0. unfold num2, den2. rewrite Z.mul_1_l.
  remember (Z.max 0 (e - q)) as u. remember (Z.max 0 (- (e - q))) as v. pose proof (pow2_pos u ltac:(lia)) as PU. pose proof (pow2_pos v ltac:(lia)) as PV. rewrite <- !pow2_add by lia. rewrite Z.pow_succ_r in L2 by lia.
  remember (2 ^ Z.log2 m) as l. split.
  - apply Z.lt_le_trans with (2 * l * 2 ^ u); [nia|]. subst l. replace (2 * 2 ^ Z.log2 m * 2 ^ u) with (2 ^ (Z.log2 m + 1 + u)) by (rewrite !pow2_add by lia; change (2 ^ 1) with 2; ring). apply pow2_le; lia.
  - intros Q. apply Z.le_trans with (l * 2 ^ u); [|nia]. subst l. rewrite <- pow2_add by lia. apply pow2_le; lia.
Qed.
Lemma dbl_round_dbl s m e : 0 < m -> dbl (dbl_round s m e).
Proof.
  intros Hm. pose proof (dbl_scaled m e Hm) as S. cbv zeta in S. unfold dbl_round. cbv zeta. remember (Z.max (Z.log2 m + e - 52) (-1074)) as q. destruct S as [S1 S2].
  pose proof (num2_pos m (e - q) Hm) as NP. pose proof (den2_pos 1 (e - q) ltac:(lia)) as DP. remember (num2 m (e - q)) as a. remember (den2 1 (e - q)) as b. pose proof (rne_bounds a b DP) as R.
  assert (U : a / b < 2 ^ 53) by (apply Z.div_lt_upper_bound; lia). assert (D : 0 <= a / b) by (apply Z.div_pos; lia). assert (V : -1074 < q -> 2 ^ 52 <= a / b) by (intros Q; apply Z.div_le_lower_bound; [lia|]; rewrite Z.mul_comm; exact (S2 Q)).
  change (2 ^ 53) with (2 * 2 ^ 52) in *. remember (2 ^ 52) as h. assert (0 < h) by (rewrite Heqh; reflexivity).
  destruct (rne_div a b =? 2 * h) eqn:T; cbv beta iota.
  - destruct (rne_div a b =? 0); [exact I|]. destruct (971 <? _) eqn:O; [exact I|]. unfold dbl. change (2 ^ 53) with (2 * 2 ^ 52). rewrite <- Heqh. left. lia.
  - destruct (rne_div a b =? 0) eqn:Z0; [exact I|]. destruct (971 <? _) eqn:O; [exact I|]. unfold dbl. change (2 ^ 53) with (2 * 2 ^ 52). rewrite <- Heqh. destruct (Z.eq_dec q (-1074)) as [Q|Q]; [|left; lia]. destruct (Z_lt_le_dec (rne_div a b) h); [right; lia|left; lia].
Qed.
(** A number that is a double is not changed. *)
Lemma dbl_exact s m e : 0 < m < 2 ^ 53 -> -1074 <= e -> Z.log2 m + e <= 1023 -> let j := e - Z.max (Z.log2 m + e - 52) (-1074) in
  0 <= j /\ dbl_round s m e = Num s (m * 2 ^ j) (e - j).
Proof.
  intros Hm He HU j. assert (L : Z.log2 m <= 52) by (apply Z.lt_succ_r; apply Z.log2_lt_pow2; lia). assert (J : 0 <= j) by lia. split; [exact J|]. pose proof (dbl_scaled m e ltac:(lia)) as S. cbv zeta in S.
  unfold dbl_round. cbv zeta. fold j. destruct S as [S _]. fold j in S. unfold num2, den2 in *. rewrite (Z.max_r 0 j) in * by lia. replace (Z.max 0 (- j)) with 0 in * by lia. change (1 * 2 ^ 0) with 1 in *. rewrite rne_div_1.
  pose proof (pow2_pos j J). assert (P : 0 < m * 2 ^ j) by nia. remember (m * 2 ^ j) as t. replace (t =? 2 ^ 53) with false by lia. cbv beta iota. replace (t =? 0) with false by lia. replace (971 <? _) with false by lia. f_equal. unfold j. lia.
Qed.
Lemma veq_scale s m e j : 0 <= j -> veq (Num s (m * 2 ^ j) (e - j)) (Num s m e).
Proof.
  intros J. split; [reflexivity|]. unfold cmp_num. cbv zeta. rewrite Z.min_l by lia. apply Z.compare_eq_iff. rewrite Z.sub_diag. replace (e - (e - j)) with j by lia. change (2 ^ 0) with 1. ring.
Qed.
Lemma dbl_exact_veq s m e : 0 < m < 2 ^ 53 -> -1074 <= e -> Z.log2 m + e <= 1023 -> veq (dbl_round s m e) (Num s m e).
Proof. intros Hm He HU. destruct (dbl_exact s m e Hm He HU) as [J R]. rewrite R. apply veq_scale. exact J. Qed.
Lemma log2_norm F f : 0 <= F -> 0 <= f < 2 ^ F -> Z.log2 (2 ^ F + f) = F.
Proof. intros HF Hf. apply Z.log2_unique; [exact HF|]. rewrite Z.pow_succ_r by lia. lia. Qed.
(** ** to_double *)
Lemma to_double_view E F fl s ey f : 1 <= E <= 11 -> 1 <= F <= 52 -> okf E F fl ey f ->
  to_double E F (pack E F fl s ey f) = Some (if fl =? 0 then Zero s else if fl =? 1 then dbl_ldexp (dbl_of_u64 (if s then 2 ^ 64 - (2 ^ F + f) else 2 ^ F + f)) (ey - bias E - F) else if fl =? 2 then Inf s else NaN).
Proof.
  intros HE HF O. assert (O' := O). destruct O' as (_ & _ & Hfl & He & Hf). unfold to_double. replace ((F <=? 52) && (E <=? 11)) with true by lia. cbn [assert_ bind].
  unfold is_zero, is_normal, is_inf, is_negative, feq. rewrite get_flags_pack, get_sign_pack, get_exp_pack, get_frac_pack by assumption. rewrite !to_bool_b2z.
  replace (Z.b2z s =? 1) with s by (destruct s; reflexivity). pose proof (pow2_pos F ltac:(lia)) as PF. assert (P53 : 2 ^ F <= 2 ^ 52) by (apply pow2_le; lia).
  apply flags_cases in Hfl. destruct Hfl as [->|[->|[->| ->]]]; cbn [Z.eqb Pos.eqb]; try reflexivity.
  change (og 1) with 1. rewrite cat_eq by lia. rewrite Z.mul_1_l. unfold m_to_uint64, wrap. change (2 ^ 64) with (4096 * 2 ^ 52). remember (2 ^ 52) as h. assert (0 < h) by (rewrite Heqh; reflexivity). rewrite Z.mod_small by lia. rewrite Z.eqb_refl. cbn [assert_ bind].
  assert (2 ^ E <= 2 ^ 11) by (apply pow2_le; lia). unfold to_int. replace (ey <=? 2 ^ 31 - 1) with true by (change (2 ^ 31) with (2 ^ 11 * 2 ^ 20); assert (1 < 2 ^ 20) by reflexivity; assert (0 < 2 ^ 11) by reflexivity; nia). cbn [bind]. unfold bias.
  replace (- (2 ^ F + f) mod (4096 * h)) with (4096 * h - (2 ^ F + f)) by (apply (Z.mod_unique (- (2 ^ F + f)) (4096 * h) (-1)); lia). reflexivity.
Qed.
Lemma ldexp_u64 v : 0 < v < 2 ^ 53 -> exists j, 0 <= j /\ dbl_of_u64 v = Num false (v * 2 ^ j) (- j) /\ v * 2 ^ j < 2 ^ 53 /\ Z.log2 (v * 2 ^ j) = 52.
Proof.
  intros Hv. unfold dbl_of_u64. replace (v =? 0) with false by lia. assert (L : Z.log2 v <= 52) by (apply Z.lt_succ_r; apply Z.log2_lt_pow2; lia). pose proof (Z.log2_nonneg v).
  destruct (dbl_exact false v 0 Hv ltac:(lia) ltac:(lia)) as [J R]. cbv zeta in *. remember (0 - Z.max (Z.log2 v + 0 - 52) (-1074)) as j. exists j. rewrite R. split; [exact J|]. split; [f_equal; lia|].
  assert (LJ : Z.log2 (v * 2 ^ j) = 52) by (rewrite Z.log2_mul_pow2 by lia; lia). split; [|exact LJ]. pose proof (pow2_pos j J). destruct (Z.log2_spec (v * 2 ^ j) ltac:(nia)) as [_ U]. rewrite LJ in U. exact U.
Qed.
Lemma to_double_normal_pos E F ey f : 1 <= E <= 11 -> 1 <= F <= 52 -> okf E F 1 ey f -> -1022 <= ey - bias E <= 1023 ->
  exists v, to_double E F (pack E F 1 false ey f) = Some v /\ veq v (Num false (2 ^ F + f) (ey - bias E - F)) /\ dbl v.
Proof.
  intros HE HF O R. rewrite to_double_view by assumption. cbn [Z.eqb Pos.eqb]. destruct O as (_ & _ & _ & He & Hf). pose proof (pow2_pos F ltac:(lia)) as PF. assert (P53 : 2 ^ F <= 2 ^ 52) by (apply pow2_le; lia).
  eexists. split; [reflexivity|]. destruct (ldexp_u64 (2 ^ F + f) ltac:(change (2 ^ 53) with (2 * 2 ^ 52); lia)) as [j [J [-> [U L]]]]. cbn [dbl_ldexp]. pose proof (pow2_pos j J) as PJ. split; [|apply dbl_round_dbl; nia].
  assert (LF : Z.log2 (2 ^ F + f) = F) by (apply log2_norm; lia). rewrite Z.log2_mul_pow2 in L by lia. rewrite LF in L. assert (LJ : Z.log2 ((2 ^ F + f) * 2 ^ j) = 52) by (rewrite Z.log2_mul_pow2 by lia; lia).
  destruct (dbl_exact false ((2 ^ F + f) * 2 ^ j) (- j + (ey - bias E - F)) ltac:(nia) ltac:(lia) ltac:(lia)) as [J2 R2]. cbv zeta in *. rewrite LJ in *. remember (- j + (ey - bias E - F) - Z.max (52 + (- j + (ey - bias E - F)) - 52) (-1074)) as i. rewrite R2. replace i with 0 in * by lia. change (2 ^ 0) with 1. rewrite Z.mul_1_r, Z.sub_0_r. replace (- j + (ey - bias E - F)) with (ey - bias E - F - j) by lia. apply veq_scale. exact J.
Qed.
