(** The native and SoftFloat policies: reading a word, writing one, and the references. *)
From Coq Require Import ZArith List Bool Lia.
From Verif Require Import Fw FwLemmas Spec SpecPolicy Spec754 SpecDbl SpecLemmas CompareProofs ValueLemmas Sf754Lemmas SfProofs1 MpfrLib MpfrRange MpfrProofs2 Dbl DblProofs SoftFloat Policy PolicyProofs PolicyProofs2 PolicyProofs3.
Import ListNotations.
Open Scope Z_scope.

Definition r754 (E F : Z) (v : fval) : fval := match v with Num s m e => round754 E F s m 1 e | _ => v end.
(** The numbers of the format in the form decode754 gives them. *)
Definition in754 (E F : Z) (v : fval) : Prop :=
  match v with Num _ m e => 0 < m < 2 ^ F /\ e = qmin E F \/ 2 ^ F <= m < 2 ^ (F + 1) /\ qmin E F <= e <= bias E - F | _ => True end.

Lemma bias_pos E : 2 <= E -> 1 <= bias E.
Proof. intros H. unfold bias. assert (2 <= 2 ^ (E - 1)); [|lia]. change 2 with (2 ^ 1) at 1. apply Z.pow_le_mono_r; lia. Qed.
Lemma samev_veq s m e t n f : veq (Num s m e) (Num t n f) -> s = t /\ samev m 1 e n 1 f.
Proof.
  intros [-> H]. split; [reflexivity|]. exists (Z.max 0 (f - e)). split; [lia|]. split; [lia|].
  rewrite (CompareProofs.cmp_num_k m e n f (Z.min e f)) in H by lia. apply Z.compare_eq_iff in H. rewrite Z.mul_1_l, Z.mul_1_r.
  replace (Z.max 0 (f - e)) with (f - Z.min e f) by lia. replace (f - Z.min e f + (e - f)) with (e - Z.min e f) by lia. symmetry. exact H.
Qed.
Lemma r754_veq E F v v' : 0 <= F -> pos_v v -> pos_v v' -> veq v v' -> r754 E F v = r754 E F v'.
Proof.
  intros HF P P' V. destruct v as [|s|s|s m e], v' as [|t|t|t n f]; cbn [veq r754 pos_v] in *; try contradiction; try congruence.
  destruct (samev_veq _ _ _ _ _ _ V) as [-> S]. apply round754_same; try lia. exact S.
Qed.
Lemma r754_in E F v : 2 <= E -> 0 <= F -> in754 E F v -> r754 E F v = v.
Proof.
  intros HE HF H. destruct v as [|s|s|s m e]; try reflexivity. cbn [in754 r754] in *. pose proof (bias_pos E HE). pose proof (pow2_pos F HF). assert (P1 : 2 ^ (F + 1) = 2 * 2 ^ F) by (rewrite Z.pow_add_r; lia).
  rewrite (round754_char E F s m 1 e e m 1) by (try apply samev_refl; lia). rewrite SpecLemmas.rne_div_1. unfold fin754. cbv zeta. replace (m =? 2 ^ (F + 1)) with false by lia. replace (m =? 0) with false by lia. unfold qmin in H. replace (bias E <? e + F) with false by lia. reflexivity.
Qed.
Lemma decode754_in E F w : 1 <= E -> 0 <= F -> in754 E F (decode754 E F w).
Proof.
  intros HE HF. unfold decode754. cbv zeta. pose proof (pow2_pos F HF) as PF. pose proof (pow2_pos E ltac:(lia)) as PE. pose proof (Z.mod_pos_bound w _ PF). pose proof (Z.mod_pos_bound (w / 2 ^ F) _ PE). remember (w mod 2 ^ F) as fr. remember ((w / 2 ^ F) mod 2 ^ E) as ex.
  destruct (ex =? 2 ^ E - 1) eqn:A; [destruct (fr =? 0); exact I|]. destruct (ex =? 0) eqn:B.
  - destruct (fr =? 0) eqn:C; [exact I|]. left. unfold qmin. lia.
  - right. assert (P1 : 2 ^ (F + 1) = 2 * 2 ^ F) by (rewrite Z.pow_add_r; lia). unfold qmin. assert (2 ^ E = 2 * 2 ^ (E - 1)) by (rewrite <- Z.pow_succ_r by lia; f_equal; lia). unfold bias. lia.
Qed.
Lemma in754_pos E F v : 0 <= F -> in754 E F v -> pos_v v.
Proof. intros HF. pose proof (pow2_pos F HF). destruct v; cbn; lia. Qed.
Lemma nice_pos E F v : 0 <= F -> nice E F v -> pos_v v.
Proof. intros HF. pose proof (pow2_pos F HF). destruct v; cbn; lia. Qed.
(** A number the reference can give is one of the format. *)
Lemma nice_exact E F v : 2 <= E -> 1 <= F -> nice E F v -> in754 E F (r754 E F v) /\ veq (r754 E F v) v.
Proof.
  intros HE HF N. destruct v as [|s|s|s m e]; try (split; [exact I|apply veq_refl]). cbn [nice] in N. destruct N as [N1 [N2 N3]]. pose proof (bias_pos E HE). pose proof (pow2_pos F ltac:(lia)).
  destruct (Z_lt_le_dec e (qmin E F)) as [L|L].
  - specialize (N3 L). remember (qmin E F - e) as j eqn:J. pose proof (pow2_pos j ltac:(lia)) as PJ. assert (D : m = m / 2 ^ j * 2 ^ j) by (pose proof (Z.div_mod m (2 ^ j) ltac:(lia)); lia). remember (m / 2 ^ j) as M.
    assert (V : veq (Num s m e) (Num s M (qmin E F))) by (rewrite D; replace (qmin E F) with (e + j) by lia; apply veq_up; lia).
    assert (0 < M) by nia. assert (M < 2 ^ F). { assert (P1 : 2 ^ (F + 1) = 2 * 2 ^ F) by (rewrite Z.pow_add_r; lia). assert (2 <= 2 ^ j) by (change 2 with (2 ^ 1) at 1; apply Z.pow_le_mono_r; lia). nia. }
    assert (I754 : in754 E F (Num s M (qmin E F))) by (left; lia).
    assert (PM : pos_v (Num s m e)) by (cbn [pos_v]; lia). rewrite (r754_veq E F _ _ ltac:(lia) PM (in754_pos E F _ ltac:(lia) I754) V). rewrite (r754_in E F _ HE ltac:(lia) I754). split; [exact I754|apply veq_sym; exact V].
  - assert (I754 : in754 E F (Num s m e)) by (right; lia). rewrite (r754_in E F _ HE ltac:(lia) I754). split; [exact I754|apply veq_refl].
Qed.

(** ** Words *)
Lemma decode_word754 E F v : 2 <= E -> 1 <= F -> in754 E F v -> 0 <= word754 E F v < 2 ^ (E + F + 1) /\ decode754 E F (word754 E F v) = v.
Proof.
  intros HE HF H. pose proof (pow2_pos F ltac:(lia)) as PF. pose proof (pow2_pos (F - 1) ltac:(lia)) as PF1. pose proof (pow2_pos (E - 1) ltac:(lia)) as PE1. pose proof (bias_pos E HE) as HB.
  assert (S1 : 2 ^ F = 2 * 2 ^ (F - 1)) by (rewrite <- Z.pow_succ_r by lia; f_equal; lia). assert (S2 : 2 ^ E = 2 * 2 ^ (E - 1)) by (rewrite <- Z.pow_succ_r by lia; f_equal; lia). assert (S3 : 2 ^ (F + 1) = 2 * 2 ^ F) by (rewrite Z.pow_add_r; lia).
  assert (S4 : 2 ^ (E + F + 1) = 2 * (2 ^ E * 2 ^ F)) by (rewrite !Z.pow_add_r by lia; lia). assert (S5 : 2 ^ (E + F) = 2 ^ E * 2 ^ F) by (rewrite Z.pow_add_r; lia).
  assert (R : forall (s : bool) ex fr, 0 <= ex < 2 ^ E -> 0 <= fr < 2 ^ F -> 0 <= Z.b2z s * 2 ^ (E + F) + (ex * 2 ^ F + fr) < 2 ^ (E + F + 1)).
  { intros s ex fr X Y. rewrite S4, S5. assert (ex * 2 ^ F + fr < 2 ^ E * 2 ^ F) by nia. assert (0 <= ex * 2 ^ F) by nia. destruct s; cbn [Z.b2z]; lia. }
  assert (G : forall (s : bool) ex fr w, 0 <= ex < 2 ^ E -> 0 <= fr < 2 ^ F -> w = Z.b2z s * 2 ^ (E + F) + (ex * 2 ^ F + fr) ->
    (if ex =? 2 ^ E - 1 then if fr =? 0 then Inf s else NaN else if ex =? 0 then if fr =? 0 then Zero s else Num s fr (1 - bias E - F) else Num s (2 ^ F + fr) (ex - bias E - F)) = v ->
    0 <= w < 2 ^ (E + F + 1) /\ decode754 E F w = v).
  { intros s ex fr w X Y -> Hv. split; [apply R; assumption|]. rewrite decode754_fields by lia. exact Hv. }
  unfold bias in *. destruct v as [|s|s|s m e]; cbn [word754].
  - apply (G false (2 ^ E - 1) (2 ^ (F - 1))); [lia|lia|cbn [Z.b2z]; lia|]. rewrite Z.eqb_refl. replace (2 ^ (F - 1) =? 0) with false by lia. reflexivity.
  - apply (G s (2 ^ E - 1) 0); [lia|lia|lia|]. rewrite Z.eqb_refl. reflexivity.
  - apply (G s 0 0); [lia|lia|lia|]. replace (0 =? 2 ^ E - 1) with false by lia. reflexivity.
  - cbn [in754] in H. unfold qmin, bias in *. destruct H as [[H1 H2]|[H1 H2]].
    + replace (m <? 2 ^ F) with true by lia. apply (G s 0 m); [lia|lia|lia|]. replace (0 =? 2 ^ E - 1) with false by lia. replace (m =? 0) with false by lia. cbn [Z.eqb]. unfold bias. f_equal. lia.
    + replace (m <? 2 ^ F) with false by lia. apply (G s (e + (2 ^ (E - 1) - 1) + F) (m - 2 ^ F)); [lia|lia|lia|]. replace (_ =? 2 ^ E - 1) with false by lia. replace (_ =? 0) with false by lia. unfold bias. f_equal; lia.
Qed.

(** ** Reading *)
Lemma native_reads E F w : 2 <= E <= 29 -> 1 <= F <= 1000 ->
  exists x j, native_to E F (F + 1) w = Some x /\ 0 <= j /\ x = scale_v j (decode754 E F w) /\ nice E F x.
Proof.
  intros HE HF. unfold native_to. cbv zeta. pose proof (decode754_in E F w ltac:(lia) ltac:(lia)) as I7. unfold mpfr_set_d_inexact, mpfr_set_d. destruct (decode754 E F w) as [|s|s|s m e] eqn:D.
  - exists NaN, 0. repeat split; reflexivity || lia.
  - exists (Inf s), 0. cbn. destruct s; repeat split; reflexivity || lia.
  - exists (Zero s), 0. repeat split; reflexivity || lia.
  - pose proof (bias_pos E ltac:(lia)) as HB. pose proof (pow2_pos F ltac:(lia)) as PF. assert (S3 : 2 ^ (F + 1) = 2 * 2 ^ F) by (rewrite Z.pow_add_r; lia). cbn [in754] in I7. unfold qmin in *.
    assert (HB2 : bias E < 2 ^ 28). { unfold bias. assert (2 ^ (E - 1) <= 2 ^ 28) by (apply Z.pow_le_mono_r; lia). lia. }
    pose proof (Z.log2_spec m ltac:(lia)) as [L1 L2]. pose proof (Z.log2_nonneg m) as L0. assert (L3 : Z.log2 m <= F) by (assert (Z.log2 m < F + 1); [apply Z.log2_lt_pow2; lia|lia]). assert (L4 : 2 ^ F <= m -> Z.log2 m = F) by (intros X; assert (F <= Z.log2 m); [apply Z.log2_le_pow2; lia|lia]).
    assert (MM : mp_emax = 2 ^ 30 - 1 /\ mp_emin = - (2 ^ 30 - 1)) by (split; reflexivity). assert (X28 : 2 ^ 30 = 4 * 2 ^ 28) by reflexivity. assert (Y28 : 1000 < 2 ^ 28) by reflexivity. remember (2 ^ 28) as t28.
    cbn [mpfr_set]. rewrite mp_round_exact by lia. replace (F + 1 - 1) with F by lia. remember (F - Z.log2 m) as j.
    assert (C : mpfr_cmp (Num s (m * 2 ^ j) (e - j)) (Num s m e) = Eq).
    { pose proof (mpfr_cmp_vcmp (Num s (m * 2 ^ j) (e - j)) (Num s m e)) as C. cbn [mpfr_unordered_p mpfr_nan_p orb] in C. assert (C2 : vcmp (Num s (m * 2 ^ j) (e - j)) (Num s m e) = Some Eq); [|congruence].
      pose proof (vcmp_veq _ _ (Num s m e) _ (CompareProofs.veq_scale j (Num s m e) ltac:(lia)) (veq_refl _)) as V. cbn [scale_v] in V. rewrite V. cbn [vcmp]. unfold cmp_num. rewrite Z.compare_refl. reflexivity. }
    rewrite C. exists (Num s (m * 2 ^ j) (e - j)), j. split; [reflexivity|]. split; [lia|]. split; [reflexivity|]. cbn [nice]. unfold qmin.
    assert (PL : 2 ^ F = 2 ^ Z.log2 m * 2 ^ j) by (rewrite <- Z.pow_add_r by lia; f_equal; lia). rewrite Z.pow_succ_r in L2 by lia. pose proof (pow2_pos j ltac:(lia)). split; [rewrite S3, PL; nia|].
    destruct I7 as [[I1 I2]|[I1 I2]].
    + split; [lia|]. intros _. replace (1 - bias E - F - (e - j)) with j by lia. apply Z_mod_mult.
    + specialize (L4 ltac:(lia)). assert (j = 0) by lia. split; lia.
Qed.

(** ** Writing *)
Lemma dbl_r754 v : pos_v v -> to_dbl v = r754 11 52 v.
Proof.
  destruct v as [|s|s|s m e]; try reflexivity. cbn [pos_v to_dbl r754]. intros H. unfold dbl_round, round754. rewrite mag_int' by assumption. cbv zeta.
  change (1 - bias 11 - 52) with (-1074). change (2 ^ (52 + 1)) with (2 ^ 53). change (bias 11) with 1023. remember (Z.max (Z.log2 m + e - 52) (-1074)) as q. remember (rne_div (num2 m (e - q)) (den2 1 (e - q))) as r.
  destruct (r =? 0); [reflexivity|]. assert (K : forall q', (971 <? q') = (1023 <? q' + 52)) by (intros; lia). rewrite K. reflexivity.
Qed.
Lemma cmp_eq x y : veq x y -> mpfr_cmp x y = Eq.
Proof.
  intros V. pose proof (mpfr_cmp_vcmp x y) as C. destruct (mpfr_unordered_p x y) eqn:U; [|].
  - destruct x; cbn in U; [reflexivity|..]; destruct y; try discriminate; contradiction.
  - rewrite (vcmp_veq _ _ _ _ V (veq_refl y)) in C. destruct y as [|s|s|s m e]; cbn [vcmp] in C.
    + destruct x; cbn in U; discriminate.
    + destruct s; congruence.
    + congruence.
    + unfold cmp_num in C. rewrite Z.compare_refl in C. congruence.
Qed.
Definition writes (E F : Z) (from : bool -> fval -> option Z) : Prop :=
  forall allow v, nice E F v -> exists w, from allow v = Some w /\ 0 <= w < 2 ^ (E + F + 1) /\ veq (decode754 E F w) v.
Lemma double_writes : writes 11 52 double_from.
Proof.
  intros allow v N. destruct (nice_exact 11 52 v ltac:(lia) ltac:(lia) N) as [I7 V]. pose proof (nice_pos 11 52 v ltac:(lia) N) as P. unfold double_from, mpfr_get_d. rewrite dbl_r754 by exact P. cbv zeta. rewrite (cmp_eq _ _ (veq_sym _ _ V)). cbn [bind].
  destruct (decode_word754 11 52 _ ltac:(lia) ltac:(lia) I7) as [W D]. eexists. split; [reflexivity|]. split; [exact W|]. rewrite D. exact V.
Qed.
Lemma nice_in_range E F x : nice E F x -> in_range (qmin E F + 1) (bias E + 1) (F + 1) x = true.
Proof. destruct x as [|s|s|s m e]; try reflexivity. cbn [nice in_range]. intros. apply andb_true_intro. split; lia. Qed.
Lemma single_writes : writes 8 23 single_from.
Proof.
  intros allow v N. destruct (nice_exact 8 23 v ltac:(lia) ltac:(lia) N) as [I7 V]. pose proof (nice_pos 8 23 v ltac:(lia) N) as P. unfold single_from, mpfr_set_t. pose proof (nice_in_range 8 23 v N) as IR. change (qmin 8 23 + 1) with (-148) in IR. change (bias 8 + 1) with 128 in IR. change (23 + 1) with 24 in IR. rewrite IR. cbn [assert_ bind]. cbv zeta.
  assert (T : nice 8 23 (mpfr_subnormalize (-148) 24 (mp_finish (-148) 128 24 (exact_set v))) /\ veq (mpfr_subnormalize (-148) 24 (mp_finish (-148) 128 24 (exact_set v))) (r754 8 23 v)).
  { destruct v as [|s|s|s m e]; try (split; [exact I|apply veq_refl]). cbn [exact_set mp_finish r754]. cbn [pos_v] in P. pose proof (subnormal_round 8 23 s m 1 e ltac:(lia) ltac:(lia) P ltac:(lia)) as S. cbv zeta in S. change (qmin 8 23 + 1) with (-148) in S. change (bias 8 + 1) with 128 in S. change (23 + 1) with 24 in S. exact S. }
  destruct T as [T1 T2]. remember (mpfr_subnormalize (-148) 24 (mp_finish (-148) 128 24 (exact_set v))) as t. clear Heqt.
  assert (Pt : pos_v t) by (apply (nice_pos 8 23); [lia|exact T1]).
  assert (G : veq (to_dbl t) t /\ pos_v (to_dbl t)).
  { destruct t as [|s|s|s m e]; try (split; [apply veq_refl|exact I]). cbn [to_dbl]. cbn [nice pos_v] in T1, Pt. change (qmin 8 23) with (-149) in T1. change (bias 8) with 127 in T1. destruct T1 as [T3 [T4 _]]. assert (X : 2 ^ (23 + 1) = 2 ^ 24) by reflexivity. assert (X2 : 2 ^ 24 < 2 ^ 53) by reflexivity. assert (L : Z.log2 m < 24) by (apply Z.log2_lt_pow2; lia). assert (B : 0 < m < 2 ^ 53) by lia. destruct (dbl_exact s m e B ltac:(lia) ltac:(lia)) as [J Q]. split.
    - apply dbl_exact_veq; lia.
    - rewrite Q. cbn [pos_v]. remember (e - Z.max (Z.log2 m + e - 52) (-1074)) as j. pose proof (pow2_pos j J). nia. }
  destruct G as [G1 G2]. unfold mpfr_get_d.
  assert (VV : veq v (to_dbl t)) by (apply veq_sym; apply (veq_trans _ t); [exact G1|]; apply (veq_trans _ (r754 8 23 v)); assumption).
  rewrite (cmp_eq _ _ VV). cbn [bind]. replace (to_float (to_dbl t)) with (r754 8 23 v).
  - destruct (decode_word754 8 23 _ ltac:(lia) ltac:(lia) I7) as [W D]. eexists. split; [reflexivity|]. split; [exact W|]. rewrite D. exact V.
  - change (to_float (to_dbl t)) with (r754 8 23 (to_dbl t)). apply r754_veq; [lia|exact P|exact G2|exact VV].
Qed.

(** ** References *)
Definition scales (op : fval -> fval -> exact) : Prop := forall E F i j x y, 0 <= F -> 0 <= i -> 0 <= j -> pos_v x -> pos_v y ->
  with_rnd (round754 E F) (op (scale_v i x) (scale_v j y)) = with_rnd (round754 E F) (op x y).
Lemma round754_val E F : 0 <= F -> rnd_val (round754 E F).
Proof. intros HF s n k j Hn Hj. pose proof (pow2_pos j Hj). apply round754_same; try lia; try nia. pose proof (samev_num n 1 k j Hj) as S. destruct S as [c [C1 [C2 C3]]]. exists (c + (k - (k - j))). split; [lia|]. split; [lia|]. replace (c + (k - (k - j)) + (k - j - k)) with c by lia. lia. Qed.
Lemma scales_add : scales exact_add.
Proof. intros E F i j x y HF Hi Hj Px Py. rewrite <- !add_gen_exact. apply add_gen_scale2; try assumption. apply round754_val. exact HF. Qed.
Lemma scales_mul : scales exact_mul.
Proof.
  intros E F i j x y HF Hi Hj Px Py. destruct x as [|s|s|s m e], y as [|t|t|t n f]; cbn [scale_v exact_mul with_rnd]; try reflexivity. cbn [pos_v] in *.
  replace (m * 2 ^ i * (n * 2 ^ j)) with (m * n * 2 ^ (i + j)) by (rewrite Z.pow_add_r by lia; ring). replace (e - i + (f - j)) with (e + f - (i + j)) by lia. apply round754_val; [exact HF|nia|lia].
Qed.
Lemma scales_div : scales exact_div.
Proof.
  intros E F i j x y HF Hi Hj Px Py. destruct x as [|s|s|s m e], y as [|t|t|t n f]; cbn [scale_v exact_div with_rnd]; try reflexivity. cbn [pos_v] in *.
  pose proof (pow2_pos i Hi). pose proof (pow2_pos j Hj). apply round754_same; try lia; try nia. exists i. split; [lia|]. split; [lia|]. replace (i + (e - i - (f - j) - (e - f))) with j by lia. ring.
Qed.
Lemma native_reference E F P op gen : 2 <= E <= 29 -> 1 <= F <= 1000 -> to_mpfr P = native_to E F (F + 1) -> writes E F (from_mpfr P) ->
  (forall x y, pos_v x -> pos_v y -> pos_ex (op x y)) -> scales op -> (forall x y, gen x y = with_rnd (round754 E F) (op x y)) ->
  reference_ok P (decode754 E F) (fun w => 0 <= w < 2 ^ (E + F + 1)) (native_ref (qmin E F + 1) (bias E + 1) (F + 1) (mpfr_op_t op)) gen.
Proof.
  intros HE HF HT HW Hpos Hsc Hgen a b x y Ha Hb Hx Hy. rewrite HT in *.
  destruct (native_reads E F a HE HF) as [x' [i [X1 [X2 [X3 X4]]]]]. rewrite X1 in Hx. injection Hx as ->. destruct (native_reads E F b HE HF) as [y' [j [Y1 [Y2 [Y3 Y4]]]]]. rewrite Y1 in Hy. injection Hy as ->.
  unfold native_ref, mpfr_op_t. rewrite !nice_in_range by assumption. cbn [andb assert_ bind].
  pose proof (Hpos x y (nice_pos E F x ltac:(lia) X4) (nice_pos E F y ltac:(lia) Y4)) as PX.
  assert (T : nice E F (mpfr_subnormalize (qmin E F + 1) (F + 1) (mp_finish (qmin E F + 1) (bias E + 1) (F + 1) (op x y))) /\ veq (mpfr_subnormalize (qmin E F + 1) (F + 1) (mp_finish (qmin E F + 1) (bias E + 1) (F + 1) (op x y))) (gen (decode754 E F a) (decode754 E F b))).
  { pose proof (decode754_in E F a ltac:(lia) ltac:(lia)) as Ia. pose proof (decode754_in E F b ltac:(lia) ltac:(lia)) as Ib.
    replace (gen (decode754 E F a) (decode754 E F b)) with (with_rnd (round754 E F) (op x y)).
    2:{ rewrite Hgen, X3, Y3. apply Hsc; [lia|assumption|assumption|..]; (apply (in754_pos E F); [lia|assumption]). }
    destruct (op x y) as [v|s n d k]; cbn [mp_finish with_rnd pos_ex] in *.
    - destruct v; try contradiction; split; try exact I; apply veq_refl.
    - apply subnormal_round; lia. }
  destruct T as [T1 T2]. eexists. destruct (HW true _ T1) as [w [W1 [W2 W3]]]. exists w. destruct (native_reads E F w HE HF) as [z [l [Z1 [Z2 [Z3 Z4]]]]]. exists z. split; [reflexivity|]. split; [exact W1|]. split; [exact Z1|].
  apply (veq_trans _ (decode754 E F w)); [rewrite Z3; apply CompareProofs.veq_scale; exact Z2|]. eapply veq_trans; eassumption.
Qed.
Lemma native_reads_ok E F P : 2 <= E <= 29 -> 1 <= F <= 1000 -> to_mpfr P = native_to E F (F + 1) -> reads_ok P (decode754 E F) (fun w => 0 <= w < 2 ^ (E + F + 1)).
Proof. intros HE HF HT w _. rewrite HT. destruct (native_reads E F w HE HF) as [z [l [Z1 [Z2 [Z3 Z4]]]]]. exists z. split; [exact Z1|]. rewrite Z3. apply CompareProofs.veq_scale. exact Z2. Qed.

Definition word32 (w : Z) : Prop := 0 <= w < 2 ^ 32.
Definition word64 (w : Z) : Prop := 0 <= w < 2 ^ 64.
Theorem single_test O l : (forall a, In a l -> word32 a) -> (forall a b, In a l -> In b l -> returns word32 O a b) ->
  exists f, test_inputs single_policy O l = Some f /\
    (f = false <-> forall a b, In a l -> In b l -> wanted (decode754 8 23) O a b /\ right_arithmetic (decode754 8 23) (mul754 8 23) (add754 8 23) (div754 8 23) O a b).
Proof.
  assert (R : forall op gen, (forall x y, pos_v x -> pos_v y -> pos_ex (op x y)) -> scales op -> (forall x y, gen x y = with_rnd (round754 8 23) (op x y)) ->
    reference_ok single_policy (decode754 8 23) word32 (single_ref (mpfr_op_t op) 24) gen).
  { intros op gen H1 H2 H3. exact (native_reference 8 23 single_policy op gen ltac:(lia) ltac:(lia) eq_refl single_writes H1 H2 H3). }
  apply test_inputs_gen; [exact (native_reads_ok 8 23 single_policy ltac:(lia) ltac:(lia) eq_refl)|..]; apply R;
    first [exact scales_mul|exact scales_add|exact scales_div|exact exact_mul_pos|exact exact_add_pos|exact exact_div_pos|apply mul_gen_exact|apply add_gen_exact|apply div_gen_exact].
Qed.
Theorem double_test O l : (forall a, In a l -> word64 a) -> (forall a b, In a l -> In b l -> returns word64 O a b) ->
  exists f, test_inputs double_policy O l = Some f /\
    (f = false <-> forall a b, In a l -> In b l -> wanted (decode754 11 52) O a b /\ right_arithmetic (decode754 11 52) (mul754 11 52) (add754 11 52) (div754 11 52) O a b).
Proof.
  assert (R : forall op gen, (forall x y, pos_v x -> pos_v y -> pos_ex (op x y)) -> scales op -> (forall x y, gen x y = with_rnd (round754 11 52) (op x y)) ->
    reference_ok double_policy (decode754 11 52) word64 (double_ref (mpfr_op_t op) 53) gen).
  { intros op gen H1 H2 H3. exact (native_reference 11 52 double_policy op gen ltac:(lia) ltac:(lia) eq_refl double_writes H1 H2 H3). }
  apply test_inputs_gen; [exact (native_reads_ok 11 52 double_policy ltac:(lia) ltac:(lia) eq_refl)|..]; apply R;
    first [exact scales_mul|exact scales_add|exact scales_div|exact exact_mul_pos|exact exact_add_pos|exact exact_div_pos|apply mul_gen_exact|apply add_gen_exact|apply div_gen_exact].
Qed.
