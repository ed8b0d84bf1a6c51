(** The MPFR constructor and get of fp_flopoco. *)
From Coq Require Import ZArith Bool Lia.
From Verif Require Import Fw FwLemmas FwWord FwWordProofs FwWordProofs2 FwWordProofs3 Spec SpecLemmas Flopoco FlopocoLemmas Ieee MpfrLib Mpfr.
Open Scope Z_scope.

Lemma round_pos_range F n d : 0 <= F -> 0 < n -> 0 < d -> 2 ^ F <= fst (round_pos F n d) < 2 ^ (F + 1).
Proof.
  intros HF Hn Hd. pose proof (pow2_pos F HF) as PF. pose proof (pow2_S F HF) as P1. unfold round_pos. cbv zeta.
  pose proof (mag_spec n d Hn Hd) as [M1 M2]. remember (mag n d) as g. clear Heqg.
  assert (D : 2 ^ F * den2 d (- (g - F)) <= num2 n (- (g - F)) < 2 ^ (F + 1) * den2 d (- (g - F))).
  { pose proof (den2_pos d (- g) Hd) as D1. pose proof (den2_pos d (- (g - F)) Hd) as D2. pose proof (num2_den2_cross n d (- g) (Z.abs g) ltac:(lia) ltac:(lia)) as X. pose proof (num2_den2_cross n d (- (g - F)) (Z.abs g) ltac:(lia) ltac:(lia)) as Y.
    replace (Z.abs g + - (g - F)) with (Z.abs g + - g + F) in Y by lia. rewrite (pow2_add (Z.abs g + - g) F) in Y by lia. pose proof (pow2_pos (Z.abs g) ltac:(lia)) as PA. pose proof (pow2_pos (Z.abs g + - g) ltac:(lia)) as PB.
    remember (2 ^ Z.abs g) as a. remember (2 ^ (Z.abs g + - g)) as b. remember (num2 n (- g)) as N. remember (den2 d (- g)) as DD. remember (num2 n (- (g - F))) as N'. remember (den2 d (- (g - F))) as D'. rewrite P1.
    assert (R1 : N * (d * a) = n * b * DD) by lia. assert (R2 : N' * (d * a) = n * b * 2 ^ F * D') by lia.
    assert (PU : 0 < d * a) by (apply Z.mul_pos_pos; lia).
    assert (L1 : d * a <= n * b) by (apply (Z.mul_le_mono_pos_r _ _ DD); [lia|]; rewrite <- R1; rewrite (Z.mul_comm N); apply Z.mul_le_mono_nonneg_l; lia).
    assert (L2 : n * b < 2 * (d * a)) by (apply (Z.mul_lt_mono_pos_r DD); [lia|]; rewrite <- R1; rewrite (Z.mul_comm N); replace (2 * (d * a) * DD) with (d * a * (2 * DD)) by ring; apply Z.mul_lt_mono_pos_l; lia).
    remember (2 ^ F) as c. assert (PC : 0 < c * D') by (apply Z.mul_pos_pos; lia). remember (d * a) as u. remember (n * b) as v. split.
    - apply (Z.mul_le_mono_pos_r _ _ u); [lia|]. rewrite R2. replace (v * c * D') with (c * D' * v) by ring. apply Z.mul_le_mono_nonneg_l; lia.
    - apply (Z.mul_lt_mono_pos_r u); [lia|]. rewrite R2. replace (v * c * D') with (c * D' * v) by ring. replace (2 * c * D' * u) with (c * D' * (2 * u)) by ring. apply Z.mul_lt_mono_pos_l; lia. }
  pose proof (den2_pos d (- (g - F)) Hd) as D2. pose proof (rne_div_lower _ _ (2 ^ F) D2 (proj1 D)) as L. pose proof (rne_div_upper _ _ (2 ^ (F + 1)) D2 (Z.lt_le_incl _ _ (proj2 D))) as U.
  destruct (_ =? 2 ^ (F + 1)) eqn:Q; cbn [fst]; lia.
Qed.
Lemma mp_round_n F s n d k : 0 <= F -> mp_round (F + 1) RNDN s n d k =
  let '(m, e) := round_pos F n d in
  if mp_emax <? e + k + (F + 1) then Inf s
  else if e + k + (F + 1) <? mp_emin then
    if den2 d (k - (mp_emin - 2)) <? num2 n (k - (mp_emin - 2)) then Num s (2 ^ F) (mp_emin - (F + 1)) else Zero s
  else Num s m (e + k).
Proof.
  intros HF. unfold mp_round, round_pos. cbv zeta. replace (F + 1 - 1) with F by lia. destruct (_ =? 2 ^ (F + 1)) eqn:Q; reflexivity.
Qed.
(** ** The constructor *)
Lemma fl_num E F s m e : 1 <= E <= 31 -> 1 <= F <= 128 -> 2 ^ F <= m < 2 ^ (F + 1) ->
  exists r, fl_of_mpfr E F (F + 1) true (Num s m e) = Some r /\ wf (E + F + 3) r /\ decode E F r = finish (emin E) (emax E) F s (m, e).
Proof.
  intros HE HF Hm. pose proof (pow2_pos F ltac:(lia)) as PF. rewrite pow2_S in Hm by lia. unfold fl_of_mpfr. replace (_ && _) with true by lia. rewrite Z.eqb_refl. cbn [assert_ bind]. cbv zeta.
  replace ((if s then - m else m) <? 0) with s by (destruct s; lia). replace (if s then - (if s then - m else m) else if s then - m else m) with m by (destruct s; lia).
  assert (T : Z.testbit m F = true). { rewrite Z.testbit_true by lia. replace (m / 2 ^ F) with 1; [reflexivity|]. apply (Z.div_unique m (2 ^ F) 1 (m - 2 ^ F)); lia. }
  rewrite T. cbn [assert_ bind]. assert (C : Z.clearbit m F = m - 2 ^ F). { rewrite Z.clearbit_spec', Z.ldiff_land. (* the top bit *)
    apply Z.bits_inj'. intros i Hi. rewrite Z.land_spec, Z.lnot_spec by lia. rewrite Z.pow2_bits_eqb by lia. destruct (F =? i) eqn:Q.
    - apply Z.eqb_eq in Q. subst i. cbn [negb]. rewrite andb_false_r. symmetry. apply (testbit_small F (m - 2 ^ F) F); lia.
    - cbn [negb]. rewrite andb_true_r. apply Z.eqb_neq in Q. destruct (Z.lt_total i F) as [L|[L|L]]; [|lia|].
      + replace m with (m - 2 ^ F + 1 * 2 ^ F) at 1 by lia. rewrite Z.add_comm. rewrite <- (Z.mod_pow2_bits_low _ F i) by lia. rewrite Z.add_comm, Z.mod_add by lia. apply Z.mod_pow2_bits_low. lia.
      + rewrite (testbit_small (F + 1) m i), (testbit_small F (m - 2 ^ F) i); rewrite ?pow2_S by lia; try lia; reflexivity. }
  rewrite C. rewrite of_mpz_spec by lia. rewrite Z.abs_eq by lia. replace (m - 2 ^ F <? 2 ^ F) with true by lia. cbn [bind].
  unfold finish, emin, emax, bias. remember (2 ^ (E - 1) - 1) as b. pose proof (pow2_pos (E - 1) ltac:(lia)) as PE. pose proof (pow2_S (E - 1) ltac:(lia)) as PE1. replace (E - 1 + 1) with E in PE1 by lia.
  replace (0 - b) with (- b) by lia. replace (0 + b + 1) with (b + 1) by lia.
  destruct (e + F <? - b) eqn:L. { eexists. split; [reflexivity|]. rewrite mk_pack by lia. split; [apply pack_wf; repeat split; lia|]. rewrite decode_pack by (repeat split; lia). reflexivity. }
  destruct (b + 1 <? e + F) eqn:H. { eexists. split; [reflexivity|]. rewrite mk_pack by lia. split; [apply pack_wf; repeat split; lia|]. rewrite decode_pack by (repeat split; lia). reflexivity. }
  rewrite of_int_ok by lia. cbn [bind]. eexists. split; [reflexivity|]. rewrite mk_pack by lia. split; [apply pack_wf; repeat split; lia|]. rewrite decode_pack by (repeat split; lia). cbn [Z.eqb Pos.eqb]. unfold bias. rewrite <- Heqb. f_equal; lia.
Qed.
Lemma fl_special E F s : 1 <= E <= 31 -> 1 <= F ->
  (exists r, fl_of_mpfr E F (F + 1) true NaN = Some r /\ wf (E + F + 3) r /\ decode E F r = NaN) /\
  (exists r, fl_of_mpfr E F (F + 1) true (Inf s) = Some r /\ wf (E + F + 3) r /\ decode E F r = Inf s) /\
  (exists r, fl_of_mpfr E F (F + 1) true (Zero s) = Some r /\ wf (E + F + 3) r /\ decode E F r = Zero s).
Proof.
  intros HE HF. pose proof (pow2_pos F ltac:(lia)). pose proof (pow2_pos E ltac:(lia)). unfold fl_of_mpfr. replace (_ && _) with true by lia. rewrite Z.eqb_refl. cbn [assert_ bind].
  assert (P : forall fl t, 0 <= fl < 4 -> lim E F (2 * fl + Z.b2z t) (zg E) (zg F) = pack E F fl t 0 0). { intros fl t Hf. unfold lim. rewrite <- mk_pack by lia. unfold mk. f_equal. f_equal. rewrite cat_eq by (destruct t; cbn; lia). destruct t; cbn [Z.b2z]; lia. }
  split; [|split]; (eexists; split; [reflexivity|]).
  - unfold lim_quiet_NaN. replace (lim E F 6 (zg E) (zg F)) with (pack E F 3 false 0 0) by (symmetry; exact (P 3 false ltac:(lia))). split; [apply pack_wf; repeat split; lia|]. apply decode_pack. repeat split; lia.
  - replace (if s then lim_neg_infinity E F else lim_infinity E F) with (pack E F 2 s 0 0) by (destruct s; symmetry; [exact (P 2 true ltac:(lia))|exact (P 2 false ltac:(lia))]). split; [apply pack_wf; repeat split; lia|]. apply decode_pack. repeat split; lia.
  - replace (cat (E + F) (cat 1 (zg 2) (Z.b2z s)) (zg (E + F))) with (pack E F 0 s 0 0). { split; [apply pack_wf; repeat split; lia|]. apply decode_pack. repeat split; lia. }
    unfold zg. rewrite !cat_eq by (destruct s; cbn; lia). unfold pack. cbn. lia.
Qed.
(** A rounded number goes into the format by its exponent. *)
Lemma mp_ranges E : 1 <= E <= 30 -> - 2 ^ 29 < emin E <= 0 /\ 0 < emax E <= 2 ^ 29.
Proof. intros HE. unfold emin, emax, bias. assert (2 ^ (E - 1) <= 2 ^ 29) by (apply pow2_le; lia). pose proof (pow2_pos (E - 1) ltac:(lia)). lia. Qed.
Lemma fl_round E F s n d k : 1 <= E <= 30 -> 1 <= F <= 128 -> 0 < n -> 0 < d ->
  exists r, fl_of_mpfr E F (F + 1) true (mp_round (F + 1) RNDN s n d k) = Some r /\ wf (E + F + 3) r /\ decode E F r = round_to E F s n d k.
Proof.
  intros HE HF Hn Hd. rewrite mp_round_n by lia. unfold round_to, round_range. pose proof (round_pos_range F n d ltac:(lia) Hn Hd) as R. destruct (round_pos F n d) as [m e]. cbn [fst] in R.
  destruct (mp_ranges E HE) as [R1 R2]. destruct (fl_special E F s ltac:(lia) ltac:(lia)) as [_ [SI SZ]]. unfold mp_emin, mp_emax in *. change (2 ^ 30) with (2 * 2 ^ 29) in *. remember (2 ^ 29) as h. assert (128 < h) by (rewrite Heqh; reflexivity).
  destruct (_ <? e + k + (F + 1)) eqn:A. { destruct SI as [r [S1 [S2 S3]]]. exists r. split; [exact S1|]. split; [exact S2|]. rewrite S3. unfold finish. replace (e + k + F <? emin E) with false by lia. replace (emax E <? e + k + F) with true by lia. reflexivity. }
  destruct (e + k + (F + 1) <? _) eqn:B.
  - assert (FZ : finish (emin E) (emax E) F s (m, e + k) = Zero s) by (unfold finish; replace (e + k + F <? emin E) with true by lia; reflexivity). rewrite FZ.
    destruct (_ <? num2 _ _); [|exact SZ]. pose proof (pow2_S F ltac:(lia)). pose proof (pow2_pos F ltac:(lia)). destruct (fl_num E F s (2 ^ F) (- (2 * h - 1) - (F + 1)) ltac:(lia) HF ltac:(lia)) as [r [S1 [S2 S3]]]. exists r. split; [exact S1|]. split; [exact S2|]. rewrite S3. unfold finish. replace (_ <? emin E) with true by lia. reflexivity.
  - apply fl_num; lia.
Qed.
