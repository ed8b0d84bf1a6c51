(** The MPFR constructor and get: round trips, exceptions, rounding modes; and the same for fp_ieee. *)
From Coq Require Import ZArith Bool Lia.
From Verif Require Import Fw FwLemmas FwWord FwWordProofs FwWordProofs2 FwWordProofs3 Spec SpecLemmas SpecFma Flopoco FlopocoLemmas Ieee IeeeProofs MpfrLib Mpfr MpfrProofs MpfrProofs2.
Open Scope Z_scope.

Lemma fl_allow E F p allow v r : fl_of_mpfr E F p true v = Some r -> (forall s m e, v = Num s m e -> emin E <= e + F <= emax E) -> fl_of_mpfr E F p allow v = Some r.
Proof.
  intros H R. destruct allow; [exact H|]. unfold fl_of_mpfr in *. destruct (assert_ ((1 <=? E) && (E <=? 31))); [|discriminate]. cbn [bind] in *. destruct (assert_ (p =? F + 1)); [|discriminate]. cbn [bind] in *.
  destruct v as [| | |s m e]; try exact H. specialize (R s m e eq_refl). cbv zeta in *. unfold emin, emax, bias in R. destruct (assert_ _); [|discriminate]. cbn [bind] in *. destruct (m_of_mpz _ _); [|discriminate]. cbn [bind] in *.
  destruct (e + F <? 0 - _) eqn:A; [lia|]. destruct (_ <? e + F) eqn:B; [lia|]. exact H.
Qed.
Lemma mpfr_round_trip E F x allow : ok_ef E F -> wf (E + F + 3) x ->
  exists v r, fl_get E F (F + 1) x = Some v /\ fl_of_mpfr E F (F + 1) allow v = Some r /\ wf (E + F + 3) r /\ decode E F r = decode E F x.
Proof.
  intros O Hx. pose proof O as [O1 O2]. exists (decode E F x). rewrite fl_get_ok by assumption.
  destruct (pack_view E F x ltac:(lia) ltac:(lia) Hx) as [fl [s [ey [f [P ->]]]]]. rewrite decode_pack by assumption. destruct P as (_ & _ & Hfl & He & Hf). pose proof (pow2_pos F ltac:(lia)) as PF. pose proof (pow2_S F ltac:(lia)) as PF1.
  assert (B2 : 2 ^ E = 2 * bias E + 2) by (unfold bias; replace E with (E - 1 + 1) at 1 by lia; rewrite pow2_S by lia; lia).
  assert (N : forall v r, fl_of_mpfr E F (F + 1) true v = Some r -> (forall s m e, v = Num s m e -> emin E <= e + F <= emax E) -> wf (E + F + 3) r -> decode E F r = v -> exists r, Some v = Some v /\ fl_of_mpfr E F (F + 1) allow v = Some r /\ wf (E + F + 3) r /\ decode E F r = v).
  { intros v r A B C D. exists r. split; [reflexivity|]. split; [apply fl_allow; assumption|]. split; assumption. }
  destruct (fl =? 0). { destruct (sp_zero E F s O) as [r [A [B C]]]. apply (N _ r A); [discriminate|exact B|exact C]. }
  destruct (fl =? 1). 2: { destruct (fl =? 2). { destruct (sp_inf E F s O) as [r [A [B C]]]. apply (N _ r A); [discriminate|exact B|exact C]. } destruct (sp_nan E F O) as [r [A [B C]]]. apply (N _ r A); [discriminate|exact B|exact C]. }
  assert (R : emin E <= ey - bias E - F + F <= emax E) by (unfold emin, emax; lia).
  destruct (fl_num E F s (2 ^ F + f) (ey - bias E - F) ltac:(lia) O2 ltac:(lia)) as [r [A [B C]]]. apply (N _ r A); [intros t m e H; injection H as <- <- <-; exact R|exact B|].
  rewrite C. unfold finish. replace (_ <? emin E) with false by lia. replace (emax E <? _) with false by lia. reflexivity.
Qed.
(** Any number of the right precision: rounding is the identity on its significand, so only the exponent decides. *)
Lemma mpfr_ctor E F allow s m e : 1 <= E <= 31 -> 1 <= F <= 128 -> 2 ^ F <= m < 2 ^ (F + 1) ->
  (emin E <= e + F <= emax E -> exists r, fl_of_mpfr E F (F + 1) allow (Num s m e) = Some r /\ wf (E + F + 3) r /\ decode E F r = Num s m e) /\
  (e + F < emin E -> if allow then exists r, fl_of_mpfr E F (F + 1) allow (Num s m e) = Some r /\ wf (E + F + 3) r /\ decode E F r = Zero s else fl_of_mpfr E F (F + 1) allow (Num s m e) = None) /\
  (emax E < e + F -> if allow then exists r, fl_of_mpfr E F (F + 1) allow (Num s m e) = Some r /\ wf (E + F + 3) r /\ decode E F r = Inf s else fl_of_mpfr E F (F + 1) allow (Num s m e) = None).
Proof.
  intros HE HF Hm. destruct (fl_num E F s m e HE HF Hm) as [r [A [B C]]]. unfold finish in C. assert (EE : emin E <= 0 < emax E) by (unfold emin, emax, bias; pose proof (pow2_pos (E - 1) ltac:(lia)); lia).
  assert (TH : (e + F < emin E \/ emax E < e + F) -> fl_of_mpfr E F (F + 1) false (Num s m e) = None).
  { intros R. unfold fl_of_mpfr in *. destruct (assert_ ((1 <=? E) && (E <=? 31))); [|reflexivity]. cbn [bind] in *. destruct (assert_ (F + 1 =? F + 1)); [|reflexivity]. cbn [bind] in *. cbv zeta in *. destruct (assert_ _); [|reflexivity]. cbn [bind] in *. destruct (m_of_mpz _ _); [|reflexivity]. cbn [bind] in *.
    unfold emin, emax, bias in R. destruct (e + F <? 0 - _) eqn:Q; [reflexivity|]. destruct (_ <? e + F) eqn:Q2; [reflexivity|]. lia. }
  split; [|split]; intros R.
  - exists r. replace (_ <? emin E) with false in C by lia. replace (emax E <? _) with false in C by lia. split; [|split; assumption]. apply fl_allow; [exact A|]. intros t n f H. injection H as <- <- <-. exact R.
  - destruct allow; [|apply TH; left; exact R]. exists r. replace (_ <? emin E) with true in C by lia. auto.
  - destruct allow; [|apply TH; right; exact R]. exists r. replace (_ <? emin E) with false in C by lia. replace (emax E <? _) with true in C by lia. auto.
Qed.
Lemma mpfr_precision E F p allow v x : p <> F + 1 -> fl_of_mpfr E F p allow v = None /\ fl_get E F p x = None.
Proof. intros H. unfold fl_of_mpfr, fl_get. replace (p =? F + 1) with false by lia. split; [|reflexivity]. destruct (assert_ _); reflexivity. Qed.
(** ** get into another precision *)
Lemma mpfr_get_wide E F p mode x : ok_ef E F -> F + 1 <= p -> wf (E + F + 3) x -> exists v, fl_get_mode E F p mode x = Some v /\ veq v (decode E F x).
Proof.
  intros [O1 O2] Hp Hx. destruct (pack_view E F x ltac:(lia) ltac:(lia) Hx) as [fl [s [ey [f [P ->]]]]]. rewrite get_view by assumption. eexists. split; [reflexivity|]. rewrite decode_pack by assumption. destruct P as (_ & _ & Hfl & He & Hf).
  destruct (fl =? 0); [reflexivity|]. destruct (fl =? 1); [|destruct (fl =? 2); [reflexivity|exact I]]. cbv zeta.
  pose proof (pow2_pos F ltac:(lia)) as PF. pose proof (pow2_S F ltac:(lia)) as PF1. assert (L : Z.log2 (2 ^ F + f) = F) by (apply Z.log2_unique; [lia|]; rewrite Z.pow_succ_r by lia; lia).
  assert (PP : 2 ^ (F + 1) <= 2 ^ p) by (apply pow2_le; lia). destruct (mp_ranges E O1) as [R1 R2]. assert (B2 : 2 ^ E = 2 * bias E + 2) by (unfold bias; replace E with (E - 1 + 1) at 1 by lia; rewrite pow2_S by lia; lia). unfold emin, emax in *.
  assert (R : mp_emin <= ey - F - bias E + F + 1 <= mp_emax). { unfold mp_emin, mp_emax. change (2 ^ 30) with (2 * 2 ^ 29). assert (1 < 2 ^ 29) by reflexivity. lia. }
  rewrite mp_round_exact; [|lia|lia|rewrite L; exact R]. rewrite L. remember (p - 1 - F) as j. pose proof (pow2_pos j ltac:(lia)) as PJ.
  assert (V : cmp_num ((2 ^ F + f) * 2 ^ j) (ey - F - bias E - j) (2 ^ F + f) (ey - bias E - F) = Eq).
  { unfold cmp_num. cbv zeta. rewrite Z.min_l by lia. apply Z.compare_eq_iff. rewrite Z.sub_diag. replace (ey - bias E - F - (ey - F - bias E - j)) with j by lia. change (2 ^ 0) with 1. lia. }
  destruct s; [|split; [reflexivity|exact V]]. unfold mpfr_mul_neg1, mpfr_mul. cbn [xorb]. rewrite Z.mul_1_r, Z.add_0_r.
  assert (BB : 2 ^ (p - 1) <= (2 ^ F + f) * 2 ^ j < 2 ^ p). { replace (p - 1) with (F + j) by lia. replace p with (F + 1 + j) by lia. rewrite !pow2_add by lia. rewrite PF1 in *. nia. }
  rewrite mp_round_same; [split; [reflexivity|exact V]|lia|exact BB|lia].
Qed.
(** To nearest, and towards zero, rounding the magnitude and changing the sign is the right order. *)
Lemma mp_sign_sym p mode n d k : mode = RNDN \/ mode = RNDZ -> mp_round p mode true n d k = neg_spec (mp_round p mode false n d k).
Proof. intros [->| ->]; unfold mp_round; cbv zeta; cbn [mp_away negb]; repeat (match goal with |- context [if ?c then _ else _] => destruct c end; try reflexivity). Qed.
Lemma mp_neg1 p v : 1 <= p -> (forall s m e, v = Num s m e -> 2 ^ (p - 1) <= m < 2 ^ p /\ mp_emin <= e + p <= mp_emax) -> mpfr_mul_neg1 p RNDN v = neg_spec v.
Proof.
  intros Hp H. unfold mpfr_mul_neg1, mpfr_mul. destruct v as [|s|s|s m e]; cbn [neg_spec]; rewrite ?xorb_true_r; try reflexivity. destruct (H s m e eq_refl) as [A B]. rewrite Z.mul_1_r, Z.add_0_r. apply mp_round_same; [lia|exact A|exact B].
Qed.
(** Rounding any normalised significand whose exponent is far from the ends of MPFR's range gives a number of the
    destination's precision. *)
Lemma mp_round_num p mode s m F k : 1 <= p -> 1 <= F -> 2 ^ F <= m < 2 ^ (F + 1) -> mp_emin <= k + F + 1 /\ k + F + 2 <= mp_emax ->
  exists m' e', mp_round p mode s m 1 k = Num s m' e' /\ 2 ^ (p - 1) <= m' < 2 ^ p /\ mp_emin <= e' + p <= mp_emax.
Proof.
  intros Hp HF Hm Hk. pose proof (pow2_pos F ltac:(lia)) as PF. pose proof (pow2_S F ltac:(lia)) as PF1. pose proof (pow2_pos (p - 1) ltac:(lia)) as PP. assert (PP1 : 2 ^ p = 2 * 2 ^ (p - 1)) by (replace p with (p - 1 + 1) at 1 by lia; apply pow2_S; lia).
  unfold mp_round. assert (L : mag m 1 = F) by (rewrite mag_int' by lia; apply Z.log2_unique; [lia|]; rewrite Z.pow_succ_r by lia; lia). rewrite L. cbv zeta.
  remember (num2 m (- (F - (p - 1)))) as a. remember (den2 1 (- (F - (p - 1)))) as b.
  assert (AB : 0 < b /\ 2 ^ (p - 1) * b <= a < 2 ^ p * b).
  { subst a b. unfold num2, den2. rewrite Z.mul_1_l. remember (Z.max 0 (- (F - (p - 1)))) as u. remember (Z.max 0 (- - (F - (p - 1)))) as v.
    pose proof (pow2_pos u ltac:(lia)) as PU. pose proof (pow2_pos v ltac:(lia)) as PV. split; [exact PV|].
    rewrite <- !pow2_add by lia. replace (p - 1 + v) with (F + u) by lia. replace (p + v) with (F + 1 + u) by lia. rewrite !pow2_add by lia. change (2 ^ 1) with 2. nia. }
  destruct AB as [B [A1 A2]]. clear Heqa Heqb.
  remember (match mode with RNDN => rne_div a b | _ => if mp_away mode s then (a + b - 1) / b else a / b end) as q.
  assert (D : 2 ^ (p - 1) <= a / b < 2 ^ p) by (split; [apply Z.div_le_lower_bound; lia|apply Z.div_lt_upper_bound; lia]).
  assert (U : 2 ^ (p - 1) <= (a + b - 1) / b <= 2 ^ p) by (split; [apply Z.div_le_lower_bound; lia|]; apply Z.lt_succ_r, Z.div_lt_upper_bound; lia).
  assert (Q : 2 ^ (p - 1) <= q <= 2 ^ p).
  { subst q. destruct mode; [|destruct (mp_away _ _); lia..]. unfold rne_div. cbv zeta. destruct (_ <? b); [lia|]. destruct (b <? _); [lia|]. destruct (Z.even _); lia. }
  clear Heqq. destruct (q =? 2 ^ p) eqn:T; cbv beta iota.
  - replace (mp_emax <? _) with false by lia. replace (_ <? mp_emin) with false by lia. do 2 eexists. split; [reflexivity|]. lia.
  - replace (mp_emax <? _) with false by lia. replace (_ <? mp_emin) with false by lia. do 2 eexists. split; [reflexivity|]. lia.
Qed.
Lemma mpfr_get_any E F p mode x : ok_ef E F -> 1 <= p -> wf (E + F + 3) x ->
  fl_get_mode E F p mode x = Some (match decode E F x with Num s m e => let v := mp_round p mode false m 1 e in if s then neg_spec v else v | v => v end).
Proof.
  intros [O1 O2] Hp Hx. destruct (pack_view E F x ltac:(lia) ltac:(lia) Hx) as [fl [s [ey [f [P ->]]]]]. rewrite get_view by assumption. f_equal. rewrite decode_pack by assumption. destruct P as (_ & _ & Hfl & He & Hf).
  destruct (fl =? 0); [reflexivity|]. destruct (fl =? 1); [|destruct (fl =? 2); reflexivity]. cbv zeta. replace (ey - F - bias E) with (ey - bias E - F) by lia. destruct s; [|reflexivity].
  pose proof (pow2_pos F ltac:(lia)) as PF. pose proof (pow2_S F ltac:(lia)) as PF1. destruct (mp_ranges E O1) as [R1 R2]. assert (B2 : 2 ^ E = 2 * bias E + 2) by (unfold bias; replace E with (E - 1 + 1) at 1 by lia; rewrite pow2_S by lia; lia). unfold emin, emax in *.
  assert (K : mp_emin <= ey - bias E - F + F + 1 /\ ey - bias E - F + F + 2 <= mp_emax) by (unfold mp_emin, mp_emax; change (2 ^ 30) with (2 * 2 ^ 29); assert (3 < 2 ^ 29) by reflexivity; lia).
  destruct (mp_round_num p mode false (2 ^ F + f) F (ey - bias E - F) Hp ltac:(lia) ltac:(lia) K) as [m' [e' [V [M1 M2]]]]. rewrite V. apply mp_neg1; [exact Hp|]. intros t m e H. injection H as <- <- <-. split; assumption.
Qed.
Lemma mpfr_get_near E F p mode x : ok_ef E F -> 1 <= p -> wf (E + F + 3) x -> mode = RNDN \/ mode = RNDZ -> fl_get_mode E F p mode x = Some (mpfr_set p mode (decode E F x)).
Proof.
  intros O Hp Hx Hm. rewrite mpfr_get_any by assumption. f_equal. destruct (decode E F x) as [| | |s m e]; try reflexivity. cbv zeta. cbn [mpfr_set]. destruct s; [|reflexivity]. symmetry. apply mp_sign_sym. exact Hm.
Qed.
Lemma mpfr_get_pos E F p mode x s m e : ok_ef E F -> 1 <= p -> wf (E + F + 3) x -> decode E F x = Num s m e -> s = false -> fl_get_mode E F p mode x = Some (mpfr_set p mode (decode E F x)).
Proof. intros O Hp Hx D ->. rewrite mpfr_get_any by assumption. rewrite D. reflexivity. Qed.
(** Towards +infinity and -infinity the sign comes too late: a negative number with a fraction bit too many is rounded
    the wrong way. *)
Lemma neg_round_dir p m F k : 1 <= p <= F -> m = 2 ^ F + 1 -> mp_emin <= k + F + 1 /\ k + F + 2 <= mp_emax ->
  mp_round p RNDD false m 1 k = Num false (2 ^ (p - 1)) (k + F - (p - 1)) /\ exists m' e', mp_round p RNDD true m 1 k = Num true m' e' /\ (m', e') <> (2 ^ (p - 1), k + F - (p - 1)).
Proof.
  intros Hp -> Hk. pose proof (pow2_pos F ltac:(lia)) as PF. pose proof (pow2_pos (p - 1) ltac:(lia)) as PP. assert (PP1 : 2 ^ p = 2 * 2 ^ (p - 1)) by (replace p with (p - 1 + 1) at 1 by lia; apply pow2_S; lia).
  assert (F1 : 1 < 2 ^ F) by (change 1 with (2 ^ 0); apply pow2_lt; lia).
  unfold mp_round. assert (L : mag (2 ^ F + 1) 1 = F) by (rewrite mag_int' by lia; apply Z.log2_unique; [lia|]; rewrite Z.pow_succ_r by lia; lia). rewrite L. cbv zeta. cbn [mp_away negb].
  unfold num2, den2. replace (Z.max 0 (- (F - (p - 1)))) with 0 by lia. change (2 ^ 0) with 1. rewrite Z.mul_1_l, Z.mul_1_r. replace (Z.max 0 (- - (F - (p - 1)))) with (F - (p - 1)) by lia. remember (2 ^ (F - (p - 1))) as b.
  assert (B : 1 < b) by (subst b; change 1 with (2 ^ 0); apply pow2_lt; lia). assert (FB : 2 ^ F = 2 ^ (p - 1) * b) by (subst b; rewrite <- pow2_add by lia; f_equal; lia).
  assert (D : (2 ^ F + 1) / b = 2 ^ (p - 1)) by (symmetry; apply (Z.div_unique (2 ^ F + 1) b (2 ^ (p - 1)) 1); lia).
  assert (U : (2 ^ F + 1 + b - 1) / b = 2 ^ (p - 1) + 1) by (symmetry; apply (Z.div_unique (2 ^ F + 1 + b - 1) b (2 ^ (p - 1) + 1) 0); lia).
  rewrite D, U. replace (2 ^ (p - 1) =? 2 ^ p) with false by lia. cbv beta iota.
  replace (mp_emax <? F - (p - 1) + k + p) with false by lia. replace (F - (p - 1) + k + p <? mp_emin) with false by lia. split; [f_equal; lia|].
  destruct (2 ^ (p - 1) + 1 =? 2 ^ p) eqn:T.
  - replace (mp_emax <? _) with false by lia. replace (_ <? mp_emin) with false by lia. do 2 eexists. split; [reflexivity|]. intros H. injection H as H. lia.
  - replace (mp_emax <? _) with false by lia. replace (_ <? mp_emin) with false by lia. do 2 eexists. split; [reflexivity|]. intros H. injection H as H. lia.
Qed.
Lemma mpfr_get_directed_bad E F p : ok_ef E F -> 1 <= p <= F -> exists x, wf (E + F + 3) x /\ fl_get_mode E F p RNDD x <> Some (mpfr_set p RNDD (decode E F x)).
Proof.
  intros O Hp. pose proof O as [O1 O2]. pose proof (pow2_pos E ltac:(lia)) as PE. assert (1 < 2 ^ F) by (change 1 with (2 ^ 0); apply pow2_lt; lia).
  assert (P : okf E F 1 0 1) by (repeat split; lia). exists (pack E F 1 true 0 1). pose proof (pack_wf E F 1 true 0 1 P) as W. split; [exact W|]. rewrite mpfr_get_any by (assumption || lia). rewrite decode_pack by assumption. cbn [Z.eqb Pos.eqb mpfr_set]. cbv zeta.
  destruct (mp_ranges E O1) as [R1 R2]. unfold emin, emax in *. assert (K : mp_emin <= 0 - bias E - F + F + 1 /\ 0 - bias E - F + F + 2 <= mp_emax) by (unfold mp_emin, mp_emax; change (2 ^ 30) with (2 * 2 ^ 29); assert (3 < 2 ^ 29) by reflexivity; lia).
  destruct (neg_round_dir p (2 ^ F + 1) F (0 - bias E - F) Hp eq_refl K) as [-> [m' [e' [-> N]]]]. cbn [neg_spec negb]. intros H2. apply N. remember (2 ^ (p - 1)) as u. remember (0 - bias E - F + F - (p - 1)) as w. injection H2 as H3 H4. rewrite <- H3, <- H4. reflexivity.
Qed.
(** ** fp_ieee *)
Lemma clear_top m F : 0 <= F -> 2 ^ F <= m < 2 * 2 ^ F -> Z.clearbit m F = m - 2 ^ F.
Proof.
  intros HF Hm. rewrite Z.clearbit_spec', Z.ldiff_land. apply Z.bits_inj'. intros i Hi. rewrite Z.land_spec, Z.lnot_spec by lia. rewrite Z.pow2_bits_eqb by lia. destruct (F =? i) eqn:Q.
  - apply Z.eqb_eq in Q. subst i. cbn [negb]. rewrite andb_false_r. symmetry. apply (testbit_small F (m - 2 ^ F) F); lia.
  - cbn [negb]. rewrite andb_true_r. apply Z.eqb_neq in Q. destruct (Z.lt_total i F) as [L|[L|L]]; [|lia|].
    + replace m with (m - 2 ^ F + 1 * 2 ^ F) at 1 by lia. rewrite Z.add_comm. rewrite <- (Z.mod_pow2_bits_low _ F i) by lia. rewrite Z.add_comm, Z.mod_add by lia. apply Z.mod_pow2_bits_low. lia.
    + rewrite (testbit_small (F + 1) m i), (testbit_small F (m - 2 ^ F) i); rewrite ?pow2_S by lia; try lia; reflexivity.
Qed.
Lemma og_max E : 1 <= E -> og E = 2 ^ E - 1.
Proof. intros. apply og_eq. lia. Qed.
Definition rounds_ie (E F : Z) (o : option Z) (v : fval) : Prop := exists r, o = Some r /\ wf (E + F + 1) r /\ decode_ieee E F r = v.
Lemma ie_num E F s m e : 1 <= E <= 31 -> 1 <= F <= 128 -> 2 ^ F <= m < 2 ^ (F + 1) ->
  rounds_ie E F (ie_of_mpfr E F (F + 1) true (Num s m e)) (finish (emin E + 1) (emax E - 1) F s (m, e)).
Proof.
  intros HE HF Hm. pose proof (pow2_pos F ltac:(lia)) as PF. rewrite pow2_S in Hm by lia. unfold rounds_ie, ie_of_mpfr. replace (_ && _) with true by lia. rewrite Z.eqb_refl. cbn [assert_ bind]. cbv zeta.
  replace ((if s then - m else m) <? 0) with s by (destruct s; lia). replace (if s then - (if s then - m else m) else if s then - m else m) with m by (destruct s; lia).
  assert (T : Z.testbit m F = true). { rewrite Z.testbit_true by lia. replace (m / 2 ^ F) with 1; [reflexivity|]. apply (Z.div_unique m (2 ^ F) 1 (m - 2 ^ F)); lia. }
  rewrite T. cbn [assert_ bind]. rewrite (clear_top m F) by lia. rewrite of_mpz_spec by lia. rewrite Z.abs_eq by lia. replace (m - 2 ^ F <? 2 ^ F) with true by lia. cbn [bind].
  unfold finish, emin, emax, bias. remember (2 ^ (E - 1) - 1) as b. pose proof (pow2_pos (E - 1) ltac:(lia)) as PE. pose proof (pow2_S (E - 1) ltac:(lia)) as PE1. replace (E - 1 + 1) with E in PE1 by lia.
  replace (0 - b) with (- b) by lia. replace (0 + b) with (b + 1 - 1) by lia. rewrite og_max by lia. unfold zg.
  destruct (e + F <? - b + 1) eqn:L. { eexists. split; [reflexivity|]. rewrite ie_mk_pack by (repeat split; lia). split; [apply ipack_wf; repeat split; lia|]. rewrite decode_ipack by (repeat split; lia). reflexivity. }
  destruct (b + 1 - 1 <? e + F) eqn:H. { eexists. split; [reflexivity|]. rewrite ie_mk_pack by (repeat split; lia). split; [apply ipack_wf; repeat split; lia|]. rewrite decode_ipack by (repeat split; lia). rewrite Z.eqb_refl. replace (2 ^ E - 1 =? 0) with false by lia. reflexivity. }
  rewrite of_int_ok by lia. cbn [bind]. eexists. split; [reflexivity|]. rewrite ie_mk_pack by (repeat split; lia). split; [apply ipack_wf; repeat split; lia|]. rewrite decode_ipack by (repeat split; lia). replace (e + F + b =? 0) with false by lia. replace (e + F + b =? 2 ^ E - 1) with false by lia. unfold bias. rewrite <- Heqb. f_equal; lia.
Qed.
Lemma ie_special E F s : 1 <= E <= 31 -> 1 <= F ->
  rounds_ie E F (ie_of_mpfr E F (F + 1) true NaN) NaN /\ rounds_ie E F (ie_of_mpfr E F (F + 1) true (Inf s)) (Inf s) /\ rounds_ie E F (ie_of_mpfr E F (F + 1) true (Zero s)) (Zero s).
Proof.
  intros HE HF. pose proof (pow2_pos F ltac:(lia)). assert (E1 : 1 < 2 ^ E) by (change 1 with (2 ^ 0); apply pow2_lt; lia). assert (F1 : 1 < 2 ^ F) by (change 1 with (2 ^ 0); apply pow2_lt; lia). unfold rounds_ie, ie_of_mpfr. replace (_ && _) with true by lia. rewrite Z.eqb_refl. cbn [assert_ bind].
  split; [|split]; (eexists; split; [reflexivity|]).
  - unfold ie_quiet_NaN, zg. rewrite !og_max by lia. rewrite (ie_mk_pack E F false) by (repeat split; lia). split; [apply ipack_wf; repeat split; lia|]. rewrite decode_ipack by (repeat split; lia). rewrite Z.eqb_refl. replace (2 ^ E - 1 =? 0) with false by lia. replace (2 ^ F - 1 =? 0) with false by lia. reflexivity.
  - replace (if s then ie_neg_infinity E F else ie_infinity E F) with (ipack E F s (2 ^ E - 1) 0). 2: { unfold ie_neg_infinity, ie_infinity, zg. rewrite !og_max by lia. destruct s; [rewrite <- (ie_mk_pack E F true)|rewrite <- (ie_mk_pack E F false)]; try (repeat split; lia); reflexivity. }
    split; [apply ipack_wf; repeat split; lia|]. rewrite decode_ipack by (repeat split; lia). rewrite Z.eqb_refl. replace (2 ^ E - 1 =? 0) with false by lia. reflexivity.
  - replace (cat (E + F) (Z.b2z s) (zg (E + F))) with (ipack E F s 0 0). { split; [apply ipack_wf; repeat split; lia|]. rewrite decode_ipack by (repeat split; lia). reflexivity. }
    unfold zg. rewrite cat_eq by (pose proof (pow2_pos (E + F) ltac:(lia)); destruct s; cbn; lia). unfold ipack. lia.
Qed.
Lemma ie_round E F s n d k : ok_ef E F -> 0 < n -> 0 < d -> rounds_ie E F (ie_of_mpfr E F (F + 1) true (mp_round (F + 1) RNDN s n d k)) (round_ieee E F s n d k).
Proof.
  intros [HE HF] Hn Hd. rewrite mp_round_n by lia. unfold round_ieee, round_range. pose proof (round_pos_range F n d ltac:(lia) Hn Hd) as R. destruct (round_pos F n d) as [m e]. cbn [fst] in R.
  destruct (mp_ranges E HE) as [R1 R2]. destruct (ie_special E F s ltac:(lia) ltac:(lia)) as [_ [SI SZ]]. unfold mp_emin, mp_emax in *. change (2 ^ 30) with (2 * 2 ^ 29) in *. remember (2 ^ 29) as h. assert (128 < h) by (rewrite Heqh; reflexivity).
  destruct (_ <? e + k + (F + 1)) eqn:A. { destruct SI as [r [S1 [S2 S3]]]. exists r. split; [exact S1|]. split; [exact S2|]. rewrite S3. unfold finish. replace (e + k + F <? emin E + 1) with false by lia. replace (emax E - 1 <? e + k + F) with true by lia. reflexivity. }
  destruct (e + k + (F + 1) <? _) eqn:B.
  - assert (FZ : finish (emin E + 1) (emax E - 1) F s (m, e + k) = Zero s) by (unfold finish; replace (e + k + F <? emin E + 1) with true by lia; reflexivity). rewrite FZ.
    destruct (_ <? num2 _ _); [|exact SZ]. pose proof (pow2_S F ltac:(lia)). pose proof (pow2_pos F ltac:(lia)). destruct (ie_num E F s (2 ^ F) (- (2 * h - 1) - (F + 1)) ltac:(lia) HF ltac:(lia)) as [r [S1 [S2 S3]]]. exists r. split; [exact S1|]. split; [exact S2|]. rewrite S3. unfold finish. replace (_ <? emin E + 1) with true by lia. reflexivity.
  - apply ie_num; lia.
Qed.
Lemma ie_get_ok E F x : ok_ef E F -> wf (E + F + 1) x -> ie_get E F (F + 1) x = Some (decode_ieee E F x).
Proof.
  intros [HE HF] Hx. destruct (ie_view E F x ltac:(lia) ltac:(lia) Hx) as [s [ey [f [O ->]]]]. assert (O' := O). destruct O' as (_ & _ & He & Hf). assert (E1 : 1 < 2 ^ E) by (change 1 with (2 ^ 0); apply pow2_lt; lia).
  unfold ie_get. rewrite Z.eqb_refl. cbn [assert_ bind]. unfold ie_get_mode. replace (_ && _) with true by lia. cbn [assert_ bind]. cbv zeta.
  unfold ie_is_negative, ie_is_zero, ie_is_inf, ie_is_nan, feq, fne. rewrite ie_sign_pack, ie_exp_pack, ie_frac_pack by assumption. rewrite og_max by lia. rewrite decode_ipack by assumption. rewrite !to_bool_b2z.
  replace (Z.b2z s =? 1) with s by (destruct s; reflexivity).
  destruct (ey =? 0) eqn:Z0; [reflexivity|]. destruct (ey =? 2 ^ E - 1) eqn:Z1; destruct (f =? 0) eqn:Z2; cbn [negb Z.b2z]; try reflexivity.
  all: change (to_bool (fand 0 0)) with false; change (to_bool (fand 0 1)) with false; cbv iota.
  all: assert (2 ^ E <= 2 ^ 30) by (apply pow2_le; lia); unfold to_int; replace (ey <=? 2 ^ 31 - 1) with true by (change (2 ^ 31) with (2 * 2 ^ 30); lia); cbn [bind];
    rewrite to_mpz_ok by lia; rewrite setbit_frac by lia; unfold mpfr_set_z_2exp; replace (2 ^ F + f =? 0) with false by lia; replace (2 ^ F + f <? 0) with false by lia; rewrite Z.abs_eq by lia.
  all: pose proof (pow2_pos F ltac:(lia)) as PF; pose proof (pow2_S F ltac:(lia)) as P1; destruct (mp_ranges E HE) as [R1 R2]; unfold emin, emax in *.
  all: assert (R : mp_emin <= ey - F - bias E + (F + 1) <= mp_emax) by (assert (2 ^ E = 2 * bias E + 2) by (unfold bias; replace E with (E - 1 + 1) at 1 by lia; rewrite pow2_S by lia; lia); unfold mp_emin, mp_emax; change (2 ^ 30) with (2 * 2 ^ 29); assert (1 < 2 ^ 29) by reflexivity; lia).
  all: change (2 ^ (E - 1) - 1) with (bias E); rewrite mp_round_same; [|lia|replace (F + 1 - 1) with F by lia; lia|exact R]; replace (ey - F - bias E) with (ey - bias E - F) in * by lia; destruct s; [|reflexivity];
    unfold mpfr_mul_neg1, mpfr_mul; cbn [xorb]; rewrite Z.mul_1_r, Z.add_0_r; f_equal; apply mp_round_same; [lia|replace (F + 1 - 1) with F by lia; lia|lia].
Qed.
Lemma ie_pos E F x s m e : ok_ef E F -> wf (E + F + 1) x -> decode_ieee E F x = Num s m e -> 0 < m.
Proof.
  intros [HE HF] Hx. destruct (ie_view E F x ltac:(lia) ltac:(lia) Hx) as [t [ey [f [O ->]]]]. rewrite decode_ipack by assumption. destruct O as (_ & _ & He & Hf). pose proof (pow2_pos F ltac:(lia)).
  destruct (ey =? 0); [discriminate|]. destruct (ey =? 2 ^ E - 1); [destruct (f =? 0); discriminate|]. intros G. assert (m = 2 ^ F + f) by congruence. lia.
Qed.
Lemma ie_nan E F : ok_ef E F -> rounds_ie E F (ie_of_mpfr E F (F + 1) true NaN) NaN.
Proof. intros [H1 H2]. apply (ie_special E F true); lia. Qed.
Lemma ie_inf E F s : ok_ef E F -> rounds_ie E F (ie_of_mpfr E F (F + 1) true (Inf s)) (Inf s).
Proof. intros [H1 H2]. apply (ie_special E F s); lia. Qed.
Lemma ie_zero E F s : ok_ef E F -> rounds_ie E F (ie_of_mpfr E F (F + 1) true (Zero s)) (Zero s).
Proof. intros [H1 H2]. apply (ie_special E F s); lia. Qed.
Ltac ies := first [apply ie_nan; assumption|apply ie_inf; assumption|apply ie_zero; assumption].
Lemma ie_ref_mul_ok ER FR EA FA EB FB a b : ok_ef ER FR -> ok_ef EA FA -> ok_ef EB FB -> wf (EA + FA + 1) a -> wf (EB + FB + 1) b ->
  rounds_ie ER FR (ie_ref_mul ER FR EA FA EB FB a b) (mul_ieee ER FR (decode_ieee EA FA a) (decode_ieee EB FB b)).
Proof.
  intros R A B Ha Hb. unfold ie_ref_mul. rewrite (ie_get_ok EA FA a) by assumption. cbn [bind]. rewrite (ie_get_ok EB FB b) by assumption. cbn [bind]. unfold mul_ieee, mul_gen, mpfr_mul. pose proof (ie_pos EA FA a) as PA. pose proof (ie_pos EB FB b) as PB.
  destruct (decode_ieee EA FA a) as [|s|s|s m e]; destruct (decode_ieee EB FB b) as [|t|t|t n f]; try ies.
  specialize (PA s m e A Ha eq_refl). specialize (PB t n f B Hb eq_refl). apply ie_round; nia || assumption.
Qed.
Lemma ie_add ER FR s m e t n f : ok_ef ER FR -> let k := Z.min e f in let v := sgn s (m * 2 ^ (e - k)) + sgn t (n * 2 ^ (f - k)) in
  rounds_ie ER FR (ie_of_mpfr ER FR (FR + 1) true (mp_add_num (FR + 1) RNDN s m e t n f)) (if v =? 0 then Zero false else round_ieee ER FR (v <? 0) (Z.abs v) 1 k).
Proof.
  intros H k v. unfold mp_add_num. fold k. replace ((if s then - m else m) * 2 ^ (e - k) + (if t then - n else n) * 2 ^ (f - k)) with v by (unfold v, sgn; destruct s, t; ring).
  unfold mp_round_z. destruct (v =? 0) eqn:Q; [apply ie_zero; exact H|]. apply ie_round; [exact H|lia|lia].
Qed.
Lemma ie_ref_add_ok ER FR EA FA EB FB a b : ok_ef ER FR -> ok_ef EA FA -> ok_ef EB FB -> wf (EA + FA + 1) a -> wf (EB + FB + 1) b ->
  rounds_ie ER FR (ie_ref_add ER FR EA FA EB FB a b) (add_ieee ER FR (decode_ieee EA FA a) (decode_ieee EB FB b)).
Proof.
  intros R A B Ha Hb. unfold ie_ref_add. rewrite (ie_get_ok EA FA a) by assumption. cbn [bind]. rewrite (ie_get_ok EB FB b) by assumption. cbn [bind]. pose proof (ie_pos EA FA a) as PA. pose proof (ie_pos EB FB b) as PB.
  unfold add_ieee, add_gen, mpfr_add.
  destruct (decode_ieee EA FA a) as [|s|s|s m e]; destruct (decode_ieee EB FB b) as [|t|t|t n f]; try ies.
  - destruct (Bool.eqb s t); ies.
  - destruct s, t; cbn [Bool.eqb andb]; ies.
  - apply ie_round; [assumption|exact (PB t n f B Hb eq_refl)|lia].
  - apply ie_round; [assumption|exact (PA s m e A Ha eq_refl)|lia].
  - apply ie_add. assumption.
Qed.
Lemma ie_allow E F p allow v r : ie_of_mpfr E F p true v = Some r -> (forall s m e, v = Num s m e -> emin E < e + F < emax E) -> ie_of_mpfr E F p allow v = Some r.
Proof.
  intros H R. destruct allow; [exact H|]. unfold ie_of_mpfr in *. destruct (assert_ ((1 <=? E) && (E <=? 31))); [|discriminate]. cbn [bind] in *. destruct (assert_ (p =? F + 1)); [|discriminate]. cbn [bind] in *.
  destruct v as [| | |s m e]; try exact H. specialize (R s m e eq_refl). cbv zeta in *. unfold emin, emax, bias in R. destruct (assert_ _); [|discriminate]. cbn [bind] in *. destruct (m_of_mpz _ _); [|discriminate]. cbn [bind] in *.
  destruct (e + F <? _) eqn:A; [lia|]. destruct (_ <? e + F) eqn:B; [lia|]. exact H.
Qed.
Lemma ie_round_trip E F x allow : ok_ef E F -> wf (E + F + 1) x ->
  exists v r, ie_get E F (F + 1) x = Some v /\ ie_of_mpfr E F (F + 1) allow v = Some r /\ wf (E + F + 1) r /\ decode_ieee E F r = decode_ieee E F x.
Proof.
  intros O Hx. pose proof O as [O1 O2]. exists (decode_ieee E F x). rewrite ie_get_ok by assumption.
  destruct (ie_view E F x ltac:(lia) ltac:(lia) Hx) as [s [ey [f [P ->]]]]. rewrite decode_ipack by assumption. destruct P as (_ & _ & He & Hf). pose proof (pow2_pos F ltac:(lia)) as PF. pose proof (pow2_S F ltac:(lia)) as PF1.
  assert (B2 : 2 ^ E = 2 * bias E + 2) by (unfold bias; replace E with (E - 1 + 1) at 1 by lia; rewrite pow2_S by lia; lia).
  assert (N : forall v, rounds_ie E F (ie_of_mpfr E F (F + 1) true v) v -> (forall s m e, v = Num s m e -> emin E < e + F < emax E) -> exists r, Some v = Some v /\ ie_of_mpfr E F (F + 1) allow v = Some r /\ wf (E + F + 1) r /\ decode_ieee E F r = v).
  { intros v [r [A [C D]]] B. exists r. split; [reflexivity|]. split; [apply ie_allow; assumption|]. split; assumption. }
  destruct (ey =? 0) eqn:Q0; [apply N; [ies|discriminate]|]. destruct (ey =? 2 ^ E - 1) eqn:Q1; [destruct (f =? 0); (apply N; [ies|discriminate])|].
  assert (R : emin E < ey - bias E - F + F < emax E) by (unfold emin, emax; lia). apply N; [|intros t m e H; injection H as <- <- <-; exact R].
  destruct (ie_num E F s (2 ^ F + f) (ey - bias E - F) ltac:(lia) O2 ltac:(lia)) as [r [A [B C]]]. exists r. split; [exact A|]. split; [exact B|]. rewrite C. unfold finish. replace (_ <? emin E + 1) with false by lia. replace (emax E - 1 <? _) with false by lia. reflexivity.
Qed.
Lemma mpfr_get_31 : exists F x, 1 <= F /\ wf (31 + F + 3) x /\ fl_get 31 F (F + 1) x = Some (Inf false) /\ decode 31 F x <> Inf false.
Proof. exists 1, (mk 31 1 1 0 (2 ^ 31 - 1) 0). vm_compute. repeat split; discriminate. Qed.
