(** The self-test programs of the number formats: proofs. *)
From Coq Require Import ZArith List Bool Lia.
From Verif Require Import Fw FwLemmas FwWord Spec SpecLemmas SpecSelf Flopoco FlopocoLemmas FlopocoProofs Ieee IeeeProofs IeeeProofs2 MpfrLib Mpfr MpfrRange MpfrProofs MpfrProofs2 MpfrProofs3 SpecDbl Dbl DblProofs DblProofs2 SelfTest.
Import ListNotations.
Open Scope Z_scope.

Lemma cmp_num_lo m e k : 0 < m -> le_spec (Num false 1 (- k)) (Num false m e) = true -> - k <= Z.log2 m + e.
Proof.
  intros Hm H. unfold le_spec, vcmp, cmp_num, sgn in H. cbv zeta in H. destruct (Z.le_gt_cases (- k) (Z.log2 m + e)) as [|L]; [assumption|exfalso]. pose proof (Z.log2_nonneg m). pose proof (Z.log2_spec m Hm) as [_ U].
  rewrite (Z.min_r (- k) e) in H by lia. rewrite Z.sub_diag, Z.mul_1_l, Z.mul_1_r in H. assert (2 ^ Z.succ (Z.log2 m) <= 2 ^ (- k - e)) by (apply Z.pow_le_mono_r; lia).
  destruct (Z.compare_spec (2 ^ (- k - e)) m); lia || discriminate.
Qed.
Lemma cmp_num_hi m e : 0 < m -> le_spec (Num false m e) (Num false 1 0) = true -> Z.log2 m + e <= 0.
Proof.
  intros Hm H. unfold le_spec, vcmp, cmp_num, sgn in H. cbv zeta in H. destruct (Z.le_gt_cases (Z.log2 m + e) 0) as [|L]; [assumption|exfalso]. pose proof (Z.log2_nonneg m). pose proof (Z.log2_spec m Hm) as [U _].
  destruct (Z.le_gt_cases e 0) as [M|M].
  - rewrite (Z.min_l e 0) in H by lia. rewrite Z.sub_diag, Z.mul_1_l, Z.mul_1_r in H. assert (2 ^ (1 + (0 - e)) <= 2 ^ Z.log2 m) by (apply Z.pow_le_mono_r; lia). rewrite Z.pow_add_r in H1 by lia. change (2 ^ 1) with 2 in H1. pose proof (pow2_pos (0 - e) ltac:(lia)).
    destruct (Z.compare_spec m (2 ^ (0 - e))); lia || discriminate.
  - rewrite (Z.min_r e 0) in H by lia. change (1 * 2 ^ (0 - 0)) with 1 in H. assert (2 ^ 1 <= 2 ^ (e - 0)) by (apply Z.pow_le_mono_r; lia). change (2 ^ 1) with 2 in H1. assert (2 <= m * 2 ^ (e - 0)) by nia.
    destruct (Z.compare_spec (m * 2 ^ (e - 0)) 1); lia || discriminate.
Qed.

(** An MPFR number of F+1 bits whose leading bit lies within the bounds. *)
Definition mp_in (F lo hi : Z) (v : fval) : Prop := v = Zero false \/ exists m e, v = Num false m e /\ 2 ^ F <= m < 2 ^ (F + 1) /\ lo <= e + F <= hi.

Lemma round_in F n k lo : 0 <= F <= 1000 -> 0 < n -> - 2 ^ 20 <= lo -> lo <= Z.log2 n + k <= 2 ^ 20 -> exists m e, mp_round (F + 1) RNDN false n 1 k = Num false m e /\ 2 ^ F <= m < 2 ^ (F + 1) /\ lo <= e + F <= Z.log2 n + k + 1.
Proof.
  intros HF Hn Hl H. pose proof (mp_round_n F false n 1 k ltac:(lia)) as R. pose proof (round_pos_range F n 1 ltac:(lia) Hn ltac:(lia)) as M.
  assert (X : Z.log2 n - F <= snd (round_pos F n 1) <= Z.log2 n - F + 1). { unfold round_pos. rewrite mag_int' by lia. cbv zeta. destruct (_ =? _); cbn [snd]; lia. }
  destruct (round_pos F n 1) as [m e]. cbn [fst snd] in *. unfold mp_emin, mp_emax in R. destruct (_ <? e + k + (F + 1)) eqn:A in R; [apply Z.ltb_lt in A; change (2 ^ 30 - 1) with 1073741823 in A; change (2 ^ 20) with 1048576 in *; lia|].
  destruct (e + k + (F + 1) <? _) eqn:B in R; [apply Z.ltb_lt in B; change (2 ^ 30 - 1) with 1073741823 in B; change (2 ^ 20) with 1048576 in *; lia|]. exists m, (e + k). split; [exact R|]. split; [exact M|lia].
Qed.

Lemma draw_in F k x : 0 <= F <= 1000 -> 0 <= k <= 2 ^ 19 -> draw k x -> mp_in F (- k) 1 (mpfr_set_d (F + 1) x).
Proof.
  intros HF Hk [->|(m & e & -> & Hm & A & B)]; [left; reflexivity|]. right. apply cmp_num_lo in A; [|exact Hm]. apply cmp_num_hi in B; [|exact Hm].
  destruct (round_in F m e (- k) HF Hm) as (m' & e' & R & S & T); [change (2 ^ 20) with 1048576; change (2 ^ 19) with 524288 in Hk; lia|change (2 ^ 20) with 1048576; lia|]. exists m', e'. split; [exact R|]. split; [exact S|lia].
Qed.
Lemma int_in F i : 0 <= F <= 1000 -> (i < 10)%nat -> mp_in F 0 4 (mpfr_set_d (F + 1) (int_double i)).
Proof.
  intros HF Hi. destruct i as [|i]; [left; reflexivity|]. right. cbn [int_double mpfr_set_d mpfr_set]. unfold mpfr_set_d, mpfr_set. assert (N : 0 < Z.of_nat (S i) < 10) by lia.
  assert (L : 0 <= Z.log2 (Z.of_nat (S i)) <= 3). { split; [apply Z.log2_nonneg|]. change 3 with (Z.log2 9). apply Z.log2_le_mono. lia. }
  destruct (round_in F (Z.of_nat (S i)) 0 0 HF) as (m & e & R & S & T); [lia|change (2 ^ 20) with 1048576; lia|change (2 ^ 20) with 1048576; lia|]. exists m, e. split; [exact R|]. split; [exact S|lia].
Qed.

Lemma fl_step E F allow v : ok_ef E F -> mp_in F (emin E) (emax E) v -> exists r, fl_of_mpfr E F (F + 1) allow v = Some r /\ wf (E + F + 3) r /\ decode E F r = v.
Proof.
  intros O [->|(m & e & -> & M & R)].
  - destruct (sp_zero E F false O) as (r & A & B & C). exists r. split; [|auto]. apply fl_allow; [exact A|]. intros ? ? ? H; discriminate.
  - destruct O as [HE HF]. destruct (mpfr_ctor E F allow false m e ltac:(lia) HF M) as [G _]. exact (G R).
Qed.
Lemma ie_step E F allow v : ok_ef E F -> mp_in F (emin E + 1) (emax E - 1) v -> exists r, ie_of_mpfr E F (F + 1) allow v = Some r /\ wf (E + F + 1) r /\ decode_ieee E F r = v.
Proof.
  intros O [->|(m & e & -> & M & R)].
  - destruct (ie_zero E F false O) as (r & A & B & C). exists r. split; [|auto]. apply ie_allow; [exact A|]. intros ? ? ? H; discriminate.
  - destruct O as [HE HF]. destruct (ie_num E F false m e ltac:(lia) HF M) as (r & A & B & C). exists r. split; [apply ie_allow; [exact A|intros s m' e' H; assert (e' = e) as -> by congruence; lia]|]. split; [exact B|]. rewrite C. unfold finish. destruct (_ <? _) eqn:X; [lia|]. destruct (_ <? e + F) eqn:Y; [lia|]. reflexivity.
Qed.
Lemma mp_in_weaken F lo hi lo' hi' v : mp_in F lo hi v -> lo' <= lo -> hi <= hi' -> mp_in F lo' hi' v.
Proof. intros [H|(m & e & A & B & C)] L U; [left; assumption|right]. exists m, e. split; [exact A|]. split; [exact B|lia]. Qed.
Lemma equal_refl F lo hi v : mp_in F lo hi v -> mpfr_equal_p v v = true.
Proof. intros [->|(m & e & -> & _)]; [reflexivity|]. unfold mpfr_equal_p, mpfr_unordered_p, mpfr_nan_p, mpfr_cmp. cbv zeta. rewrite Z.compare_refl. reflexivity. Qed.
Lemma cmp_veq F lo hi v x : mp_in F lo hi v -> veq x v -> cmp_zero v x = true.
Proof.
  intros [->|(m & e & -> & _)] V; destruct x as [|s|s|s n f]; cbn [veq] in V; try contradiction; [reflexivity|]. destruct V as [-> V]. unfold cmp_num in V. cbv zeta in V. apply Z.compare_eq in V.
  unfold cmp_zero, mpfr_cmp. cbv zeta. rewrite (Z.min_comm e f). rewrite <- V. rewrite Z.compare_refl. reflexivity.
Qed.

(** ** The products *)
Lemma mul_in F k x y : 0 <= F <= 1000 -> 0 <= k <= 2 ^ 18 -> mp_in F (- k) 1 x -> mp_in F (- k) 1 y -> mp_in F (- (2 * k)) 4 (mpfr_mul (F + 1) RNDN x y).
Proof.
  intros HF Hk [->|(m & e & -> & M & A)] [->|(n & f & -> & N & B)]; try (left; reflexivity). right. cbn [mpfr_mul xorb]. pose proof (pow2_pos F ltac:(lia)).
  assert (L : forall m, 2 ^ F <= m < 2 ^ (F + 1) -> Z.log2 m = F). { intros q Q. apply Z.log2_unique; [lia|]. replace (Z.succ F) with (F + 1) by lia. exact Q. }
  pose proof (Z.log2_mul_below m n ltac:(lia) ltac:(lia)) as L1. pose proof (Z.log2_mul_above m n ltac:(lia) ltac:(lia)) as L2. rewrite (L m M), (L n N) in L1, L2. change (2 ^ 18) with 262144 in Hk.
  destruct (round_in F (m * n) (e + f) (- (2 * k)) HF) as (m' & e' & R & S & T); [nia|change (2 ^ 20) with 1048576; lia|change (2 ^ 20) with 1048576; lia|]. exists m', e'. split; [exact R|]. split; [exact S|lia].
Qed.

Lemma fl_product E F d k i : ok_ef E F -> 4 <= emax E -> 0 <= k -> 2 * k <= bias E -> (forall i, draw k (d i)) -> bias E < 2 ^ 18 -> fl_test_product E F d i = Some true.
Proof.
  intros O HM Hk HB D S. pose proof O as [HE HF]. unfold fl_test_product. cbv zeta. unfold emax, emin in *. change (2 ^ 18) with 262144 in S.
  pose proof (draw_in F k _ ltac:(lia) ltac:(change (2 ^ 19) with 524288; lia) (D (2 * i)%nat)) as A. pose proof (draw_in F k _ ltac:(lia) ltac:(change (2 ^ 19) with 524288; lia) (D (2 * i + 1)%nat)) as B.
  remember (mpfr_set_d (F + 1) (d (2 * i)%nat)) as a. remember (mpfr_set_d (F + 1) (d (2 * i + 1)%nat)) as b.
  pose proof (mul_in F k a b ltac:(lia) ltac:(change (2 ^ 18) with 262144; lia) A B) as M.
  destruct (fl_step E F false a O) as (ta & A1 & A2 & A3); [apply (mp_in_weaken F _ _ _ _ _ A); unfold emin, emax; lia|]. rewrite A1. cbn [bind].
  destruct (fl_step E F false b O) as (tb & B1 & B2 & B3); [apply (mp_in_weaken F _ _ _ _ _ B); unfold emin, emax; lia|]. rewrite B1. cbn [bind].
  unfold ref_mul. rewrite (fl_get_ok E F ta), (fl_get_ok E F tb) by assumption. cbn [bind]. rewrite A3, B3.
  destruct (fl_step E F true (mpfr_mul (F + 1) RNDN a b) O) as (r & R1 & R2 & R3); [apply (mp_in_weaken F _ _ _ _ _ M); unfold emin, emax; lia|]. rewrite R1. cbn [bind]. rewrite fl_get_ok by assumption. cbn [bind]. rewrite R3, (equal_refl F _ _ _ M). reflexivity.
Qed.
Lemma ie_product E F d k i : ok_ef E F -> 4 <= emax E - 1 -> 0 <= k -> 2 * k <= bias E - 1 -> (forall i, draw k (d i)) -> bias E < 2 ^ 18 -> ie_test_product E F d i = Some true.
Proof.
  intros O HM Hk HB D S. pose proof O as [HE HF]. unfold ie_test_product. cbv zeta. unfold emax, emin in *. change (2 ^ 18) with 262144 in S.
  pose proof (draw_in F k _ ltac:(lia) ltac:(change (2 ^ 19) with 524288; lia) (D (2 * i)%nat)) as A. pose proof (draw_in F k _ ltac:(lia) ltac:(change (2 ^ 19) with 524288; lia) (D (2 * i + 1)%nat)) as B.
  remember (mpfr_set_d (F + 1) (d (2 * i)%nat)) as a. remember (mpfr_set_d (F + 1) (d (2 * i + 1)%nat)) as b.
  pose proof (mul_in F k a b ltac:(lia) ltac:(change (2 ^ 18) with 262144; lia) A B) as M.
  destruct (ie_step E F false a O) as (ta & A1 & A2 & A3); [apply (mp_in_weaken F _ _ _ _ _ A); unfold emin, emax; lia|]. rewrite A1. cbn [bind].
  destruct (ie_step E F false b O) as (tb & B1 & B2 & B3); [apply (mp_in_weaken F _ _ _ _ _ B); unfold emin, emax; lia|]. rewrite B1. cbn [bind].
  unfold ie_ref_mul. rewrite (ie_get_ok E F ta), (ie_get_ok E F tb) by assumption. cbn [bind]. rewrite A3, B3.
  destruct (ie_step E F true (mpfr_mul (F + 1) RNDN a b) O) as (r & R1 & R2 & R3); [apply (mp_in_weaken F _ _ _ _ _ M); unfold emin, emax; lia|]. rewrite R1. cbn [bind]. rewrite ie_get_ok by assumption. cbn [bind]. rewrite R3, (equal_refl F _ _ _ M). reflexivity.
Qed.

(** ** The first tests *)
Lemma fl_number E F lo hi v : 1 <= E <= 11 -> 1 <= F <= 52 -> emin E <= lo -> hi <= emax E -> -1022 <= lo -> hi <= 1023 -> mp_in F lo hi v ->
  exists r x, fl_of_mpfr E F (F + 1) false v = Some r /\ fl_get E F (F + 1) r = Some v /\ to_double E F r = Some x /\ cmp_zero v x = true.
Proof.
  intros HE HF A1 A2 A3 A4 V. destruct (fl_step E F false v ltac:(split; lia)) as (r & R1 & R2 & R3); [apply (mp_in_weaken F _ _ _ _ _ V); lia|].
  destruct (to_double_right E F r HE HF R2) as (x & X1 & _ & X3). { intros s m e H. rewrite R3 in H. destruct V as [->|(m' & e' & -> & _ & V)]; [discriminate|]. assert (s = false) as -> by congruence. assert (e' = e) as -> by congruence. split; [reflexivity|lia]. }
  exists r, x. split; [exact R1|]. split; [rewrite fl_get_ok by (assumption || lia); rewrite R3; reflexivity|]. split; [exact X1|]. apply (cmp_veq F lo hi); [exact V|]. rewrite <- R3. exact X3.
Qed.
Lemma loop_true {A} (body : A -> option bool) l : (forall i, In i l -> body i = Some true) -> loop body l = Some true.
Proof. induction l as [|i l IH]; intros H; [reflexivity|]. cbn [loop]. rewrite (H i (or_introl eq_refl)). unfold and_then. cbn [bind]. apply IH. intros j J. apply H. right. exact J. Qed.

Lemma fl_specials E F : 1 <= E <= 11 -> 1 <= F <= 52 -> fl_test_specials E F = Some true.
Proof.
  intros HE HF. assert (O : ok_ef E F) by (split; lia). pose proof (pow2_pos F ltac:(lia)) as PF. pose proof (pow2_pos E ltac:(lia)) as PE. pose proof (og_bound E ltac:(lia)) as OE. pose proof (og_bound F ltac:(lia)) as OF.
  assert (L : forall k fl s e f, k = fl * 2 + Z.b2z s -> 0 <= e < 2 ^ E -> 0 <= f < 2 ^ F -> lim E F k e f = pack E F fl s e f). { intros k fl s e f -> He Hf. apply lim_pack; lia. }
  assert (I1 : lim_infinity E F = pack E F 2 false 0 0) by (apply L; reflexivity || (unfold zg; lia)). assert (I2 : lim_neg_infinity E F = pack E F 2 true 0 0) by (apply L; reflexivity || (unfold zg; lia)). assert (I3 : lim_quiet_NaN E F = pack E F 3 false 0 0) by (apply L; reflexivity || (unfold zg; lia)).
  assert (M1 : lim_max E F = pack E F 1 false (og E) (og F)) by (apply L; reflexivity || lia). assert (M2 : lim_lowest E F = pack E F 1 true (og E) (og F)) by (apply L; reflexivity || lia).
  assert (OM : okf E F 1 (og E) (og F)) by (repeat split; lia).
  assert (U : nextup E F (lim_max E F) = lim_infinity E F). { rewrite M1. unfold nextup. fields. cbn [Z.eqb Pos.eqb andb negb]. rewrite !Z.eqb_refl. reflexivity. }
  assert (D : nextdown E F (lim_lowest E F) = lim_neg_infinity E F). { rewrite M2. unfold nextdown. fields. cbn [Z.eqb Pos.eqb andb negb]. rewrite !Z.eqb_refl. reflexivity. }
  unfold fl_test_specials. cbv zeta. rewrite U, D, I1, I2, I3, M1.
  assert (G : forall fl s, 0 <= fl < 4 -> fl_get E F (F + 1) (pack E F fl s 0 0) = Some (decode E F (pack E F fl s 0 0))). { intros fl s Hf. apply fl_get_ok; try lia. apply pack_wf. repeat split; lia. }
  rewrite !G by lia. rewrite (fl_get_ok E F (pack E F 1 false (og E) (og F))) by (try lia; apply pack_wf; exact OM). rewrite !decode_pack by (repeat split; lia). rewrite !to_double_view by (try lia; repeat split; lia). reflexivity.
Qed.
Lemma ie_specials E F : 2 <= E <= 30 -> 1 <= F <= 128 -> ie_test_specials E F = Some true.
Proof.
  intros HE HF. assert (O : ok_ef E F) by (split; lia). unfold ie_test_specials. cbv zeta.
  destruct (ie_limits_ok E F ltac:(lia) ltac:(lia)) as (_ & _ & _ & _ & _ & A & B & C & _).
  assert (W1 : wf (E + F + 1) (ie_infinity E F)). { destruct (ie_inf E F false O) as (r & R & W & _). unfold ie_of_mpfr in R. replace (_ && _) with true in R by lia. rewrite Z.eqb_refl in R. cbn [assert_ bind] in R. replace (ie_infinity E F) with r by congruence. exact W. }
  assert (W2 : wf (E + F + 1) (ie_neg_infinity E F)). { destruct (ie_inf E F true O) as (r & R & W & _). unfold ie_of_mpfr in R. replace (_ && _) with true in R by lia. rewrite Z.eqb_refl in R. cbn [assert_ bind] in R. replace (ie_neg_infinity E F) with r by congruence. exact W. }
  assert (W3 : wf (E + F + 1) (ie_quiet_NaN E F)). { destruct (ie_nan E F O) as (r & R & W & _). unfold ie_of_mpfr in R. replace (_ && _) with true in R by lia. rewrite Z.eqb_refl in R. cbn [assert_ bind] in R. replace (ie_quiet_NaN E F) with r by congruence. exact W. }
  rewrite !ie_get_ok by assumption. rewrite A, B, C. reflexivity.
Qed.

Lemma bias_mono E E' : 1 <= E <= E' -> bias E <= bias E'.
Proof. intros H. unfold bias. assert (2 ^ (E - 1) <= 2 ^ (E' - 1)) by (apply Z.pow_le_mono_r; lia). lia. Qed.
Lemma fl_test1_ok E F d k : 3 <= E <= 11 -> 1 <= F <= 52 -> 0 <= k -> 2 * k <= bias E -> (forall i, draw k (d i)) -> fl_test1 E F d = Some true.
Proof.
  intros HE HF Hk HB D. pose proof (bias_mono 3 E ltac:(lia)) as B1. pose proof (bias_mono E 11 ltac:(lia)) as B2. change (bias 3) with 3 in B1. change (bias 11) with 1023 in B2.
  unfold fl_test1. rewrite fl_specials by lia. unfold and_then. cbn [bind]. rewrite loop_true; [cbn [bind]; apply loop_true|].
  - intros i _. unfold fl_test_draw. cbv zeta. destruct (fl_number E F (- k) 1 (mpfr_set_d (F + 1) (d i))) as (r & x & R1 & R2 & R3 & R4); try (unfold emin, emax; lia). { apply draw_in; [lia|change (2 ^ 19) with 524288; lia|apply D]. }
    rewrite R1. cbn [bind]. rewrite R2. cbn [bind]. rewrite R3. cbn [bind]. rewrite R4. reflexivity.
  - intros i I. apply in_seq in I. unfold fl_test_int. cbv zeta. pose proof (int_in F i ltac:(lia) ltac:(lia)) as V. destruct (fl_number E F 0 4 (mpfr_set_d (F + 1) (int_double i))) as (r & x & R1 & R2 & R3 & R4); try (unfold emin, emax; lia); [exact V|].
    rewrite R1. cbn [bind]. rewrite R2. cbn [bind]. rewrite (equal_refl F _ _ _ V). cbn [check]. rewrite R3. cbn [bind]. rewrite R4. reflexivity.
Qed.
Lemma fl_test_ok E F d k : 3 <= E <= 11 -> 1 <= F <= 52 -> 0 <= k -> 2 * k <= bias E -> (forall i, draw k (d i)) -> fl_test E F d = Some true.
Proof.
  intros HE HF Hk HB D. pose proof (bias_mono 3 E ltac:(lia)) as B1. pose proof (bias_mono E 11 ltac:(lia)) as B2. change (bias 3) with 3 in B1. change (bias 11) with 1023 in B2.
  unfold fl_test. rewrite (fl_test1_ok E F d k) by assumption. unfold and_then. cbn [bind]. apply loop_true. intros i _. apply (fl_product E F d k); try assumption; [split; lia|unfold emax; lia|change (2 ^ 18) with 262144; lia].
Qed.
Lemma ie_number E F lo hi v : ok_ef E F -> emin E + 1 <= lo -> hi <= emax E - 1 -> mp_in F lo hi v -> (forall x, mpfr_set_d (F + 1) x = v -> ie_test_number E F x = Some true).
Proof.
  intros O A1 A2 V x X. unfold ie_test_number. cbv zeta. rewrite X. destruct (ie_step E F false v O) as (r & R1 & R2 & R3); [apply (mp_in_weaken F _ _ _ _ _ V); lia|]. rewrite R1. cbn [bind]. rewrite ie_get_ok by assumption. cbn [bind]. rewrite R3, (equal_refl F _ _ _ V). reflexivity.
Qed.
Lemma ie_test_ok E F d k : 4 <= E <= 18 -> 1 <= F <= 128 -> 0 <= k -> 2 * k <= bias E - 1 -> (forall i, draw k (d i)) -> ie_test E F d = Some true.
Proof.
  intros HE HF Hk HB D. pose proof (bias_mono 4 E ltac:(lia)) as B1. pose proof (bias_mono E 18 ltac:(lia)) as B2. change (bias 4) with 7 in B1. change (bias 18) with 131071 in B2. assert (O : ok_ef E F) by (split; lia).
  unfold ie_test, ie_test1. rewrite ie_specials by lia. unfold and_then. cbn [bind]. rewrite loop_true; [cbn [bind]; rewrite loop_true; [cbn [bind]; apply loop_true|]|].
  - intros i _. apply (ie_product E F d k); try assumption; [unfold emax; lia|change (2 ^ 18) with 262144; lia].
  - intros i _. apply (ie_number E F (- k) 1 (mpfr_set_d (F + 1) (d i)) O); try (unfold emin, emax; lia); [|reflexivity]. apply draw_in; [lia|change (2 ^ 19) with 524288; lia|apply D].
  - intros i I. apply in_seq in I. apply (ie_number E F 0 4 (mpfr_set_d (F + 1) (int_double i)) O); try (unfold emin, emax; lia); [|reflexivity]. apply int_in; lia.
Qed.

Lemma draw_weaken k k' x : k <= k' -> draw k x -> draw k' x.
Proof.
  intros L [H|(m & e & -> & Hm & A & B)]; [left; exact H|right]. exists m, e. split; [reflexivity|]. split; [exact Hm|]. split; [|exact B].
  revert A. unfold le_spec, vcmp, cmp_num, sgn. cbv zeta. rewrite !Z.mul_1_l. intros A.
  assert (X : forall k, (match (2 ^ (- k - Z.min (- k) e) ?= m * 2 ^ (e - Z.min (- k) e)) with Lt | Eq => true | Gt => false end = true) <-> 2 ^ (- k - Z.min (- k) e) <= m * 2 ^ (e - Z.min (- k) e)). { intros q. destruct (Z.compare_spec (2 ^ (- q - Z.min (- q) e)) (m * 2 ^ (e - Z.min (- q) e))); split; intros; try discriminate; try reflexivity; lia. }
  assert (Y : 2 ^ (- k' - Z.min (- k') e) <= m * 2 ^ (e - Z.min (- k') e)).
  { assert (A' : 2 ^ (- k - Z.min (- k) e) <= m * 2 ^ (e - Z.min (- k) e)) by (apply X; destruct (_ ?= _); assumption || discriminate).
    destruct (Z.le_gt_cases e (- k')) as [Q|Q].
    - rewrite (Z.min_r (- k') e) by lia. rewrite Z.min_r in A' by lia. assert (2 ^ (- k' - e) <= 2 ^ (- k - e)) by (apply Z.pow_le_mono_r; lia). rewrite Z.sub_diag, Z.mul_1_r in *. lia.
    - rewrite (Z.min_l (- k') e) by lia. rewrite Z.sub_diag. pose proof (pow2_pos (e - - k') ltac:(lia)). change (2 ^ 0) with 1. nia. }
  apply X in Y. destruct (_ ?= _); assumption || reflexivity.
Qed.
Lemma fl_main_ok d : (forall i, draw 15 (d i)) -> fl_main d = Some true.
Proof.
  intros D. unfold fl_main. replace fl_test_single with (Some true) by (vm_compute; reflexivity). unfold and_then. cbn [bind]. apply loop_true. intros [E F] I.
  unfold fl_formats in I. cbn [In] in I. cbn [fst snd]. repeat (destruct I as [I|I]; [injection I as <- <-; apply (fl_test_ok _ _ d 15); [lia|lia|lia|vm_compute; discriminate|exact D]|]). destruct I.
Qed.
Lemma ie_main_ok d : (forall i, draw 15 (d i)) -> ie_main d = Some true.
Proof.
  intros D. unfold ie_main. replace ie_test_single with (Some true) by (vm_compute; reflexivity). unfold and_then. cbn [bind]. apply loop_true. intros [E F] I.
  unfold ie_formats in I. cbn [In] in I. cbn [fst snd]. repeat (destruct I as [I|I]; [injection I as <- <-; apply (ie_test_ok _ _ d 15); [lia|lia|lia|vm_compute; discriminate|exact D]|]). destruct I.
Qed.

(** Draws of 2^-64, which the generator can return, make the products underflow; a draw of 2^-40 is too small for the
    narrowest format. *)
Definition tiny_draws (i : nat) : fval := Num false (2 ^ 52) (-52 - 64).
Definition one_tiny_draw (i : nat) : fval := if Nat.eqb i 3 then Num false (2 ^ 52) (-52 - 40) else Num false (2 ^ 52) (-53).
Lemma tiny_fail : (forall i, draw 64 (tiny_draws i)) /\ fl_main tiny_draws = Some false /\ ie_main tiny_draws = Some false.
Proof. split; [|vm_compute; split; reflexivity]. intros i. right. exists (2 ^ 52), (-52 - 64). vm_compute. repeat split; reflexivity. Qed.
Lemma one_tiny_fails : (forall i, draw 40 (one_tiny_draw i)) /\ fl_main one_tiny_draw = None /\ ie_main one_tiny_draw = None.
Proof. split; [|vm_compute; split; reflexivity]. intros i. unfold one_tiny_draw. right. destruct (Nat.eqb i 3); [exists (2 ^ 52), (-52 - 40)|exists (2 ^ 52), (-53)]; vm_compute; repeat split; reflexivity. Qed.
Lemma one_tiny_fails' : exists d, (forall i, draw 40 (d i)) /\ (forall i, i <> 3%nat -> draw 1 (d i)) /\ fl_main d = None /\ ie_main d = None.
Proof.
  exists one_tiny_draw. destruct one_tiny_fails as (A & B & C). split; [exact A|]. split; [|split; assumption]. intros i Hi. unfold one_tiny_draw. destruct (Nat.eqb_spec i 3); [contradiction|]. right. exists (2 ^ 52), (-53). vm_compute. repeat split; reflexivity.
Qed.
