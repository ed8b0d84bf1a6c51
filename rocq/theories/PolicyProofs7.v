(** The test program with its own inputs finds no failure in the library's operators. *)
From Coq Require Import ZArith List Bool Lia.
From Verif Require Import Fw FwLemmas FwWord FwWordProofs2 Spec SpecPolicy Spec754 SpecLemmas Flopoco FlopocoLemmas FlopocoProofs CompareProofs AddDualProofs Ieee IeeeProofs IeeeProofs2 Sf754Lemmas MpfrLib Mpfr MpfrProofs MpfrProofs2 MpfrProofs3 SoftFloat Policy PolicyProofs PolicyProofs2 PolicyProofs3 PolicyProofs4 PolicyProofs5 PolicyProofs6.
Import ListNotations.
Open Scope Z_scope.

Definition inf_word (E F : Z) (s : bool) : Z := if s then lim_neg_infinity E F else lim_infinity E F.
Definition fl_good (E F w : Z) : Prop := wf (E + F + 3) w /\ decode E F w <> NaN /\ forall s, decode E F w = Inf s -> w = inf_word E F s.
Definition ie_good (E F w : Z) : Prop := wf (E + F + 1) w /\ decode_ieee E F w <> NaN.
Definition n_good (E F w : Z) : Prop := 0 <= w < 2 ^ (E + F + 1) /\ decode754 E F w <> NaN.

Lemma inf_word_pack E F s : 1 <= E -> 1 <= F -> inf_word E F s = pack E F 2 s 0 0 /\ okf E F 2 0 0.
Proof.
  intros HE HF. pose proof (pow2_pos F ltac:(lia)) as PF. pose proof (pow2_pos E ltac:(lia)) as PE. unfold inf_word, lim_neg_infinity, lim_infinity, zg. destruct s.
  - destruct (lim_is_pack E F 5 2 true 0 0) as [K1 K2]; try lia; [reflexivity|]. split; assumption.
  - destruct (lim_is_pack E F 4 2 false 0 0) as [K1 K2]; try lia; [reflexivity|]. split; assumption.
Qed.
Lemma inf_good E F s : 1 <= E -> 1 <= F -> fl_good E F (inf_word E F s).
Proof.
  intros HE HF. destruct (inf_word_pack E F s HE HF) as [K1 K2]. assert (D : decode E F (inf_word E F s) = Inf s) by (rewrite K1, decode_pack by assumption; reflexivity).
  split; [rewrite K1; apply pack_wf; exact K2|]. rewrite D. split; [discriminate|]. intros t T. injection T as <-. reflexivity.
Qed.
Lemma num_good E F w s m e : wf (E + F + 3) w -> decode E F w = Num s m e -> fl_good E F w.
Proof. intros W D. split; [exact W|]. rewrite D. split; discriminate. Qed.
Lemma zero_good E F w s : wf (E + F + 3) w -> decode E F w = Zero s -> fl_good E F w.
Proof. intros W D. split; [exact W|]. rewrite D. split; discriminate. Qed.
Lemma fl_pow2 E F s e : 1 <= E <= 30 -> 1 <= F <= 128 -> exists w, fl_of_mpfr E F (F + 1) true (Num s (2 ^ F) e) = Some w /\ fl_good E F w.
Proof.
  intros HE HF. pose proof (pow2_pos F ltac:(lia)) as PF. assert (P1 : 2 ^ (F + 1) = 2 * 2 ^ F) by (rewrite Z.pow_add_r; lia). destruct (fl_num E F s (2 ^ F) e ltac:(lia) HF ltac:(lia)) as [r [R1 [R2 R3]]]. exists r. split; [exact R1|].
  unfold finish in R3. destruct (e + F <? emin E) eqn:U; [apply (zero_good E F r s); assumption|]. destruct (emax E <? e + F) eqn:O; [|apply (num_good E F r s (2 ^ F) e); assumption].
  assert (r = inf_word E F s); [|subst; apply inf_good; lia]. destruct (inf_word_pack E F s ltac:(lia) ltac:(lia)) as [K1 K2]. rewrite K1.
  unfold fl_of_mpfr in R1. replace ((1 <=? E) && (E <=? 31)) with true in R1 by (symmetry; apply andb_true_intro; split; lia). rewrite Z.eqb_refl in R1. cbn [assert_ bind] in R1. cbv zeta in R1.
  assert (Q : (if (if s then - 2 ^ F else 2 ^ F) <? 0 then - (if s then - 2 ^ F else 2 ^ F) else if s then - 2 ^ F else 2 ^ F) = 2 ^ F /\ ((if s then - 2 ^ F else 2 ^ F) <? 0) = s) by (destruct s; split; try lia; destruct (_ <? 0) eqn:L; lia).
  destruct Q as [Q1 Q2]. rewrite Q1, Q2 in R1. rewrite Z.pow2_bits_true in R1 by lia. cbn [assert_ bind] in R1. rewrite clear_top in R1 by lia. rewrite Z.sub_diag in R1.
  unfold emin, emax, bias in O, U. rewrite of_mpz_spec in R1 by lia. change (Z.abs 0) with 0 in R1. replace (0 <? 2 ^ F) with true in R1 by lia. cbn [bind] in R1. replace (e + F <? 0 - (2 ^ (E - 1) - 1)) with false in R1 by lia. replace (0 + (2 ^ (E - 1) - 1) + 1 <? e + F) with true in R1 by lia. injection R1 as <-.
  pose proof (pow2_pos E ltac:(lia)). apply mk_pack; lia.
Qed.
Theorem flopoco_input E F : 4 <= E <= 30 -> 1 <= F <= 128 ->
  exists l, Forall (fl_good E F) l /\ length l = Z.to_nat (136 + 4 * F) /\ forall u n, make_input (flopoco_policy E F) u n = push_random (flopoco_policy E F) u n 0 n l.
Proof.
  intros HE HF. assert (OK : ok_ef E F) by (split; lia). pose proof (pow2_pos F ltac:(lia)) as PF. pose proof (pow2_pos E ltac:(lia)) as PE. pose proof (og_bound E ltac:(lia)) as OE. pose proof (og_bound F ltac:(lia)) as OF. assert (P1 : 2 ^ (F + 1) = 2 * 2 ^ F) by (rewrite Z.pow_add_r; lia).
  assert (B1 : 8 <= 2 ^ (E - 1)) by (change 8 with (2 ^ 3); apply Z.pow_le_mono_r; lia). assert (B2 : 2 ^ (E - 1) <= 2 ^ 29) by (apply Z.pow_le_mono_r; lia). assert (PEE : 2 ^ E = 2 * 2 ^ (E - 1)) by (rewrite <- Z.pow_succ_r by lia; f_equal; lia).
  destruct (lim_is_pack E F 2 1 false (og E) (og F)) as [M1 M2]; try lia; [reflexivity|]. destruct (lim_is_pack E F 2 1 false 0 0) as [N1 N2]; try lia; [reflexivity|].
  assert (DM : decode E F (lim_max E F) = Num false (2 ^ (F + 1) - 1) (emax E - F)) by (unfold lim_max; rewrite M2, decode_pack by assumption; cbn [Z.eqb Pos.eqb]; unfold emax, bias; f_equal; [rewrite og_eq by lia; lia|rewrite og_eq by lia; lia]).
  assert (DN : decode E F (lim_min E F) = Num false (2 ^ F) (emin E - F)) by (unfold lim_min, zg; rewrite N2, decode_pack by assumption; cbn [Z.eqb Pos.eqb]; unfold emin, bias; f_equal; lia).
  assert (WM : wf (E + F + 3) (lim_max E F)) by (unfold lim_max; rewrite M2; apply pack_wf; exact M1). assert (WN : wf (E + F + 3) (lim_min E F)) by (unfold lim_min, zg; rewrite N2; apply pack_wf; exact N1).
  apply (make_input_gen (flopoco_policy E F) F (emin E) (emax E)); unfold emin, emax, bias in *; cbn [flopoco_policy digits from_mpfr to_mpfr lmin lmax linf]; try lia.
  - intros allow s m e Hm He. destruct (mpfr_ctor E F allow s m e ltac:(lia) HF Hm) as [C _]. destruct (C ltac:(unfold emin, emax, bias; lia)) as [r [C1 [C2 C3]]]. exists r. split; [exact C1|]. apply (num_good E F r s m e); assumption.
  - intros s e _. apply fl_pow2; lia.
  - exists (inf_word E F true). split; [|apply inf_good; lia]. unfold fl_of_mpfr. replace ((1 <=? E) && (E <=? 31)) with true by (symmetry; apply andb_true_intro; split; lia). rewrite Z.eqb_refl. reflexivity.
  - intros s. destruct (sp_zero E F s OK) as [r [C1 [C2 C3]]]. exists r. split; [|apply (zero_good E F r s); assumption]. apply (fl_allow E F (F + 1) false _ _ C1). discriminate.
  - rewrite fl_get_ok by (assumption || lia). rewrite DM. split; [reflexivity|]. eapply num_good; eassumption.
  - rewrite fl_get_ok by (assumption || lia). rewrite DN. split; [reflexivity|]. eapply num_good; eassumption.
  - apply (inf_good E F false); lia.
Qed.
Theorem flopoco_self_test E F u n : 4 <= E <= 30 -> F <= 128 -> dual_ok_width E F -> Z.of_nat n <= 136 + 4 * F ->
  test_arithmetic (flopoco_policy E F) (flopoco_ops E F) u n = Some false.
Proof.
  intros HE HF HW Hn. assert (1 <= F) by (destruct HW; lia). destruct (flopoco_input E F HE ltac:(lia)) as [l [L1 [L2 L3]]]. unfold test_arithmetic. rewrite L3, random_unused by lia. cbn [bind]. rewrite Forall_forall in L1.
  apply (decides_pass _ _ _ _ _ _ _ _ (flopoco_decides E F ltac:(split; lia))).
  - intros a Ha. destruct (L1 a Ha) as [X [Y Z]]. split; assumption.
  - intros a b Ha Hb. destruct (L1 a Ha) as [X [Y Z]]. destruct (L1 b Hb) as [X' [Y' Z']]. apply flopoco_right; try assumption. intros s S1 S2. rewrite (Z s S1), (Z' s S2). reflexivity.
Qed.

(** ** ieee_on_flopoco *)
Lemma ie_good_of E F w v : wf (E + F + 1) w -> decode_ieee E F w = v -> v <> NaN -> ie_good E F w.
Proof. intros W D N. split; [exact W|]. rewrite D. exact N. Qed.
Theorem ieee_input E F : 4 <= E <= 30 -> 1 <= F <= 128 ->
  exists l, Forall (ie_good E F) l /\ length l = Z.to_nat (136 + 4 * F) /\ forall u n, make_input (ieee_policy E F) u n = push_random (ieee_policy E F) u n 0 n l.
Proof.
  intros HE HF. assert (OK : ok_ef E F) by (split; lia). assert (P1 : 2 ^ (F + 1) = 2 * 2 ^ F) by (rewrite Z.pow_add_r; lia).
  assert (PF : 2 <= 2 ^ F) by (change 2 with (2 ^ 1) at 1; apply Z.pow_le_mono_r; lia).
  assert (B1 : 8 <= 2 ^ (E - 1)) by (change 8 with (2 ^ 3); apply Z.pow_le_mono_r; lia). assert (B2 : 2 ^ (E - 1) <= 2 ^ 29) by (apply Z.pow_le_mono_r; lia). assert (PEE : 2 ^ E = 2 * 2 ^ (E - 1)) by (rewrite <- Z.pow_succ_r by lia; f_equal; lia).
  assert (DMN : (decode_ieee E F (ie_max E F) = Num false (2 ^ (F + 1) - 1) (emax E - 1 - F) /\ wf (E + F + 1) (ie_max E F)) /\ (decode_ieee E F (ie_min E F) = Num false (2 ^ F) (emin E + 1 - F) /\ wf (E + F + 1) (ie_min E F))).
  { unfold ie_max, ie_min, zg. rewrite !og_eq by lia. change (2 ^ 1 - 1) with 1.
    destruct (ie_lim E F false (2 ^ (E - 1) - 1) 0 (2 ^ F - 1)) as [M1 O1]; try lia. destruct (ie_lim E F false 0 1 0) as [M3 O2]; try lia. cbn [Z.b2z] in M1, M3. rewrite M1, M3. replace (2 * (2 ^ (E - 1) - 1) + 0) with (2 ^ E - 2) in * by lia. change (2 * 0 + 1) with 1 in *.
    change (ie_mk E F 0) with (ie_mk E F (Z.b2z false)). rewrite ?ie_mk_pack by assumption. split; (split; [|apply ipack_wf; assumption]); rewrite decode_ipack by assumption.
    - replace (2 ^ E - 2 =? 0) with false by lia. replace (2 ^ E - 2 =? 2 ^ E - 1) with false by lia. unfold emax, bias. f_equal; lia.
    - change (1 =? 0) with false. cbv iota. replace (1 =? 2 ^ E - 1) with false by lia. unfold emin, bias. f_equal; lia. }
  destruct DMN as [[DM WM] [DN WN]].
  assert (SP : forall v, v <> NaN -> match v with Num _ _ _ => False | _ => True end -> exists w, ie_of_mpfr E F (F + 1) false v = Some w /\ ie_good E F w).
  { intros v N S. assert (R : rounds_ie E F (ie_of_mpfr E F (F + 1) true v) v) by (destruct v; [congruence|apply ie_inf; exact OK|apply ie_zero; exact OK|contradiction]). destruct R as [r [C1 [C2 C3]]]. exists r. split; [|eapply ie_good_of; eassumption]. apply (ie_allow E F (F + 1) false _ _ C1). intros s m e ->. contradiction. }
  apply (make_input_gen (ieee_policy E F) F (emin E + 1) (emax E - 1)); unfold emin, emax, bias in *; cbn [ieee_policy digits from_mpfr to_mpfr lmin lmax linf]; try lia.
  - intros allow s m e Hm He. destruct (ie_num E F s m e ltac:(lia) HF Hm) as [r [C1 [C2 C3]]]. unfold finish, emin, emax, bias in C3. replace (e + F <? _) with false in C3 by lia. replace (_ <? e + F) with false in C3 by lia. exists r. split; [|apply (ie_good_of E F r _ C2 C3); discriminate]. apply (ie_allow E F (F + 1) allow _ _ C1). intros s' m' e' Q. injection Q as _ _ <-. unfold emin, emax, bias. lia.
  - intros s e _. destruct (ie_num E F s (2 ^ F) e ltac:(lia) HF ltac:(lia)) as [r [C1 [C2 C3]]]. exists r. split; [exact C1|]. apply (ie_good_of E F r _ C2 C3). unfold finish. destruct (_ <? _); [discriminate|]. destruct (_ <? _); discriminate.
  - apply SP; [discriminate|exact I].
  - intros s. apply SP; [discriminate|exact I].
  - rewrite ie_get_ok by assumption. rewrite DM. split; [reflexivity|]. apply (ie_good_of E F _ _ WM DM). discriminate.
  - rewrite ie_get_ok by assumption. rewrite DN. split; [reflexivity|]. apply (ie_good_of E F _ _ WN DN). discriminate.
  - destruct (SP (Inf false) ltac:(discriminate) I) as [w [C1 C2]]. unfold ie_of_mpfr in C1. replace ((1 <=? E) && (E <=? 31)) with true in C1 by (symmetry; apply andb_true_intro; split; lia). rewrite Z.eqb_refl in C1. cbn [assert_ bind] in C1. injection C1 as ->. exact C2.
Qed.
Theorem ieee_self_test E F u n : 4 <= E <= 30 -> F <= 128 -> dual_ok_width E F -> Z.of_nat n <= 136 + 4 * F ->
  test_arithmetic (ieee_policy E F) (ieee_ops E F) u n = Some false.
Proof.
  intros HE HF HW Hn. assert (1 <= F) by (destruct HW; lia). destruct (ieee_input E F HE ltac:(lia)) as [l [L1 [L2 L3]]]. unfold test_arithmetic. rewrite L3, random_unused by lia. cbn [bind]. rewrite Forall_forall in L1.
  apply (decides_pass _ _ _ _ _ _ _ _ (ieee_decides E F ltac:(split; lia))).
  - exact L1.
  - intros a b Ha Hb. destruct (L1 a Ha) as [X Y]. destruct (L1 b Hb) as [X' Y']. apply ieee_right; assumption.
Qed.

(** ** native and SoftFloat *)
Lemma native_input E F P : 4 <= E <= 29 -> 1 <= F <= 128 -> F + 8 <= bias E -> digits P = F + 1 -> writes E F (from_mpfr P) -> to_mpfr P = native_to E F (F + 1) ->
  lmax P = word754 E F (Num false (2 ^ (F + 1) - 1) (bias E - F)) -> lmin P = word754 E F (Num false (2 ^ F) (1 - bias E - F)) -> linf P = word754 E F (Inf false) ->
  exists l, Forall (n_good E F) l /\ length l = Z.to_nat (136 + 4 * F) /\ forall u n, make_input P u n = push_random P u n 0 n l.
Proof.
  intros HE HF HB Hd HW HT Hx Hn Hi. pose proof (pow2_pos F ltac:(lia)) as PF. assert (P1 : 2 ^ (F + 1) = 2 * 2 ^ F) by (rewrite Z.pow_add_r; lia).
  assert (B1 : 8 <= 2 ^ (E - 1)) by (change 8 with (2 ^ 3); apply Z.pow_le_mono_r; lia). assert (B2 : 2 ^ (E - 1) <= 2 ^ 29) by (apply Z.pow_le_mono_r; lia). assert (BB : 7 <= bias E <= 2 ^ 29 - 1) by (unfold bias; lia).
  assert (G : forall allow v, nice E F v -> v <> NaN -> exists w, from_mpfr P allow v = Some w /\ n_good E F w).
  { intros allow v N NN. destruct (HW allow v N) as [w [W1 [W2 W3]]]. exists w. split; [exact W1|]. split; [exact W2|]. intros D. rewrite D in W3. destruct v; (congruence || contradiction). }
  assert (NI : forall s m e, 2 ^ F <= m < 2 ^ (F + 1) -> 1 - bias E <= e + F <= bias E -> nice E F (Num s m e)) by (intros s m e Hm He; cbn [nice]; unfold qmin; split; [lia|]; split; lia).
  assert (LM : forall m e, 2 ^ F <= m < 2 ^ (F + 1) -> 1 - bias E <= e + F <= bias E -> native_to E F (F + 1) (word754 E F (Num false m e)) = Some (Num false m e) /\ n_good E F (word754 E F (Num false m e))).
  { intros m e Hm He. assert (I7 : in754 E F (Num false m e)) by (right; unfold qmin; lia). destruct (decode_word754 E F _ ltac:(lia) ltac:(lia) I7) as [W D]. split; [|split; [exact W|rewrite D; discriminate]].
    destruct (native_reads E F (word754 E F (Num false m e)) ltac:(lia) ltac:(lia)) as [x [j [X1 [X2 [X3 X4]]]]]. rewrite X1, X3, D. cbn [scale_v]. rewrite D in X3. cbn [scale_v] in X3. rewrite X3 in X4. cbn [nice] in X4. destruct X4 as [X5 _].
    assert (j = 0). { destruct (Z.eq_dec j 0); [assumption|]. assert (2 <= 2 ^ j) by (change 2 with (2 ^ 1) at 1; apply Z.pow_le_mono_r; lia). nia. } subst j. change (2 ^ 0) with 1. rewrite Z.mul_1_r, Z.sub_0_r. reflexivity. }
  apply (make_input_gen P F (1 - bias E) (bias E)); try lia.
  - intros allow s m e Hm He. apply G; [apply NI; assumption|discriminate].
  - intros s e He. apply G; [apply NI; lia|discriminate].
  - apply G; [exact I|discriminate].
  - intros s. apply G; [exact I|discriminate].
  - rewrite HT, Hx. apply LM; lia.
  - rewrite HT, Hn. apply LM; lia.
  - rewrite Hi. destruct (decode_word754 E F (Inf false) ltac:(lia) ltac:(lia) I) as [W D]. split; [exact W|]. rewrite D. discriminate.
Qed.
Theorem single_self_test U u n : 32 <= U -> (n <= 228)%nat -> test_arithmetic single_policy (single_ops U) u n = Some false.
Proof.
  intros HU Hn. destruct (native_input 8 23 single_policy ltac:(lia) ltac:(lia) ltac:(vm_compute; discriminate) eq_refl single_writes eq_refl eq_refl eq_refl eq_refl) as [l [L1 [L2 L3]]].
  unfold test_arithmetic. rewrite L3, random_unused by (rewrite L2; exact Hn). cbn [bind]. rewrite Forall_forall in L1. apply (decides_pass _ _ _ _ _ _ _ _ single_decides).
  - exact L1.
  - intros a b Ha Hb. apply single_right; [exact HU|exact (proj1 (L1 a Ha))|exact (proj1 (L1 b Hb))].
Qed.
Theorem double_self_test u n : (n <= 344)%nat -> test_arithmetic double_policy double_ops u n = Some false.
Proof.
  intros Hn. destruct (native_input 11 52 double_policy ltac:(lia) ltac:(lia) ltac:(vm_compute; discriminate) eq_refl double_writes eq_refl eq_refl eq_refl eq_refl) as [l [L1 [L2 L3]]].
  unfold test_arithmetic. rewrite L3, random_unused by (rewrite L2; exact Hn). cbn [bind]. rewrite Forall_forall in L1. apply (decides_pass _ _ _ _ _ _ _ _ double_decides).
  - exact L1.
  - intros a b Ha Hb. apply double_right; [exact (proj1 (L1 a Ha))|exact (proj1 (L1 b Hb))].
Qed.

(** ** With NaN among the random inputs *)
Lemma self_test_nan P D V mul add div O l w n : decides P D V mul add div -> (forall a, In a l -> V a) -> V w -> (forall a b, In a (w :: l) -> In b (w :: l) -> returns V O a b /\ right_comparisons D O a b) ->
  length l = n -> (forall u n, make_input P u n = push_random P u n 0 n l) -> from_mpfr P true NaN = Some w -> D w = NaN ->
  test_arithmetic P O (fun _ => 0) (S n) = Some true.
Proof.
  intros HD HV Hw HR Hl HM HN Dw. unfold test_arithmetic. rewrite HM, <- Hl, (random_nan P l w HN). cbn [bind].
  assert (VV : forall x, In x (l ++ [w; w]) -> V x) by (intros x Hx; apply in_app_iff in Hx; destruct Hx as [Hx|[<-|[<-|[]]]]; [apply HV; exact Hx|exact Hw|exact Hw]).
  apply (decides_nan P D V mul add div O (l ++ [w; w]) w HD VV).
  - intros x y Hx Hy. apply HR; [revert Hx|revert Hy]; rewrite in_app_iff; cbn [In]; tauto.
  - apply in_app_iff. right. left. reflexivity.
  - exact Dw.
  - apply HR; left; reflexivity.
Qed.
Theorem flopoco_self_test_nan E F : 4 <= E <= 30 -> F <= 128 -> dual_ok_width E F -> test_arithmetic (flopoco_policy E F) (flopoco_ops E F) (fun _ => 0) (Z.to_nat (137 + 4 * F)) = Some true.
Proof.
  intros HE HF HW. assert (1 <= F) by (destruct HW; lia). destruct (flopoco_input E F HE ltac:(lia)) as [l [L1 [L2 L3]]]. rewrite Forall_forall in L1. destruct (sp_nan E F ltac:(split; lia)) as [w [W1 [W2 W3]]].
  replace (Z.to_nat (137 + 4 * F)) with (S (Z.to_nat (136 + 4 * F))) by lia.
  eapply (self_test_nan _ _ _ _ _ _ _ _ _ _ (flopoco_decides E F ltac:(split; lia))); try eassumption.
  - intros a Ha. exact (proj1 (L1 a Ha)).
  - intros a b Ha Hb. destruct (flopoco_right E F a b HW) as [X [Y _]]; [destruct Ha as [<-|Ha]; [exact W2|exact (proj1 (L1 a Ha))]|destruct Hb as [<-|Hb]; [exact W2|exact (proj1 (L1 b Hb))]| |split; assumption].
    intros s Da Db. destruct Ha as [<-|Ha]; [congruence|]. destruct Hb as [<-|Hb]; [congruence|].
    rewrite (proj2 (proj2 (L1 a Ha)) s Da). symmetry. exact (proj2 (proj2 (L1 b Hb)) s Db).
Qed.
Theorem ieee_self_test_nan E F : 4 <= E <= 30 -> F <= 128 -> dual_ok_width E F -> test_arithmetic (ieee_policy E F) (ieee_ops E F) (fun _ => 0) (Z.to_nat (137 + 4 * F)) = Some true.
Proof.
  intros HE HF HW. assert (1 <= F) by (destruct HW; lia). destruct (ieee_input E F HE ltac:(lia)) as [l [L1 [L2 L3]]]. rewrite Forall_forall in L1. destruct (ie_nan E F ltac:(split; lia)) as [w [W1 [W2 W3]]].
  replace (Z.to_nat (137 + 4 * F)) with (S (Z.to_nat (136 + 4 * F))) by lia.
  eapply (self_test_nan _ _ _ _ _ _ _ _ _ _ (ieee_decides E F ltac:(split; lia))); try eassumption.
  - intros a Ha. exact (proj1 (L1 a Ha)).
  - intros a b Ha Hb. destruct (ieee_right E F a b HW) as [X [Y _]]; [destruct Ha as [<-|Ha]; [exact W2|exact (proj1 (L1 a Ha))]|destruct Hb as [<-|Hb]; [exact W2|exact (proj1 (L1 b Hb))]|split; assumption].
Qed.
Theorem single_self_test_nan U : 32 <= U -> test_arithmetic single_policy (single_ops U) (fun _ => 0) 229 = Some true.
Proof.
  intros HU. destruct (native_input 8 23 single_policy ltac:(lia) ltac:(lia) ltac:(vm_compute; discriminate) eq_refl single_writes eq_refl eq_refl eq_refl eq_refl) as [l [L1 [L2 L3]]]. rewrite Forall_forall in L1. destruct (single_writes true NaN I) as [w [W1 [W2 W3]]].
  eapply (self_test_nan _ _ _ _ _ _ _ l w _ single_decides); try eassumption.
  - intros a Ha. exact (proj1 (L1 a Ha)).
  - intros a b Ha Hb. destruct (single_right U a b HU) as [X [Y _]]; [destruct Ha as [<-|Ha]; [exact W2|exact (proj1 (L1 a Ha))]|destruct Hb as [<-|Hb]; [exact W2|exact (proj1 (L1 b Hb))]|split; assumption].
  - destruct (decode754 8 23 w); (contradiction || reflexivity).
Qed.
Theorem double_self_test_nan : test_arithmetic double_policy double_ops (fun _ => 0) 345 = Some true.
Proof.
  destruct (native_input 11 52 double_policy ltac:(lia) ltac:(lia) ltac:(vm_compute; discriminate) eq_refl double_writes eq_refl eq_refl eq_refl eq_refl) as [l [L1 [L2 L3]]]. rewrite Forall_forall in L1. destruct (double_writes true NaN I) as [w [W1 [W2 W3]]].
  eapply (self_test_nan _ _ _ _ _ _ _ l w _ double_decides); try eassumption.
  - intros a Ha. exact (proj1 (L1 a Ha)).
  - intros a b Ha Hb. destruct (double_right a b) as [X [Y _]]; [destruct Ha as [<-|Ha]; [exact W2|exact (proj1 (L1 a Ha))]|destruct Hb as [<-|Hb]; [exact W2|exact (proj1 (L1 b Hb))]|split; assumption].
  - destruct (decode754 11 52 w); (contradiction || reflexivity).
Qed.
