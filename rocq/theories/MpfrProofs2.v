(** Reading a number into MPFR and the reference functions of fp_flopoco. *)
From Coq Require Import ZArith Bool Lia.
From Verif Require Import Fw FwLemmas FwWord FwWordProofs FwWordProofs2 FwWordProofs3 Spec SpecLemmas SpecFma Flopoco FlopocoLemmas Ieee DivProofs3 SpecMpfr MpfrLib Mpfr MpfrProofs.
Open Scope Z_scope.

(** ** Exact results *)
Lemma mag_int' m : 0 < m -> mag m 1 = Z.log2 m.
Proof.
  intros Hm. apply mag_unique; [lia|lia|]. pose proof (Z.log2_spec m Hm) as [L1 L2]. pose proof (Z.log2_nonneg m). unfold num2, den2.
  replace (Z.max 0 (- Z.log2 m)) with 0 by lia. replace (Z.max 0 (- - Z.log2 m)) with (Z.log2 m) by lia. rewrite Z.pow_succ_r in L2 by lia. change (2 ^ 0) with 1. lia.
Qed.
Lemma mp_round_exact p mode s m k : 1 <= p -> 0 < m < 2 ^ p -> mp_emin <= k + Z.log2 m + 1 <= mp_emax ->
  mp_round p mode s m 1 k = Num s (m * 2 ^ (p - 1 - Z.log2 m)) (k - (p - 1 - Z.log2 m)).
Proof.
  intros Hp Hm Hk. pose proof (Z.log2_spec m ltac:(lia)) as [L1 L2]. pose proof (Z.log2_nonneg m) as L0. assert (L3 : Z.log2 m <= p - 1). { assert (Z.log2 m < p); [|lia]. apply Z.log2_lt_pow2; lia. }
  unfold mp_round. cbv zeta. rewrite mag_int' by lia. remember (Z.log2 m) as l. replace (- (l - (p - 1))) with (p - 1 - l) by lia. unfold num2, den2. rewrite Z.max_r by lia. replace (Z.max 0 (- (p - 1 - l))) with 0 by lia. change (1 * 2 ^ 0) with 1.
  remember (m * 2 ^ (p - 1 - l)) as a. assert (A : a < 2 ^ p). { subst a. replace (2 ^ p) with (2 ^ (l + 1) * 2 ^ (p - 1 - l)) by (rewrite <- pow2_add by lia; f_equal; lia). apply Z.mul_lt_mono_pos_r; [apply pow2_pos; lia|]. exact L2. }
  replace (match mode with RNDN => rne_div a 1 | _ => if mp_away mode s then (a + 1 - 1) / 1 else a / 1 end) with a by (destruct mode; [rewrite rne_div_1; reflexivity| | |]; destruct (mp_away _ s); rewrite Z.div_1_r; lia).
  replace (a =? 2 ^ p) with false by lia. replace (mp_emax <? _) with false by lia. replace (_ <? mp_emin) with false by lia. f_equal; lia.
Qed.
Lemma mp_round_same p mode s m k : 1 <= p -> 2 ^ (p - 1) <= m < 2 ^ p -> mp_emin <= k + p <= mp_emax -> mp_round p mode s m 1 k = Num s m k.
Proof.
  intros Hp Hm Hk. pose proof (pow2_pos (p - 1) ltac:(lia)). assert (L : Z.log2 m = p - 1) by (apply Z.log2_unique; [lia|]; replace (Z.succ (p - 1)) with p by lia; lia).
  rewrite mp_round_exact by lia. rewrite L. replace (p - 1 - (p - 1)) with 0 by lia. change (2 ^ 0) with 1. f_equal; lia.
Qed.
(** ** get *)
Lemma setbit_frac F f : 0 <= F -> 0 <= f < 2 ^ F -> Z.setbit f F = 2 ^ F + f.
Proof.
  intros HF Hf. assert (L : Z.land (2 ^ F) f = 0) by (apply Z.bits_inj'; intros i Hi; rewrite Z.land_spec, Z.bits_0, Z.pow2_bits_eqb by lia; destruct (F =? i) eqn:Q; [|reflexivity]; apply Z.eqb_eq in Q; subst i; rewrite (testbit_small F f F) by lia; reflexivity).
  rewrite Z.setbit_spec', Z.lor_comm. rewrite (Z.add_nocarry_lxor (2 ^ F) f L). symmetry. apply Z.lxor_lor. exact L.
Qed.
Lemma get_view E F p mode fl s ey f : 1 <= E <= 30 -> 1 <= F <= 128 -> okf E F fl ey f ->
  fl_get_mode E F p mode (pack E F fl s ey f) = Some
    (if fl =? 0 then Zero s else if fl =? 1 then
       (let v := mp_round p mode false (2 ^ F + f) 1 (ey - F - bias E) in if s then mpfr_mul_neg1 p RNDN v else v)
     else if fl =? 2 then Inf s else NaN).
Proof.
  intros HE HF O. assert (O' := O). destruct O' as (_ & _ & Hfl & He & Hf). unfold fl_get_mode. replace (_ && _) with true by lia. cbn [assert_ bind]. cbv zeta.
  rewrite get_flags_pack, get_sign_pack, get_exp_pack, get_frac_pack by assumption. rewrite to_bool_b2z. unfold feq. rewrite !to_bool_b2z.
  apply flags_cases in Hfl. destruct Hfl as [->|[->|[->| ->]]]; cbn [Z.eqb Pos.eqb]; try reflexivity.
  assert (2 ^ E <= 2 ^ 30) by (apply pow2_le; lia). unfold to_int. replace (ey <=? 2 ^ 31 - 1) with true by (change (2 ^ 31) with (2 * 2 ^ 30); lia). cbn [bind].
  rewrite to_mpz_ok by lia. rewrite setbit_frac by lia. unfold mpfr_set_z_2exp. replace (2 ^ F + f =? 0) with false by lia. replace (2 ^ F + f <? 0) with false by lia. rewrite Z.abs_eq by lia. reflexivity.
Qed.
Lemma fl_get_ok E F x : 1 <= E <= 30 -> 1 <= F <= 128 -> wf (E + F + 3) x -> fl_get E F (F + 1) x = Some (decode E F x).
Proof.
  intros HE HF Hx. destruct (pack_view E F x ltac:(lia) ltac:(lia) Hx) as [fl [s [ey [f [O ->]]]]]. assert (O' := O). destruct O' as (_ & _ & Hfl & He & Hf).
  unfold fl_get. rewrite Z.eqb_refl. cbn [assert_ bind]. rewrite get_view by assumption. rewrite decode_pack by assumption. f_equal. destruct (fl =? 0); [reflexivity|]. destruct (fl =? 1); [|reflexivity].
  pose proof (pow2_pos F ltac:(lia)) as PF. pose proof (pow2_S F ltac:(lia)) as P1. destruct (mp_ranges E HE) as [R1 R2]. unfold emin, emax in *.
  assert (R : mp_emin <= ey - F - bias E + (F + 1) <= mp_emax). { assert (2 ^ E = 2 * bias E + 2) by (unfold bias; replace E with (E - 1 + 1) at 1 by lia; rewrite pow2_S by lia; lia). unfold mp_emin, mp_emax. change (2 ^ 30) with (2 * 2 ^ 29). assert (1 < 2 ^ 29) by reflexivity. lia. }
  cbv zeta. rewrite mp_round_same; [|lia|replace (F + 1 - 1) with F by lia; lia|exact R]. replace (ey - F - bias E) with (ey - bias E - F) in * by lia. destruct s; [|reflexivity].
  unfold mpfr_mul_neg1, mpfr_mul. cbn [xorb]. rewrite Z.mul_1_r, Z.add_0_r. apply mp_round_same; [lia|replace (F + 1 - 1) with F by lia; lia|lia].
Qed.
(** ** The reference functions *)
Definition ok_ef (E F : Z) : Prop := 1 <= E <= 30 /\ 1 <= F <= 128.
Definition rounds_to (E F : Z) (o : option Z) (v : fval) : Prop := exists r, o = Some r /\ wf (E + F + 3) r /\ decode E F r = v.
Lemma decode_pos E F x s m e : 1 <= E -> 1 <= F -> wf (E + F + 3) x -> decode E F x = Num s m e -> 0 < m.
Proof.
  intros HE HF Hx. destruct (pack_view E F x HE HF Hx) as [fl [t [ey [f [O ->]]]]]. rewrite decode_pack by assumption. destruct O as (_ & _ & _ & _ & Hf). destruct (fl =? 0); [discriminate|]. destruct (fl =? 1); [|destruct (fl =? 2); discriminate]. intros H. injection H as <- <- <-. pose proof (pow2_pos F ltac:(lia)). lia.
Qed.
Lemma ref_z ER FR v k : ok_ef ER FR -> rounds_to ER FR (fl_of_mpfr ER FR (FR + 1) true (mp_round_z (FR + 1) RNDN v k)) (if v =? 0 then Zero false else round_to ER FR (v <? 0) (Z.abs v) 1 k).
Proof.
  intros [H1 H2]. unfold mp_round_z. destruct (v =? 0) eqn:Q; [apply (fl_special ER FR false); lia|]. apply fl_round; lia.
Qed.
Lemma sp_nan E F : ok_ef E F -> rounds_to E F (fl_of_mpfr E F (F + 1) true NaN) NaN.
Proof. intros [H1 H2]. apply (fl_special E F true); lia. Qed.
Lemma sp_inf E F s : ok_ef E F -> rounds_to E F (fl_of_mpfr E F (F + 1) true (Inf s)) (Inf s).
Proof. intros [H1 H2]. apply (fl_special E F s); lia. Qed.
Lemma sp_zero E F s : ok_ef E F -> rounds_to E F (fl_of_mpfr E F (F + 1) true (Zero s)) (Zero s).
Proof. intros [H1 H2]. apply (fl_special E F s); lia. Qed.
Lemma sp_round E F s n d k : ok_ef E F -> 0 < n -> 0 < d -> rounds_to E F (fl_of_mpfr E F (F + 1) true (mp_round (F + 1) RNDN s n d k)) (round_to E F s n d k).
Proof. intros [H1 H2]. apply fl_round; lia. Qed.
Lemma sp_add E F s m e t n f : ok_ef E F -> let k := Z.min e f in let v := sgn s (m * 2 ^ (e - k)) + sgn t (n * 2 ^ (f - k)) in
  rounds_to E F (fl_of_mpfr E F (F + 1) true (mp_add_num (F + 1) RNDN s m e t n f)) (if v =? 0 then Zero false else round_to E F (v <? 0) (Z.abs v) 1 k).
Proof.
  intros H k v. unfold mp_add_num. fold k. replace ((if s then - m else m) * 2 ^ (e - k) + (if t then - n else n) * 2 ^ (f - k)) with v by (unfold v, sgn; destruct s, t; ring). apply ref_z. exact H.
Qed.
Ltac sp := first [apply sp_nan; assumption|apply sp_inf; assumption|apply sp_zero; assumption].
Ltac getx := match goal with |- context [fl_get ?E ?F (?F + 1) ?x] => rewrite (fl_get_ok E F x) by (assumption || (match goal with H : ok_ef E F |- _ => destruct H; assumption end)); cbn [bind] end.
Lemma pos_of E F x s m e : ok_ef E F -> wf (E + F + 3) x -> decode E F x = Num s m e -> 0 < m.
Proof. intros [H1 H2]. apply decode_pos; lia. Qed.
Lemma ref_mul_ok ER FR EA FA EB FB a b : ok_ef ER FR -> ok_ef EA FA -> ok_ef EB FB -> wf (EA + FA + 3) a -> wf (EB + FB + 3) b ->
  rounds_to ER FR (ref_mul ER FR EA FA EB FB a b) (mul_spec ER FR (decode EA FA a) (decode EB FB b)).
Proof.
  intros R A B Ha Hb. unfold ref_mul. getx. getx. unfold mul_spec, mul_gen, mpfr_mul. pose proof (pos_of EA FA a) as PA. pose proof (pos_of EB FB b) as PB.
  destruct (decode EA FA a) as [|s|s|s m e]; destruct (decode EB FB b) as [|t|t|t n f]; try sp.
  specialize (PA s m e A Ha eq_refl). specialize (PB t n f B Hb eq_refl). apply sp_round; nia || assumption.
Qed.
Lemma ref_square_ok ER FR EA FA a : ok_ef ER FR -> ok_ef EA FA -> wf (EA + FA + 3) a ->
  rounds_to ER FR (ref_square ER FR EA FA a) (mul_spec ER FR (decode EA FA a) (decode EA FA a)).
Proof. intros R A Ha. pose proof (ref_mul_ok ER FR EA FA EA FA a a R A A Ha Ha) as H. unfold ref_mul in H. unfold ref_square, mpfr_sqr. destruct (fl_get EA FA (FA + 1) a); exact H. Qed.
Lemma ref_div_ok ER FR EA FA EB FB a b : ok_ef ER FR -> ok_ef EA FA -> ok_ef EB FB -> wf (EA + FA + 3) a -> wf (EB + FB + 3) b ->
  rounds_to ER FR (ref_div ER FR EA FA EB FB a b) (div_spec ER FR (decode EA FA a) (decode EB FB b)).
Proof.
  intros R A B Ha Hb. unfold ref_div. getx. getx. unfold div_spec, div_gen, mpfr_div. pose proof (pos_of EA FA a) as PA. pose proof (pos_of EB FB b) as PB.
  destruct (decode EA FA a) as [|s|s|s m e]; destruct (decode EB FB b) as [|t|t|t n f]; try sp.
  specialize (PA s m e A Ha eq_refl). specialize (PB t n f B Hb eq_refl). apply sp_round; lia || assumption.
Qed.
Lemma ref_inv_ok ER FR EA FA a : ok_ef ER FR -> ok_ef EA FA -> wf (EA + FA + 3) a ->
  rounds_to ER FR (ref_inv ER FR EA FA a) (div_spec ER FR (Num false 1 0) (decode EA FA a)).
Proof.
  intros R A Ha. unfold ref_inv. getx. unfold div_spec, div_gen, mpfr_div, mp_one. pose proof (pos_of EA FA a) as PA.
  destruct (decode EA FA a) as [|s|s|s m e]; try sp. specialize (PA s m e A Ha eq_refl). cbn [xorb].
  replace (round_to ER FR (if s then true else false) 1 m (0 - e)) with (round_to ER FR (if s then true else false) 2 m (-1 - e)); [apply sp_round; lia || assumption|].
  destruct R as [R1 R2]. unfold round_to. rewrite <- (round_range_ratio (emin ER) (emax ER) FR (if s then true else false) 1 m (0 - e) 1 0) by lia. f_equal; lia.
Qed.
Lemma ref_convert_ok ER FR EA FA a : ok_ef ER FR -> ok_ef EA FA -> wf (EA + FA + 3) a -> rounds_to ER FR (ref_convert ER FR EA FA a) (convert_spec ER FR (decode EA FA a)).
Proof.
  intros R A Ha. unfold ref_convert. getx. unfold convert_spec, convert_gen, mpfr_set. pose proof (pos_of EA FA a) as PA.
  destruct (decode EA FA a) as [|s|s|s m e]; try sp. specialize (PA s m e A Ha eq_refl). apply sp_round; lia || assumption.
Qed.
Lemma ref_neg_ok ER FR EA FA a : ok_ef ER FR -> ok_ef EA FA -> wf (EA + FA + 3) a -> rounds_to ER FR (ref_neg ER FR EA FA a) (convert_spec ER FR (neg_spec (decode EA FA a))).
Proof.
  intros R A Ha. unfold ref_neg. getx. unfold convert_spec, convert_gen, neg_spec, mpfr_neg. pose proof (pos_of EA FA a) as PA.
  destruct (decode EA FA a) as [|s|s|s m e]; try sp. specialize (PA s m e A Ha eq_refl). apply sp_round; lia || assumption.
Qed.
Lemma ref_ldexp_ok ER FR P EA FA a : ok_ef ER FR -> ok_ef EA FA -> wf (EA + FA + 3) a -> rounds_to ER FR (ref_ldexp_const ER FR P EA FA a) (convert_spec ER FR (ldexp_v (decode EA FA a) P)).
Proof.
  intros R A Ha. unfold ref_ldexp_const. getx. unfold convert_spec, convert_gen, ldexp_v, mpfr_mul_2si. pose proof (pos_of EA FA a) as PA.
  destruct (decode EA FA a) as [|s|s|s m e]; try sp. specialize (PA s m e A Ha eq_refl). apply sp_round; lia || assumption.
Qed.
Lemma mpfr_add_ok ER FR x y : ok_ef ER FR -> (forall s m e, x = Num s m e -> 0 < m) -> (forall s m e, y = Num s m e -> 0 < m) ->
  rounds_to ER FR (fl_of_mpfr ER FR (FR + 1) true (mpfr_add (FR + 1) RNDN x y)) (add_spec ER FR x y).
Proof.
  intros R PA PB. unfold add_spec, add_gen, mpfr_add.
  destruct x as [|s|s|s m e]; destruct y as [|t|t|t n f]; try sp.
  - destruct (Bool.eqb s t); sp.
  - destruct s, t; cbn [Bool.eqb andb]; sp.
  - apply sp_round; [assumption|exact (PB t n f eq_refl)|lia].
  - apply sp_round; [assumption|exact (PA s m e eq_refl)|lia].
  - apply sp_add. assumption.
Qed.
Lemma ref_fma_ok ER FR EA FA EB FB EC FC a b c : ok_ef ER FR -> ok_ef EA FA -> ok_ef EB FB -> ok_ef EC FC -> wf (EA + FA + 3) a -> wf (EB + FB + 3) b -> wf (EC + FC + 3) c ->
  rounds_to ER FR (ref_fma ER FR EA FA EB FB EC FC a b c) (fma_spec ER FR (decode EA FA a) (decode EB FB b) (decode EC FC c)).
Proof.
  intros R A B C Ha Hb Hc. unfold ref_fma. getx. getx. getx. pose proof (pos_of EA FA a) as PA. pose proof (pos_of EB FB b) as PB. pose proof (pos_of EC FC c) as PC.
  assert (PC' : forall s m e, decode EC FC c = Num s m e -> 0 < m) by (intros s m e; exact (PC s m e C Hc)).
  unfold fma_spec. assert (K : forall x y, (forall s m e, x <> Num s m e) \/ (forall s m e, y <> Num s m e) -> mpfr_mul (FR + 1) RNDN x y = prod_exact x y /\ forall s m e, prod_exact x y <> Num s m e).
  { intros x y H. unfold prod_exact, mul_gen, mpfr_mul. destruct x as [|s|s|s m e]; destruct y as [|t|t|t n f]; try (split; [reflexivity|intros; discriminate]). exfalso. destruct H as [H|H]; eapply H; reflexivity. }
  unfold mpfr_fma.
  assert (N : forall x y, mpfr_mul (FR + 1) RNDN x y = prod_exact x y -> (forall s m e, prod_exact x y <> Num s m e) -> rounds_to ER FR (fl_of_mpfr ER FR (FR + 1) true (mpfr_add (FR + 1) RNDN (mpfr_mul (FR + 1) RNDN x y) (decode EC FC c))) (add_gen (round_to ER FR) (prod_exact x y) (decode EC FC c))).
  { intros x y E1 E2. rewrite E1. apply mpfr_add_ok; [assumption| |exact PC']. intros s m e H. exfalso. exact (E2 s m e H). }
  destruct (decode EA FA a) as [|s|s|s m e]; destruct (decode EB FB b) as [|t|t|t n f]; try (apply N; apply K; (left; intros; discriminate) || (right; intros; discriminate)).
  specialize (PA s m e A Ha eq_refl). specialize (PB t n f B Hb eq_refl). unfold prod_exact, mul_gen, no_rounding, add_gen. destruct (decode EC FC c) as [|u|u|u l g]; try sp.
  - apply sp_round; [assumption|nia|lia].
  - apply sp_add. assumption.
Qed.
(** The value read back is the value constructed. *)
Definition mp_ok (F : Z) (v : fval) : Prop := match v with Num _ m _ => 2 ^ F <= m < 2 ^ (F + 1) | _ => True end.
Lemma mp_round_ok F s n d k : 0 <= F -> 0 < n -> 0 < d -> mp_ok F (mp_round (F + 1) RNDN s n d k).
Proof.
  intros HF Hn Hd. rewrite mp_round_n by lia. pose proof (round_pos_range F n d HF Hn Hd) as R. destruct (round_pos F n d) as [m e]. cbn [fst] in R. destruct (_ <? _); [exact I|]. destruct (_ <? mp_emin); [|exact R]. destruct (_ <? _); [|exact I]. cbn. rewrite pow2_S by lia. pose proof (pow2_pos F HF). lia.
Qed.
Lemma mpfr_add_mp_ok F x y : 0 <= F -> (forall s m e, x = Num s m e -> 0 < m) -> (forall s m e, y = Num s m e -> 0 < m) -> mp_ok F (mpfr_add (F + 1) RNDN x y).
Proof.
  intros HF PA PB. unfold mpfr_add. destruct x as [|s|s|s m e]; destruct y as [|t|t|t n f]; try exact I.
  - destruct (Bool.eqb s t); exact I.
  - destruct (Bool.eqb s t); exact I.
  - apply mp_round_ok; [lia|exact (PB t n f eq_refl)|lia].
  - apply mp_round_ok; [lia|exact (PA s m e eq_refl)|lia].
  - unfold mp_add_num, mp_round_z. cbv zeta. destruct (_ =? 0) eqn:Q; [exact I|]. apply mp_round_ok; lia.
Qed.
Lemma fl_inverse E F v r s m e : ok_ef E F -> mp_ok F v -> fl_of_mpfr E F (F + 1) true v = Some r -> decode E F r = Num s m e -> v = Num s m e.
Proof.
  intros O K H D. pose proof O as [O1 O2]. destruct v as [|t|t|t n f].
  - destruct (sp_nan E F O) as [q [Q1 [_ Q3]]]. rewrite Q1 in H. injection H as <-. congruence.
  - destruct (sp_inf E F t O) as [q [Q1 [_ Q3]]]. rewrite Q1 in H. injection H as <-. congruence.
  - destruct (sp_zero E F t O) as [q [Q1 [_ Q3]]]. rewrite Q1 in H. injection H as <-. congruence.
  - destruct (fl_num E F t n f ltac:(lia) ltac:(lia) K) as [q [Q1 [_ Q3]]]. rewrite Q1 in H. injection H as <-. rewrite D in Q3. unfold finish in Q3. destruct (_ <? _); [discriminate|]. destruct (_ <? _); [discriminate|]. congruence.
Qed.
Lemma ref_add_ok ER FR EA FA EB FB a b : ok_ef ER FR -> ok_ef EA FA -> ok_ef EB FB -> wf (EA + FA + 3) a -> wf (EB + FB + 3) b ->
  rounds_to ER FR (ref_add ER FR EA FA EB FB a b) (add_spec ER FR (decode EA FA a) (decode EB FB b)).
Proof.
  intros R A B Ha Hb. unfold ref_add. getx. getx. cbv zeta.
  destruct (mpfr_add_ok ER FR (decode EA FA a) (decode EB FB b) R (fun s m e H => pos_of EA FA a s m e A Ha H) (fun s m e H => pos_of EB FB b s m e B Hb H)) as [r [E1 [E2 E3]]].
  rewrite E1. cbn [bind]. getx. destruct (_ && _) eqn:Q; [|exists r; auto]. exfalso.
  apply andb_true_iff in Q as [Q1 Q2]. destruct (decode ER FR r) as [|s|s|s m e] eqn:D.
  1,2,3: destruct R as [R1 R2]; destruct (pack_view ER FR r ltac:(lia) ltac:(lia) E2) as [fl [t [ey [f [O ->]]]]]; rewrite decode_pack in D by assumption; unfold is_inf, is_nan, is_zero in Q1; rewrite get_flags_pack in Q1 by assumption; destruct O as (_ & _ & Hfl & _ & _); apply flags_cases in Hfl; destruct Hfl as [->|[->|[->| ->]]]; cbn in D; (discriminate || (cbn in Q1; discriminate)).
  rewrite (fl_inverse ER FR _ r s m e R (mpfr_add_mp_ok FR _ _ ltac:(destruct R; lia) (fun s m e H => pos_of EA FA a s m e A Ha H) (fun s m e H => pos_of EB FB b s m e B Hb H)) E1 D) in Q2. cbn [mpfr_differ] in Q2. rewrite Z.eqb_refl in Q2. discriminate.
Qed.
