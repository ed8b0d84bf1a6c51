(** The flopoco and IEEE policies: their references are the rounded results. *)
From Coq Require Import ZArith List Bool Lia.
From Verif Require Import Fw FwLemmas Spec SpecLemmas SpecPolicy MpfrLib MpfrRange Mpfr MpfrProofs MpfrProofs2 MpfrProofs3 Policy PolicyProofs ValueLemmas Flopoco FlopocoLemmas Ieee.
Import ListNotations.
Open Scope Z_scope.

Definition with_rnd (rnd : bool -> Z -> Z -> Z -> fval) (x : exact) : fval := match x with Special v => v | Ratio s n d k => rnd s n d k end.
Definition pos_ex (x : exact) : Prop := match x with Special v => match v with Num _ _ _ => False | _ => True end | Ratio _ n d _ => 0 < n /\ 0 < d end.
Lemma sgn_if (s : bool) m p : (if s then - m else m) * p = sgn s (m * p).
Proof. destruct s; cbn [sgn]; lia. Qed.
Lemma mul_gen_exact rnd x y : mul_gen rnd x y = with_rnd rnd (exact_mul x y).
Proof. destruct x, y; reflexivity. Qed.
Lemma div_gen_exact rnd x y : div_gen rnd x y = with_rnd rnd (exact_div x y).
Proof. destruct x, y; reflexivity. Qed.
Lemma add_gen_exact rnd x y : add_gen rnd x y = with_rnd rnd (exact_add x y).
Proof. destruct x as [|s|s|s m e], y as [|t|t|t n f]; try reflexivity. cbn [add_gen exact_add]. cbv zeta. rewrite !sgn_if. destruct (_ =? 0); reflexivity. Qed.
Lemma exact_mul_pos x y : pos_v x -> pos_v y -> pos_ex (exact_mul x y).
Proof. destruct x, y; cbn; intros; auto. split; [nia|lia]. Qed.
Lemma exact_div_pos x y : pos_v x -> pos_v y -> pos_ex (exact_div x y).
Proof. destruct x, y; cbn; intros; auto. Qed.
Lemma exact_add_pos x y : pos_v x -> pos_v y -> pos_ex (exact_add x y).
Proof.
  destruct x as [|s|s|s m e], y as [|t|t|t n f]; intros Hx Hy; try exact I; try (cbn; cbn in Hx, Hy; lia).
  - cbn. destruct (Bool.eqb s t); exact I.
  - cbn [exact_add]. cbv zeta. destruct (_ =? 0) eqn:Z0; [exact I|]. cbn [pos_ex]. apply Z.eqb_neq in Z0. lia.
Qed.

Lemma mp_round_t_n lo hi F s n d k : 0 <= F ->
  fst (mp_round_t lo hi (F + 1) s n d k) = let '(m, e) := round_pos F n d in
    if hi <? e + k + (F + 1) then Inf s else if e + k + (F + 1) <? lo then
      if den2 d (k - (lo - 2)) <? num2 n (k - (lo - 2)) then Num s (2 ^ F) (lo - (F + 1)) else Zero s
    else Num s m (e + k).
Proof.
  intros HF. unfold mp_round_t, round_pos. replace (F + 1 - 1) with F by lia.
  destruct (rne_div _ _ =? 2 ^ (F + 1)) eqn:C; cbv zeta; rewrite ?C; repeat (match goal with |- context [if ?b then _ else _] => destruct b end); reflexivity.
Qed.
Lemma fl_round_t E F s n d k : 1 <= E <= 31 -> 1 <= F <= 128 -> 0 < n -> 0 < d ->
  rounds_to E F (fl_of_mpfr E F (F + 1) true (fst (mp_round_t (emin E) (emax E + 1) (F + 1) s n d k))) (round_to E F s n d k).
Proof.
  intros HE HF Hn Hd. rewrite mp_round_t_n by lia. unfold round_to, round_range. pose proof (round_pos_range F n d ltac:(lia) Hn Hd) as R. destruct (round_pos F n d) as [m e]. cbn [fst] in R.
  destruct (fl_special E F s ltac:(lia) ltac:(lia)) as [_ [SI SZ]].
  assert (B : emin E < emax E) by (unfold emin, emax, bias; pose proof (pow2_pos (E - 1) ltac:(lia)); lia).
  destruct (emax E + 1 <? e + k + (F + 1)) eqn:A. { destruct SI as [r [S1 [S2 S3]]]. exists r. split; [exact S1|]. split; [exact S2|]. rewrite S3. unfold finish. replace (e + k + F <? emin E) with false by lia. replace (emax E <? e + k + F) with true by lia. reflexivity. }
  destruct (e + k + (F + 1) <? emin E) eqn:C.
  - assert (FZ : finish (emin E) (emax E) F s (m, e + k) = Zero s) by (unfold finish; replace (e + k + F <? emin E) with true by lia; reflexivity). rewrite FZ.
    destruct (_ <? num2 _ _); [|exact SZ]. pose proof (pow2_S F ltac:(lia)). pose proof (pow2_pos F ltac:(lia)). destruct (fl_num E F s (2 ^ F) (emin E - (F + 1)) HE HF ltac:(lia)) as [r [S1 [S2 S3]]]. exists r. split; [exact S1|]. split; [exact S2|]. rewrite S3. unfold finish. replace (_ <? emin E) with true by lia. reflexivity.
  - apply fl_num; lia.
Qed.
Lemma ie_round_t E F s n d k : 1 <= E <= 31 -> 1 <= F <= 128 -> 0 < n -> 0 < d ->
  rounds_ie E F (ie_of_mpfr E F (F + 1) true (fst (mp_round_t (emin E + 1) (emax E) (F + 1) s n d k))) (round_ieee E F s n d k).
Proof.
  intros HE HF Hn Hd. rewrite mp_round_t_n by lia. unfold round_ieee, round_range. pose proof (round_pos_range F n d ltac:(lia) Hn Hd) as R. destruct (round_pos F n d) as [m e]. cbn [fst] in R.
  destruct (ie_special E F s ltac:(lia) ltac:(lia)) as [_ [SI SZ]].
  assert (B : emin E < emax E) by (unfold emin, emax, bias; pose proof (pow2_pos (E - 1) ltac:(lia)); lia).
  destruct (emax E <? e + k + (F + 1)) eqn:A. { destruct SI as [r [S1 [S2 S3]]]. exists r. split; [exact S1|]. split; [exact S2|]. rewrite S3. unfold finish. replace (e + k + F <? emin E + 1) with false by lia. replace (emax E - 1 <? e + k + F) with true by lia. reflexivity. }
  destruct (e + k + (F + 1) <? emin E + 1) eqn:C.
  - assert (FZ : finish (emin E + 1) (emax E - 1) F s (m, e + k) = Zero s) by (unfold finish; replace (e + k + F <? emin E + 1) with true by lia; reflexivity). rewrite FZ.
    destruct (_ <? num2 _ _); [|exact SZ]. pose proof (pow2_S F ltac:(lia)). pose proof (pow2_pos F ltac:(lia)). destruct (ie_num E F s (2 ^ F) (emin E + 1 - (F + 1)) HE HF ltac:(lia)) as [r [S1 [S2 S3]]]. exists r. split; [exact S1|]. split; [exact S2|]. rewrite S3. unfold finish. replace (_ <? emin E + 1) with true by lia. reflexivity.
  - apply ie_num; lia.
Qed.

Lemma decode_in E F x s m e : 1 <= E -> 1 <= F -> decode E F x = Num s m e -> emin E <= e + F <= emax E.
Proof.
  intros HE HF H. unfold decode in H. cbv zeta in H. destruct (x / 2 ^ (E + F + 1) =? 0); [discriminate|]. destruct (x / 2 ^ (E + F + 1) =? 1); [|destruct (x / 2 ^ (E + F + 1) =? 2); discriminate].
  injection H as _ _ <-. pose proof (Z.mod_pos_bound (x / 2 ^ F) (2 ^ E) (pow2_pos E ltac:(lia))). unfold emin, emax, bias in *. replace (2 ^ E) with (2 * 2 ^ (E - 1)) in * by (rewrite <- Z.pow_succ_r by lia; f_equal; lia). lia.
Qed.
Lemma decode_ieee_in E F x s m e : 1 <= E -> 1 <= F -> decode_ieee E F x = Num s m e -> emin E < e + F < emax E.
Proof.
  intros HE HF H. unfold decode_ieee in H. cbv zeta in H. destruct ((x / 2 ^ F) mod 2 ^ E =? 0) eqn:A; [discriminate|]. destruct (_ =? 2 ^ E - 1) eqn:B in H; [destruct (x mod 2 ^ F =? 0); discriminate|].
  injection H as _ _ <-. pose proof (Z.mod_pos_bound (x / 2 ^ F) (2 ^ E) (pow2_pos E ltac:(lia))). unfold emin, emax, bias in *. replace (2 ^ E) with (2 * 2 ^ (E - 1)) in * by (rewrite <- Z.pow_succ_r by lia; f_equal; lia). lia.
Qed.
Lemma decode_ieee_pos E F x : 0 <= F -> pos_v (decode_ieee E F x).
Proof. intros HF. unfold decode_ieee. cbv zeta. destruct (_ =? 0); [exact I|]. destruct (_ =? 2 ^ E - 1); [destruct (_ =? 0); exact I|]. cbn. pose proof (pow2_pos F HF). pose proof (Z.mod_pos_bound x (2 ^ F) ltac:(lia)). lia. Qed.

Lemma fl_reads E F : ok_ef E F -> reads_ok (flopoco_policy E F) (decode E F) (wf (E + F + 3)).
Proof. intros [HE HF] w Hw. exists (decode E F w). split; [cbn; apply fl_get_ok; assumption|apply veq_refl]. Qed.
Lemma ie_reads E F : ok_ef E F -> reads_ok (ieee_policy E F) (decode_ieee E F) (wf (E + F + 1)).
Proof. intros H w Hw. exists (decode_ieee E F w). split; [cbn; apply ie_get_ok; assumption|apply veq_refl]. Qed.

Lemma fl_reference E F op gen : ok_ef E F -> (forall x y, pos_v x -> pos_v y -> pos_ex (op x y)) -> (forall x y, gen x y = with_rnd (round_to E F) (op x y)) ->
  reference_ok (flopoco_policy E F) (decode E F) (wf (E + F + 3)) (fl_ref (mpfr_op_t op) E F) gen.
Proof.
  intros H Hpos Hgen a b x y Ha Hb Hx Hy. destruct H as [HE HF]. cbn [to_mpfr from_mpfr flopoco_policy] in *. rewrite fl_get_ok in Hx, Hy by assumption. injection Hx as <-. injection Hy as <-.
  assert (L1 : - 2 ^ (E - 1) + 1 = emin E) by (unfold emin, bias; lia). assert (L2 : 2 ^ (E - 1) + 1 = emax E + 1) by (unfold emax, bias; lia).
  unfold fl_ref. rewrite L1, L2. replace ((1 <=? E) && (E <=? 31)) with true by (symmetry; apply andb_true_intro; split; lia). cbn [assert_ bind]. unfold mpfr_op_t.
  assert (IR : forall w, in_range (emin E) (emax E + 1) (F + 1) (decode E F w) = true).
  { intros w. destruct (decode E F w) as [|s|s|s m e] eqn:D; try reflexivity. pose proof (decode_in E F w s m e ltac:(lia) ltac:(lia) D). cbn [in_range]. apply andb_true_intro. split; lia. }
  rewrite !IR. cbn [andb assert_ bind]. pose proof (Hpos _ _ (ValueLemmas.decode_pos E F a ltac:(lia)) (ValueLemmas.decode_pos E F b ltac:(lia))) as PX. rewrite Hgen.
  assert (R : rounds_to E F (fl_of_mpfr E F (F + 1) true (fst (mp_finish (emin E) (emax E + 1) (F + 1) (op (decode E F a) (decode E F b))))) (with_rnd (round_to E F) (op (decode E F a) (decode E F b)))).
  { assert (OK : ok_ef E F) by (split; assumption). destruct (op _ _) as [v|s n d k]; cbn [mp_finish with_rnd pos_ex] in *; [|apply fl_round_t; lia]. destruct v; [apply sp_nan; exact OK|apply sp_inf; exact OK|apply sp_zero; exact OK|contradiction]. }
  destruct R as [w [R1 [R2 R3]]]. do 3 eexists. split; [reflexivity|]. split; [exact R1|]. split; [apply fl_get_ok; assumption|]. rewrite R3. apply veq_refl.
Qed.
Lemma ie_reference E F op gen : ok_ef E F -> (forall x y, pos_v x -> pos_v y -> pos_ex (op x y)) -> (forall x y, gen x y = with_rnd (round_ieee E F) (op x y)) ->
  reference_ok (ieee_policy E F) (decode_ieee E F) (wf (E + F + 1)) (ie_ref (mpfr_op_t op) E F) gen.
Proof.
  intros H Hpos Hgen a b x y Ha Hb Hx Hy. assert (OK := H). destruct H as [HE HF]. cbn [to_mpfr from_mpfr ieee_policy] in *. rewrite ie_get_ok in Hx, Hy by assumption. injection Hx as <-. injection Hy as <-.
  assert (L1 : - 2 ^ (E - 1) + 2 = emin E + 1) by (unfold emin, bias; lia). assert (L2 : 2 ^ (E - 1) = emax E) by (unfold emax, bias; lia).
  unfold ie_ref. rewrite L1, L2. replace ((1 <=? E) && (E <=? 31)) with true by (symmetry; apply andb_true_intro; split; lia). cbn [assert_ bind]. unfold mpfr_op_t.
  assert (IR : forall w, in_range (emin E + 1) (emax E) (F + 1) (decode_ieee E F w) = true).
  { intros w. destruct (decode_ieee E F w) as [|s|s|s m e] eqn:D; try reflexivity. pose proof (decode_ieee_in E F w s m e ltac:(lia) ltac:(lia) D). cbn [in_range]. apply andb_true_intro. split; lia. }
  rewrite !IR. cbn [andb assert_ bind]. pose proof (Hpos _ _ (decode_ieee_pos E F a ltac:(lia)) (decode_ieee_pos E F b ltac:(lia))) as PX. rewrite Hgen.
  assert (R : rounds_ie E F (ie_of_mpfr E F (F + 1) true (fst (mp_finish (emin E + 1) (emax E) (F + 1) (op (decode_ieee E F a) (decode_ieee E F b))))) (with_rnd (round_ieee E F) (op (decode_ieee E F a) (decode_ieee E F b)))).
  { destruct (op _ _) as [v|s n d k]; cbn [mp_finish with_rnd pos_ex] in *; [|apply ie_round_t; lia]. destruct v; [apply ie_nan; exact OK|apply ie_inf; exact OK|apply ie_zero; exact OK|contradiction]. }
  destruct R as [w [R1 [R2 R3]]]. do 3 eexists. split; [reflexivity|]. split; [exact R1|]. split; [apply ie_get_ok; assumption|]. rewrite R3. apply veq_refl.
Qed.
Theorem flopoco_test E F O l : ok_ef E F -> (forall a, In a l -> wf (E + F + 3) a) -> (forall a b, In a l -> In b l -> returns (wf (E + F + 3)) O a b) ->
  exists f, test_inputs (flopoco_policy E F) O l = Some f /\
    (f = false <-> forall a b, In a l -> In b l -> wanted (decode E F) O a b /\ right_arithmetic (decode E F) (mul_spec E F) (add_spec E F) (div_spec E F) O a b).
Proof.
  intros H. apply test_inputs_gen; [apply fl_reads; exact H|..]; (apply fl_reference; [exact H|..]); intros; first [apply exact_mul_pos|apply exact_add_pos|apply exact_div_pos|apply mul_gen_exact|apply add_gen_exact|apply div_gen_exact]; assumption.
Qed.
Theorem ieee_test E F O l : ok_ef E F -> (forall a, In a l -> wf (E + F + 1) a) -> (forall a b, In a l -> In b l -> returns (wf (E + F + 1)) O a b) ->
  exists f, test_inputs (ieee_policy E F) O l = Some f /\
    (f = false <-> forall a b, In a l -> In b l -> wanted (decode_ieee E F) O a b /\ right_arithmetic (decode_ieee E F) (mul_ieee E F) (add_ieee E F) (div_ieee E F) O a b).
Proof.
  intros H. apply test_inputs_gen; [apply ie_reads; exact H|..]; (apply ie_reference; [exact H|..]); intros; first [apply exact_mul_pos|apply exact_add_pos|apply exact_div_pos|apply mul_gen_exact|apply add_gen_exact|apply div_gen_exact]; assumption.
Qed.
