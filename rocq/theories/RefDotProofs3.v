(** The self-tests beside the two-term dot product, and where its reference is wrong. *)
From Coq Require Import ZArith QArith List Bool FinFun Lia.
From Verif Require Import Fw FwLemmas FwWord Spec SpecLemmas SpecFw SpecDot SpecDbl SpecMpfr Flopoco FlopocoLemmas FlopocoProofs MpfrLib Mpfr MpfrProofs MpfrProofs2 Dbl DblProofs DblProofs2 DblProofs3 Dot DotProofs DotProofs2 DotProofs5 Source SpecSource SourceProofs RefDot SpecRefDot RefDotProofs RefDotProofs2.
Import ListNotations.
Open Scope Z_scope.

(** ** The source *)
Lemma next_pos draw E F we wfr r1 r2 u : 1 <= E <= 128 -> 1 <= F <= 128 -> enough E we -> enough F wfr -> draw 64 r1 = Some (u, r2) -> (0 < u)%Q -> (u <= inject_Z 64)%Q ->
  exists x, source_next draw E F positive_source (we ++ wfr ++ r1) = Some (x, r2) /\ wf (E + F + 3) x /\ pos_normal (decode E F x).
Proof.
  intros HE HF We Wf D U0 U1. unfold source_next. destruct (random_top E we (wfr ++ r1) ltac:(lia) We) as [-> Be]. cbn [bind]. destruct (random_top F wfr r1 ltac:(lia) Wf) as [-> Bf]. cbn [bind]. change (cdf_back positive_source) with 64. rewrite D. cbn [bind].
  assert (S : select_class u (class_cdf positive_source) = Some PosNormal).
  { change (class_cdf positive_source) with [(PosZero, 0); (NegZero, 0); (PosNormal, 64); (NegNormal, 64); (PosInf, 64); (NegInf, 64); (ClassNaN, 64)]. cbn [select_class]. destruct (Qle_bool u (inject_Z 0)) eqn:T. { apply Qle_z in T. exfalso. apply (Qlt_not_le _ _ U0). exact T. } destruct (Qle_bool u (inject_Z 64)) eqn:T'; [reflexivity|]. apply Qle_b_z in T'. exfalso. apply (Qlt_not_le _ _ T'). exact U1. }
  rewrite S. cbn [bind]. eexists. split; [reflexivity|].
  assert (O : okf E F 1 (top_bits E we) (top_bits F wfr)) by (unfold okf; repeat split; lia).
  assert (M : mk E F 1 0 (top_bits E we) (top_bits F wfr) = pack E F 1 false (top_bits E we) (top_bits F wfr)) by (change 0 with (Z.b2z false) at 1; apply mk_pack; lia).
  rewrite M. split; [apply pack_wf; exact O|]. rewrite decode_pack by exact O. eexists _, _. reflexivity.
Qed.
Lemma split_words W ws : 0 <= W -> words ws -> (Z.to_nat ((W + 31) / 32) <= length ws)%nat -> enough W (firstn (Z.to_nat ((W + 31) / 32)) ws).
Proof.
  intros HW Hw L. split. { rewrite firstn_length_le by exact L. apply Z2Nat.id. apply Z.div_pos; lia. } apply Forall_forall. intros x Hx. unfold words in Hw. rewrite Forall_forall in Hw. apply Hw. rewrite <- (firstn_skipn (Z.to_nat ((W + 31) / 32)) ws). apply in_or_app. left. exact Hx.
Qed.
Lemma words_skip n ws : words ws -> words (skipn n ws).
Proof. intros H. unfold words in *. rewrite Forall_forall in *. intros x Hx. apply H. rewrite <- (firstn_skipn n ws). apply in_or_app. right. exact Hx. Qed.
Lemma skipn_skipn {A} a b (l : list A) : skipn a (skipn b l) = skipn (b + a) l.
Proof. revert l. induction b as [|b IH]; intros l; [reflexivity|]. destruct l as [|x l]; [destruct a; reflexivity|]. cbn. apply IH. Qed.
Lemma next_words K draw E F ws : 1 <= E <= 128 -> 1 <= F <= 128 -> draws K draw -> words ws -> (words_per_value E F K <= length ws)%nat ->
  exists x, source_next draw E F positive_source ws = Some (x, skipn (words_per_value E F K) ws) /\ wf (E + F + 3) x /\ pos_normal (decode E F x).
Proof.
  intros HE HF D W L. unfold words_per_value in *. remember (Z.to_nat ((E + 31) / 32)) as ne eqn:Ee. remember (Z.to_nat ((F + 31) / 32)) as nf eqn:Ef.
  pose proof (split_words E ws ltac:(lia) W ltac:(lia)) as We. rewrite <- Ee in We. pose proof (split_words F (skipn ne ws) ltac:(lia) (words_skip _ _ W) ltac:(rewrite skipn_length; lia)) as Wf. rewrite <- Ef in Wf.
  destruct (D 64 (skipn nf (skipn ne ws)) ltac:(lia)) as (u & Hu & U0 & U1). { rewrite !skipn_length. lia. }
  destruct (next_pos draw E F _ _ _ _ u HE HF We Wf Hu U0 U1) as (x & S & R). rewrite firstn_skipn, firstn_skipn in S. exists x. split; [|exact R]. rewrite S. f_equal. f_equal. rewrite !skipn_skipn. f_equal. lia.
Qed.
Lemma args_words K draw E F n ws : 1 <= E <= 128 -> 1 <= F <= 128 -> draws K draw -> words ws -> (n * words_per_value E F K <= length ws)%nat ->
  exists xs, source_args draw E F positive_source n ws = Some (xs, skipn (n * words_per_value E F K) ws) /\ length xs = n /\ Forall (fun x => wf (E + F + 3) x /\ pos_normal (decode E F x)) xs.
Proof.
  intros HE HF D. revert ws. induction n as [|n IH]; intros ws W L; cbn [source_args Nat.mul].
  - exists []. repeat split. constructor.
  - cbn [Nat.mul] in L. destruct (next_words K draw E F ws HE HF D W ltac:(lia)) as (x & -> & Hx). cbn [bind snd fst]. destruct (IH (skipn (words_per_value E F K) ws) (words_skip _ _ W) ltac:(rewrite skipn_length; lia)) as (xs & -> & N & A). cbn [bind snd fst]. exists (x :: xs). split; [f_equal; f_equal; rewrite skipn_skipn; f_equal; lia|]. split; [cbn; lia|constructor; assumption].
Qed.
Lemma dots_agree E F a0 a1 b0 b1 : 1 <= E <= 29 -> 1 <= F <= 128 -> E <= 10 \/ 12 <= F -> wf (E + F + 3) a0 -> wf (E + F + 3) a1 -> wf (E + F + 3) b0 -> wf (E + F + 3) b1 ->
  pos_normal (decode E F a0) -> pos_normal (decode E F a1) -> pos_normal (decode E F b0) -> pos_normal (decode E F b1) ->
  exists r g, dot2_ref E F a0 a1 b0 b1 = Some r /\ dot2_pos_rndd E F a0 a1 b0 b1 = Some g /\ equals E F r g = 1.
Proof.
  intros HE HF HC W0 W1 V0 V1 P0 P1 Q0 Q1. destruct (ref_ok E F a0 a1 b0 b1 HE HF HC W0 W1 V0 V1 P0 P1 Q0 Q1) as (r & R & Wr & Dr). destruct (dot2_ok E F a0 a1 b0 b1) as (g & G & Wg & Dg); try assumption; try lia.
  exists r, g. repeat split; try assumption. destruct (equals_correct E F r g ltac:(lia) ltac:(lia) Wr Wg) as [[H _]|[_ H]]; [exact H|]. exfalso. apply H. rewrite Dr, Dg. reflexivity.
Qed.
Lemma test_passes K draw E F n ws : 1 <= E <= 29 -> 1 <= F <= 128 -> E <= 10 \/ 12 <= F -> draws K draw -> words ws -> (n * (4 * words_per_value E F K) <= length ws)%nat ->
  test_dot2 draw E F n ws = Some true.
Proof.
  intros HE HF HC D. revert ws. induction n as [|n IH]; intros ws W L; [reflexivity|]. cbn [test_dot2]. cbn [Nat.mul] in L. destruct (args_words K draw E F 4 ws ltac:(lia) HF D W ltac:(lia)) as (xs & -> & N & A). cbn [bind fst snd].
  destruct xs as [|a0 [|a1 [|b0 [|b1 [|? ?]]]]]; try discriminate. rewrite !Forall_cons_iff in A. destruct A as ([W0 P0] & [W1 P1] & [V0 Q0] & [V1 Q1] & _).
  destruct (dots_agree E F a0 a1 b0 b1) as (r & g & -> & -> & Q); try assumption. cbn [bind]. rewrite Q. cbn [to_bool Z.eqb negb]. change (negb (to_bool 1)) with false. cbn iota. apply IH; [apply words_skip; exact W|rewrite skipn_length; lia].
Qed.
(** A draw of zero. *)
Lemma test_zero draw E F n we wfr r1 r2 r3 a1 b0 b1 : 1 <= E <= 30 -> 1 <= F <= 128 -> enough E we -> enough F wfr -> draw 64 r1 = Some (0%Q, r2) ->
  source_args draw E F positive_source 3 r2 = Some ([a1; b0; b1], r3) -> test_dot2 draw E F (S n) (we ++ wfr ++ r1) = None.
Proof.
  intros HE HF We Wf D A. cbn [test_dot2]. change (source_args draw E F positive_source 4 (we ++ wfr ++ r1)) with (do r <- source_next draw E F positive_source (we ++ wfr ++ r1); do r' <- source_args draw E F positive_source 3 (snd r); Some (fst r :: fst r', snd r')).
  assert (S : exists x, source_next draw E F positive_source (we ++ wfr ++ r1) = Some (x, r2) /\ wf (E + F + 3) x /\ decode E F x = Zero false).
  { unfold source_next. destruct (random_top E we (wfr ++ r1) ltac:(lia) We) as [-> Be]. cbn [bind]. destruct (random_top F wfr r1 ltac:(lia) Wf) as [-> Bf]. cbn [bind]. change (cdf_back positive_source) with 64. rewrite D. cbn [bind]. change (select_class 0 (class_cdf positive_source)) with (Some PosZero). cbn [bind].
    eexists. split; [reflexivity|]. assert (O : okf E F 0 (top_bits E we) (top_bits F wfr)) by (unfold okf; repeat split; lia). assert (M : mk E F 0 0 (top_bits E we) (top_bits F wfr) = pack E F 0 false (top_bits E we) (top_bits F wfr)) by (change 0 with (Z.b2z false) at 2; apply mk_pack; lia). rewrite M. split; [apply pack_wf; exact O|]. rewrite decode_pack by exact O. reflexivity. }
  destruct S as (x & -> & Wx & Dx). cbn [bind snd fst]. rewrite A. cbn [bind snd fst]. assert (G : dot2_pos_rndd E F x a1 b0 b1 = None). { unfold dot2_pos_rndd. rewrite (check_bad E F x); [reflexivity|lia|lia|exact Wx|]. rewrite Dx. intros (? & ? & ?). discriminate. }
  rewrite G. destruct (dot2_ref E F x a1 b0 b1); reflexivity.
Qed.
(** ** The exhaustive test *)
Lemma nextup_word E F i : 1 <= E -> 1 <= F -> 0 <= i < 2 ^ (E + F) ->
  nextup E F (2 ^ (E + F + 1) + i) = if i + 1 <? 2 ^ (E + F) then 2 ^ (E + F + 1) + (i + 1) else lim_infinity E F.
Proof.
  intros HE HF Hi. pose proof (pow2_pos F ltac:(lia)) as PF. pose proof (pow2_pos E ltac:(lia)) as PE. pose proof (Z.div_mod i (2 ^ F) ltac:(lia)) as DM. pose proof (Z.mod_pos_bound i (2 ^ F) PF) as MB. remember (i / 2 ^ F) as e eqn:Ee. remember (i mod 2 ^ F) as f eqn:Ef. rewrite (pow2_add E F) in * by lia. assert (He : 0 <= e < 2 ^ E) by (clear - DM MB Hi PF; nia).
  assert (O : okf E F 1 e f) by (unfold okf; repeat split; lia). replace (2 ^ (E + F + 1) + i) with (pack E F 1 false e f) by (unfold pack; cbn [Z.b2z]; lia). unfold nextup. fields. rewrite !og_eq by lia. cbn [Z.eqb Pos.eqb andb negb].
  assert (LP : forall g h, 0 <= g < 2 ^ E -> 0 <= h < 2 ^ F -> lim E F 2 g h = 2 ^ (E + F + 1) + (g * 2 ^ F + h)). { intros g h Hg Hh. change 2 with (1 * 2 + Z.b2z false) at 1. rewrite lim_pack by lia. unfold pack. cbn [Z.b2z]. lia. }
  destruct (Z.eqb_spec f (2 ^ F - 1)) as [H|H].
  - destruct (Z.eqb_spec e (2 ^ E - 1)) as [H1|H1].
    + replace (i + 1 <? 2 ^ E * 2 ^ F) with false; [reflexivity|]. symmetry. apply Z.ltb_ge. clear - DM H H1 PE PF. subst e f. nia.
    + replace (i + 1 <? 2 ^ E * 2 ^ F) with true. 2:{ symmetry. apply Z.ltb_lt. clear - DM H H1 PE PF He. nia. } rewrite fadd_eq, Z.mod_small by lia. unfold zg. rewrite LP by lia. lia.
  - replace (i + 1 <? 2 ^ E * 2 ^ F) with true. 2:{ symmetry. apply Z.ltb_lt. clear - DM H MB PE PF He. nia. } rewrite fadd_eq, Z.mod_small by lia. rewrite LP by lia. lia.
Qed.
Lemma normal_word E F i : 1 <= E -> 1 <= F -> 0 <= i < 2 ^ (E + F) -> wf (E + F + 3) (2 ^ (E + F + 1) + i) /\ to_bool (is_normal E F (2 ^ (E + F + 1) + i)) = true /\ pos_normal (decode E F (2 ^ (E + F + 1) + i)).
Proof.
  intros HE HF Hi. pose proof (pow2_pos F ltac:(lia)) as PF. pose proof (pow2_pos E ltac:(lia)) as PE. pose proof (Z.div_mod i (2 ^ F) ltac:(lia)) as DM. pose proof (Z.mod_pos_bound i (2 ^ F) PF) as MB. remember (i / 2 ^ F) as e eqn:Ee. remember (i mod 2 ^ F) as f eqn:Ef. rewrite (pow2_add E F) in * by lia. assert (He : 0 <= e < 2 ^ E) by (clear - DM MB Hi PF; nia).
  assert (O : okf E F 1 e f) by (unfold okf; repeat split; lia). replace (2 ^ (E + F + 1) + i) with (pack E F 1 false e f) by (unfold pack; cbn [Z.b2z]; lia). split; [apply pack_wf; exact O|]. split; [fields; reflexivity|]. rewrite decode_pack by exact O. eexists _, _. reflexivity.
Qed.
Lemma walk_eq E F n i : 1 <= E -> 1 <= F -> 0 <= i -> Z.of_nat n = 2 ^ (E + F) - i -> (1 <= n)%nat -> walk (S n) E F (2 ^ (E + F + 1) + i) = map (fun j => 2 ^ (E + F + 1) + Z.of_nat j) (seq (Z.to_nat i) n).
Proof.
  intros HE HF. revert i. induction n as [|n IH]; intros i Hi Hn L; [lia|]. destruct (normal_word E F i HE HF ltac:(lia)) as (_ & N & _).
  change (walk (S (S n)) E F (2 ^ (E + F + 1) + i)) with (if to_bool (is_normal E F (2 ^ (E + F + 1) + i)) then (2 ^ (E + F + 1) + i) :: walk (S n) E F (nextup E F (2 ^ (E + F + 1) + i)) else []). rewrite N, nextup_word by lia. cbn [seq map]. rewrite Z2Nat.id by lia. f_equal.
  destruct n as [|n].
  - replace (i + 1 <? 2 ^ (E + F)) with false by lia. cbn [seq map walk]. replace (to_bool (is_normal E F (lim_infinity E F))) with false; [reflexivity|]. symmetry. unfold lim_infinity, zg. destruct (lim_wf_pack E F 2 false 0 0) as [O M]; try lia; try (split; [lia|apply pow2_pos; lia]). change (2 * 2 + Z.b2z false) with 4 in M. rewrite M. fields. reflexivity.
  - replace (i + 1 <? 2 ^ (E + F)) with true by lia. rewrite IH by lia. rewrite Z2Nat.inj_add by lia. rewrite Nat.add_1_r. reflexivity.
Qed.
Lemma min_word E F : 1 <= E -> 1 <= F -> lim_min E F = 2 ^ (E + F + 1) + 0.
Proof. intros HE HF. unfold lim_min, zg. pose proof (pow2_pos E ltac:(lia)). pose proof (pow2_pos F ltac:(lia)). change 2 with (1 * 2 + Z.b2z false) at 1. rewrite lim_pack by lia. unfold pack. cbn [Z.b2z]. lia. Qed.
Lemma positives_eq E F : 1 <= E -> 1 <= F -> positives E F = map (fun j => 2 ^ (E + F + 1) + Z.of_nat j) (seq 0 (Z.to_nat (2 ^ (E + F)))).
Proof. intros HE HF. pose proof (pow2_pos (E + F) ltac:(lia)). unfold positives. rewrite min_word by assumption. rewrite walk_eq by lia. reflexivity. Qed.
Lemma positives_all E F : 1 <= E -> 1 <= F -> NoDup (positives E F) /\ forall x, In x (positives E F) <-> wf (E + F + 3) x /\ pos_normal (decode E F x).
Proof.
  intros HE HF. pose proof (pow2_pos (E + F) ltac:(lia)) as P. rewrite positives_eq by assumption. split.
  - apply Injective_map_NoDup; [intros a b H; lia|apply seq_NoDup].
  - intros x. rewrite in_map_iff. split.
    + intros (j & <- & Hj). apply in_seq in Hj. destruct (normal_word E F (Z.of_nat j) HE HF ltac:(lia)) as (W & _ & N). split; assumption.
    + intros [W (m & e & D)]. destruct (pack_view E F x HE HF W) as (fl & s & ey & f & O & ->). rewrite decode_pack in D by exact O. destruct (fl =? 0); [discriminate|]. destruct (Z.eqb_spec fl 1) as [->|]; [|destruct (fl =? 2); discriminate]. injection D as -> _ _. pose proof (okf_body _ _ _ _ _ O) as B. exists (Z.to_nat (ey * 2 ^ F + f)). split; [unfold pack; cbn [Z.b2z]; lia|]. apply in_seq. lia.
Qed.
Lemma for_each_first {A X : Type} (body : A -> option (option X)) x l q : body x = Some (Some q) -> for_each body (x :: l) = Some (Some q).
Proof. intros H. cbn [for_each]. rewrite H. reflexivity. Qed.
Lemma exhaust_stops E F : 1 <= E <= 29 -> 1 <= F <= 128 -> E <= 10 \/ 12 <= F -> exhaust_dot2 E F = Some (Some (lim_min E F, lim_min E F, lim_min E F, lim_min E F)).
Proof.
  intros HE HF HC. unfold exhaust_dot2. cbv zeta. assert (L : exists l, positives E F = lim_min E F :: l). { rewrite positives_eq, min_word by lia. pose proof (pow2_pos (E + F) ltac:(lia)). destruct (Z.to_nat (2 ^ (E + F))) as [|n] eqn:T; [lia|]. eexists. reflexivity. }
  destruct L as [l ->]. destruct (normal_word E F 0 ltac:(lia) ltac:(lia)) as (W & _ & N). { split; [lia|apply pow2_pos; lia]. } rewrite <- min_word in W, N by lia.
  destruct (dots_agree E F (lim_min E F) (lim_min E F) (lim_min E F) (lim_min E F) HE HF HC W W W W N N N N) as (r & g & R & G & Q). do 4 apply for_each_first. rewrite R, G. cbn [bind]. rewrite Q. reflexivity.
Qed.
(** ** Formats wider than a double *)
Lemma ref_wide E F : 11 <= E <= 29 -> 1 <= F <= 11 -> exists a0 a1 b0 b1, wf (E + F + 3) a0 /\ wf (E + F + 3) a1 /\ wf (E + F + 3) b0 /\ wf (E + F + 3) b1 /\
  pos_normal (decode E F a0) /\ pos_normal (decode E F a1) /\ pos_normal (decode E F b0) /\ pos_normal (decode E F b1) /\
  rounds_to E F (dot2_ref E F a0 a1 b0 b1) (Inf false) /\ exists m e, dot2_spec E F (decode E F a0) (decode E F a1) (decode E F b0) (decode E F b1) = Num false m e.
Proof.
  intros HE HF. pose proof (pow2_pos F ltac:(lia)) as PF. assert (PB : 2 ^ 10 <= 2 ^ (E - 1)) by (apply Z.pow_le_mono_r; lia). assert (PE : 2 ^ E = 2 * 2 ^ (E - 1)) by (rewrite <- Z.pow_succ_r by lia; f_equal; lia).
  assert (O : forall e, 0 <= e < 2 ^ E -> okf E F 1 e 0) by (intros; unfold okf; repeat split; lia).
  pose proof (O (2 ^ E - 1) ltac:(lia)) as Oa. pose proof (O (2 ^ (E - 1) - 1) ltac:(lia)) as Oo. pose proof (O (2 ^ (E - 1) - 2) ltac:(lia)) as Oh.
  exists (pack E F 1 false (2 ^ E - 1) 0), (pack E F 1 false (2 ^ (E - 1) - 1) 0), (pack E F 1 false (2 ^ (E - 1) - 2) 0), (pack E F 1 false (2 ^ (E - 1) - 1) 0).
  do 4 (split; [apply pack_wf; assumption|]). pose proof (pack_wf _ _ _ false _ _ Oa) as Wa. pose proof (pack_wf _ _ _ false _ _ Oo) as Wo. pose proof (pack_wf _ _ _ false _ _ Oh) as Wh.
  unfold dot2_ref, dot2_ref_small. replace ((F + 1) * 4 <? 52) with true by lia. replace (52 <? (F + 1) * 4) with false by lia. cbn [negb assert_ bind]. rewrite !to_double_approx_ok by (assumption || lia). cbn [bind]. cbv zeta. rewrite !decode_pack by assumption. cbn [Z.eqb Pos.eqb]. rewrite !Z.add_0_r. unfold bias.
  do 4 (split; [eexists _, _; reflexivity|]). assert (LF : Z.log2 (2 ^ F) = F) by (apply Z.log2_pow2; lia). assert (F53 : 0 < 2 ^ F < 2 ^ 53) by (split; [exact PF|apply Z.pow_lt_mono_r; lia]).
  split.
  - unfold to_dbl. rewrite (dbl_over false (2 ^ F) (2 ^ E - 1 - _ - F)) by lia.
    destruct (dbl_num (2 ^ F) (2 ^ (E - 1) - 2 - (2 ^ (E - 1) - 1) - F)) as (i & I & ->); [lia..|]. destruct (dbl_num (2 ^ F) (2 ^ (E - 1) - 1 - (2 ^ (E - 1) - 1) - F)) as (j & J & ->); [lia..|].
    rewrite dbl_prod by lia. cbn [dbl_mul xorb]. destruct (dbl_round_sign false (2 ^ F * 2 ^ F) (2 ^ (E - 1) - 1 - (2 ^ (E - 1) - 1) - F + (2 ^ (E - 1) - 1 - (2 ^ (E - 1) - 1) - F))) as [(? & ? & ->)|[->| ->]]; apply sp_inf; split; lia.
  - unfold dot2_spec. cbn [dmul]. rewrite <- pow2_add by lia.
    assert (G : forall a b V, 0 < a -> V = 2 ^ (F + F) * 2 ^ a + 2 ^ (F + F) -> b + F + F + a <= emax E -> emin E <= b -> exists m e, rndd E F (V, b) = Num false m e).
    { intros a b V Ha -> Hx Hn. pose proof (pow2_pos a ltac:(lia)) as Pa. pose proof (pow2_pos (F + F) ltac:(lia)) as PFF. assert (L : Z.log2 (2 ^ (F + F) * 2 ^ a + 2 ^ (F + F)) = F + F + a). { apply Z.log2_unique; [lia|]. rewrite Z.pow_succ_r by lia. rewrite pow2_add by lia. assert (1 < 2 ^ a) by (apply Z.pow_gt_1; lia). nia. }
      rewrite rndd_at by lia. rewrite L. unfold finish. replace (F + F + a - F + b + F) with (b + F + F + a) by lia. replace (_ <? emin E) with false by lia. replace (emax E <? _) with false by lia. eexists _, _. reflexivity. }
    unfold emax, bias, emin in G. pose proof (pow2_pos (F + F) ltac:(lia)) as PFF. erewrite (rndd_dadd E F _ _ _ _ (- F - F)); [|lia|exact PFF|exact PFF|lia|lia|reflexivity].
    apply (G (2 ^ (E - 1) - 1)); unfold bias; [lia| |lia|lia]. f_equal; [f_equal; f_equal; lia|]. rewrite <- (Z.mul_1_r (2 ^ (F + F))) at 2. f_equal. change 1 with (2 ^ 0). f_equal. lia.
Qed.
Lemma exhaust_wrong E F : 1 <= E <= 29 -> 1 <= F <= 128 -> E <= 10 \/ 12 <= F ->
  exhaust_dot2 E F = Some (Some (lim_min E F, lim_min E F, lim_min E F, lim_min E F)) /\
  exists r g, dot2_ref E F (lim_min E F) (lim_min E F) (lim_min E F) (lim_min E F) = Some r /\ dot2_pos_rndd E F (lim_min E F) (lim_min E F) (lim_min E F) (lim_min E F) = Some g /\ decode E F r = decode E F g.
Proof.
  intros HE HF HC. split; [apply exhaust_stops; assumption|]. destruct (normal_word E F 0 ltac:(lia) ltac:(lia)) as (W & _ & N). { split; [lia|apply pow2_pos; lia]. } rewrite <- min_word in W, N by lia.
  destruct (ref_ok E F (lim_min E F) (lim_min E F) (lim_min E F) (lim_min E F) HE HF HC W W W W N N N N) as (r & R & _ & Dr). destruct (dot2_ok E F (lim_min E F) (lim_min E F) (lim_min E F) (lim_min E F)) as (g & G & _ & Dg); try assumption; try lia.
  exists r, g. repeat split; try assumption. rewrite Dr, Dg. reflexivity.
Qed.
