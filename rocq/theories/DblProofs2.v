(** to_double, to_double_approx, the constructor from double: the statements. *)
From Coq Require Import ZArith Bool Lia.
From Verif Require Import Fw FwLemmas FwWord FwWordProofs FwWordProofs2 Spec SpecLemmas ValueLemmas SpecDbl Flopoco FlopocoLemmas AddLemmas MpfrLib Mpfr MpfrProofs MpfrProofs2 Dbl DblProofs.
Open Scope Z_scope.

Lemma bias_small E : 1 <= E -> 2 ^ E = 2 * bias E + 2.
Proof. intros. unfold bias. replace E with (E - 1 + 1) at 1 by lia. rewrite pow2_S by lia. lia. Qed.
Lemma to_double_right E F x : 1 <= E <= 11 -> 1 <= F <= 52 -> wf (E + F + 3) x ->
  (forall s m e, decode E F x = Num s m e -> s = false /\ -1022 <= e + F <= 1023) ->
  exists v, to_double E F x = Some v /\ dbl v /\ veq v (decode E F x).
Proof.
  intros HE HF Hx R. destruct (pack_view E F x ltac:(lia) ltac:(lia) Hx) as [fl [s [ey [f [O ->]]]]]. rewrite decode_pack in * by assumption.
  destruct (fl =? 0) eqn:Q0. { eexists. rewrite to_double_view by assumption. rewrite Q0. split; [reflexivity|]. split; [exact I|reflexivity]. }
  destruct (fl =? 1) eqn:Q1. 2: { eexists. rewrite to_double_view by assumption. rewrite Q0, Q1. split; [reflexivity|]. destruct (fl =? 2); split; try exact I; reflexivity. }
  apply Z.eqb_eq in Q1. subst fl. destruct (R s _ _ eq_refl) as [-> R2]. destruct (to_double_normal_pos E F ey f HE HF O ltac:(lia)) as [v [A [B C]]]. exists v. auto.
Qed.
Lemma dbl_round_sign s m e : (exists m' e', dbl_round s m e = Num s m' e') \/ dbl_round s m e = Inf s \/ dbl_round s m e = Zero s.
Proof. unfold dbl_round. cbv zeta. destruct (_ =? 0); [right; right; reflexivity|]. destruct (971 <? _); [right; left; reflexivity|]. left. do 2 eexists. reflexivity. Qed.
Lemma ldexp_pos_sign x k : (exists m e, x = Num false m e) \/ x = Inf false \/ x = Zero false -> (exists m e, dbl_ldexp x k = Num false m e) \/ dbl_ldexp x k = Inf false \/ dbl_ldexp x k = Zero false.
Proof. intros [[m [e ->]]|[->| ->]]; [apply dbl_round_sign|right; left; reflexivity|right; right; reflexivity]. Qed.
Lemma to_double_negative E F x m e : 1 <= E <= 11 -> 1 <= F <= 52 -> wf (E + F + 3) x -> decode E F x = Num true m e ->
  exists v, to_double E F x = Some v /\ ((exists m' e', v = Num false m' e') \/ v = Inf false \/ v = Zero false) /\ ~ veq v (decode E F x).
Proof.
  intros HE HF Hx D. destruct (pack_view E F x ltac:(lia) ltac:(lia) Hx) as [fl [s [ey [f [O ->]]]]]. rewrite decode_pack in * by assumption. rewrite to_double_view by assumption. eexists. split; [reflexivity|].
  destruct (fl =? 0); [discriminate|]. destruct (fl =? 1); [|destruct (fl =? 2); discriminate]. assert (s = true) as -> by congruence.
  match goal with |- ?P /\ _ => assert (S : P) end. { apply ldexp_pos_sign. unfold dbl_of_u64. destruct (_ =? 0); [right; right; reflexivity|apply dbl_round_sign]. }
  split; [exact S|]. destruct S as [[m' [e' ->]]|[->| ->]]; cbn [veq]; [intros [G _]; discriminate|tauto|tauto].
Qed.
(** Eleven exponent bits reach further than a double at both ends. *)
Lemma to_double_top F f : 1 <= F <= 52 -> 0 <= f < 2 ^ F -> to_double 11 F (pack 11 F 1 false 2047 f) = Some (Inf false).
Proof.
  intros HF Hf. assert (O : okf 11 F 1 2047 f) by (split; [lia|]; split; [lia|]; split; [lia|]; split; [split; [lia|reflexivity]|lia]). rewrite to_double_view by (assumption || lia). cbn [Z.eqb Pos.eqb].
  pose proof (pow2_pos F ltac:(lia)) as PF. assert (P53 : 2 ^ F <= 2 ^ 52) by (apply pow2_le; lia). destruct (ldexp_u64 (2 ^ F + f) ltac:(change (2 ^ 53) with (2 * 2 ^ 52); lia)) as [j [J [-> [U L]]]]. cbn [dbl_ldexp]. rewrite (Z.log2_mul_pow2 _ j) in L by lia. rewrite log2_norm in L by lia.
  pose proof (pow2_pos j J) as PJ. unfold dbl_round. cbv zeta. rewrite Z.log2_mul_pow2 by lia. rewrite log2_norm by lia. change (bias 11) with 1023.
  replace (- j + (2047 - 1023 - F) - Z.max (j + F + (- j + (2047 - 1023 - F)) - 52) (-1074)) with 0 by lia. replace (Z.max (j + F + (- j + (2047 - 1023 - F)) - 52) (-1074)) with 972 by lia. unfold num2, den2. change (2 ^ Z.max 0 0) with 1. change (2 ^ Z.max 0 (- 0)) with 1. rewrite Z.mul_1_r, Z.mul_1_l. rewrite rne_div_1.
  replace ((2 ^ F + f) * 2 ^ j =? 2 ^ 53) with false by lia. cbv beta iota. replace ((2 ^ F + f) * 2 ^ j =? 0) with false by (symmetry; apply Z.eqb_neq; nia). reflexivity.
Qed.
(** ** to_double_approx *)
Lemma to_double_approx_ok E F x : 1 <= E <= 30 -> 1 <= F <= 128 -> wf (E + F + 3) x -> to_double_approx E F x = Some (to_dbl (decode E F x)).
Proof. intros HE HF Hx. unfold to_double_approx. rewrite fl_get_ok by assumption. reflexivity. Qed.
Lemma to_double_approx_exact E F x : 1 <= E <= 10 -> 1 <= F <= 52 -> wf (E + F + 3) x -> exists v, to_double_approx E F x = Some v /\ dbl v /\ veq v (decode E F x).
Proof.
  intros HE HF Hx. rewrite to_double_approx_ok by (assumption || lia). eexists. split; [reflexivity|]. destruct (pack_view E F x ltac:(lia) ltac:(lia) Hx) as [fl [s [ey [f [O ->]]]]]. rewrite decode_pack by assumption.
  destruct (fl =? 0); [split; [exact I|reflexivity]|]. destruct (fl =? 1); [|destruct (fl =? 2); split; try exact I; reflexivity]. destruct O as (_ & _ & _ & He & Hf). pose proof (pow2_pos F ltac:(lia)) as PF. assert (P53 : 2 ^ F <= 2 ^ 52) by (apply pow2_le; lia). cbn [to_dbl].
  assert (2 ^ E <= 2 ^ 10) by (apply pow2_le; lia). pose proof (bias_small E ltac:(lia)) as B. change (2 ^ 10) with 1024 in *. assert (LF := log2_norm F f ltac:(lia) Hf).
  split; [apply dbl_round_dbl; lia|]. apply dbl_exact_veq; [change (2 ^ 53) with (2 * 2 ^ 52); lia|lia|lia].
Qed.
(** ** The constructor from double *)
Lemma u64_int v : 0 <= v < 2 ^ 31 -> u64_to_int v = v.
Proof. intros H. unfold u64_to_int. cbv zeta. rewrite Z.mod_small by (change (2 ^ 32) with (2 * 2 ^ 31); lia). replace (v <? 2 ^ 31) with true by lia. reflexivity. Qed.
Lemma of_double_fx F m : 1 <= F <= 52 -> 2 ^ 52 <= m < 2 ^ 53 -> let fx := num2 (m - 2 ^ 52) (F - 52) / den2 1 (F - 52) in fx = m / 2 ^ (52 - F) - 2 ^ F /\ 0 <= fx < 2 ^ F.
Proof.
  intros HF Hm fx. assert (FX : fx = m / 2 ^ (52 - F) - 2 ^ F).
  { unfold fx, num2, den2. replace (Z.max 0 (F - 52)) with 0 by lia. replace (Z.max 0 (- (F - 52))) with (52 - F) by lia. change (2 ^ 0) with 1. rewrite Z.mul_1_r, Z.mul_1_l. replace (2 ^ 52) with (2 ^ F * 2 ^ (52 - F)) by (rewrite <- pow2_add by lia; f_equal; lia).
    replace (m - 2 ^ F * 2 ^ (52 - F)) with (m + (- 2 ^ F) * 2 ^ (52 - F)) by ring. rewrite Z.div_add by (pose proof (pow2_pos (52 - F) ltac:(lia)); lia). lia. }
  split; [exact FX|]. rewrite FX. pose proof (pow2_pos (52 - F) ltac:(lia)) as P. assert (P52 : 2 ^ 52 = 2 ^ F * 2 ^ (52 - F)) by (rewrite <- pow2_add by lia; f_equal; lia). change (2 ^ 53) with (2 * 2 ^ 52) in Hm.
  assert (2 ^ F <= m / 2 ^ (52 - F)) by (apply Z.div_le_lower_bound; lia). assert (m / 2 ^ (52 - F) < 2 * 2 ^ F) by (apply Z.div_lt_upper_bound; lia). lia.
Qed.
Lemma of_double_normal E F s m e : 1 <= E <= 31 -> 1 <= F <= 31 -> 2 ^ 52 <= m < 2 ^ 53 ->
  exists r, fl_of_double E F (Num s m e) = Some r /\ wf (E + F + 3) r /\ decode E F r = finish (emin E) (emax E) F s (m / 2 ^ (52 - F), e + 52 - F).
Proof.
  intros HE HF Hm. unfold fl_of_double. replace ((1 <=? E) && (E <=? 31)) with true by lia. cbn [assert_ bind]. cbv zeta. cbn [dbl_neg]. replace (if s then dbl_opp (Num s m e) else Num s m e) with (Num false m e) by (destruct s; reflexivity). cbv beta iota.
  replace (m <? 2 ^ 52) with false by lia. replace (e + 53 - 1) with (e + 52) by lia. destruct (of_double_fx F m ltac:(lia) Hm) as [FX FR]. cbv zeta in *. remember (num2 (m - 2 ^ 52) (F - 52) / den2 1 (F - 52)) as fx.
  unfold finish, emin, emax, bias. replace (e + 52 - F + F) with (e + 52) by lia. remember (2 ^ (E - 1) - 1) as b. pose proof (pow2_pos (E - 1) ltac:(lia)) as PE. pose proof (pow2_S (E - 1) ltac:(lia)) as PE1. replace (E - 1 + 1) with E in PE1 by lia. pose proof (pow2_pos F ltac:(lia)) as PF.
  replace (0 - b) with (- b) by lia. replace (0 + b + 1) with (b + 1) by lia.
  destruct (e + 52 <? - b) eqn:L. { eexists. split; [reflexivity|]. rewrite mk_pack by lia. split; [apply pack_wf; repeat split; lia|]. rewrite decode_pack by (repeat split; lia). reflexivity. }
  destruct (b + 1 <? e + 52) eqn:H. { eexists. split; [reflexivity|]. rewrite mk_pack by lia. split; [apply pack_wf; repeat split; lia|]. rewrite decode_pack by (repeat split; lia). reflexivity. }
  assert (F31 : 2 ^ F <= 2 ^ 31) by (apply pow2_le; lia). assert (2 ^ 31 < 2 ^ 64) by reflexivity. assert (E31 : 2 ^ E <= 2 ^ 31) by (apply pow2_le; lia).
  replace (fx <? 2 ^ 64) with true by lia. cbn [assert_ bind]. rewrite u64_int by lia. rewrite !m_of_int_ok by lia. cbn [bind]. eexists. split; [reflexivity|]. rewrite mk_pack by lia. split; [apply pack_wf; repeat split; lia|]. rewrite decode_pack by (repeat split; lia). cbn [Z.eqb Pos.eqb]. unfold bias. rewrite <- Heqb. f_equal; lia.
Qed.
Lemma of_double_special E F x : 1 <= E <= 31 -> 1 <= F ->
  match x with Num _ m _ => 0 < m < 2 ^ 52 | _ => True end ->
  exists r, fl_of_double E F x = Some r /\ wf (E + F + 3) r /\
    decode E F r = match x with NaN => NaN | Inf s => NaN | Zero s => Zero false | Num s _ _ => Zero s end.
Proof.
  intros HE HF Hx. pose proof (pow2_pos F ltac:(lia)). pose proof (pow2_pos E ltac:(lia)). unfold fl_of_double. replace ((1 <=? E) && (E <=? 31)) with true by lia. cbn [assert_ bind]. cbv zeta.
  assert (G : forall fl (s : bool) v, 0 <= fl < 4 -> v = (if fl =? 0 then Zero s else if fl =? 1 then Num s (2 ^ F + 0) (0 - bias E - F) else if fl =? 2 then Inf s else NaN) -> exists r, Some (mk E F fl (Z.b2z s) 0 0) = Some r /\ wf (E + F + 3) r /\ decode E F r = v).
  { intros fl s v Hf ->. eexists. split; [reflexivity|]. rewrite mk_pack by lia. split; [apply pack_wf; repeat split; lia|]. apply decode_pack. repeat split; lia. }
  destruct x as [|s|s|s m e]; cbn [dbl_neg].
  - apply (G 3 false); [lia|reflexivity].
  - destruct s; [apply (G 3 true)|apply (G 3 false)]; try lia; reflexivity.
  - apply (G 0 false); [lia|reflexivity].
  - replace (if s then dbl_opp (Num s m e) else Num s m e) with (Num false m e) by (destruct s; reflexivity). cbv beta iota. replace (m <? 2 ^ 52) with true by lia. apply (G 0 s); [lia|reflexivity].
Qed.
(** From 32 fraction bits on, 1.5 does not survive: an exception, undefined behaviour, or 1.0. *)
Lemma of_double_bad E F : 2 <= E <= 31 -> 32 <= F <= 128 -> fl_of_double E F (Num false (3 * 2 ^ 51) (-52)) = None \/
  exists r, fl_of_double E F (Num false (3 * 2 ^ 51) (-52)) = Some r /\ decode E F r = Num false (2 ^ F) (- F).
Proof.
  intros HE HF. unfold fl_of_double. replace ((1 <=? E) && (E <=? 31)) with true by lia. cbn [assert_ bind]. cbv zeta. cbn [dbl_neg]. cbv beta iota. replace (3 * 2 ^ 51 <? 2 ^ 52) with false by reflexivity. change (-52 + 53 - 1) with 0.
  assert (B1 : 2 <= 2 ^ (E - 1)) by (change 2 with (2 ^ 1) at 1; apply pow2_le; lia). assert (B2 : 2 ^ (E - 1) <= 2 ^ 30) by (apply pow2_le; lia). pose proof (pow2_S (E - 1) ltac:(lia)) as PE1. replace (E - 1 + 1) with E in PE1 by lia. remember (2 ^ (E - 1)) as b.
  replace (0 <? 0 - (b - 1)) with false by lia. replace (0 + (b - 1) + 1 <? 0) with false by lia.
  assert (FX : num2 (3 * 2 ^ 51 - 2 ^ 52) (F - 52) / den2 1 (F - 52) = 2 ^ (F - 1)).
  { change (3 * 2 ^ 51 - 2 ^ 52) with (2 ^ 51). unfold num2, den2. rewrite Z.mul_1_l. rewrite <- pow2_add by lia. rewrite <- Z.pow_sub_r by lia. f_equal. lia. }
  rewrite FX. destruct (2 ^ (F - 1) <? 2 ^ 64) eqn:U; [|left; reflexivity]. cbn [assert_ bind]. destruct (Z.eq_dec F 32) as [->|N]. { left. reflexivity. }
  right. unfold u64_to_int. cbv zeta. replace (2 ^ (F - 1) mod 2 ^ 32) with 0. 2: { symmetry. replace (F - 1) with (F - 33 + 32) by lia. rewrite pow2_add by lia. apply Z.mod_mul. lia. }
  change (0 <? 2 ^ 31) with true. cbv iota. pose proof (pow2_pos F ltac:(lia)) as PF. rewrite !m_of_int_ok by (change (2 ^ 31) with (2 * 2 ^ 30); lia). cbn [bind]. eexists. split; [reflexivity|]. rewrite (mk_pack E F 1 false) by lia. rewrite decode_pack by (repeat split; lia). cbn [Z.eqb Pos.eqb]. unfold bias. rewrite <- Heqb. f_equal; lia.
Qed.
