From Coq Require Import ZArith Bool List Lia.
From Verif Require Import Fw FwLemmas Spec SpecLemmas Spec754 SpecLimits SpecTraits Flopoco FlopocoLemmas Ieee IeeeProofs LimitsProofs SfProofs1 Traits SoftFloat SpecNan.
Open Scope Z_scope.

Lemma finite_data w dec : 0 <= w -> finitely_many (data w dec).
Proof.
  intros Hw. exists (map (fun n => dec (Z.of_nat n)) (seq 0 (Z.to_nat (2 ^ w)))). intros v (x & Hx & <-). unfold wf in Hx.
  apply in_map_iff. exists (Z.to_nat x). split; [now rewrite Z2Nat.id by lia|]. apply in_seq. lia.
Qed.

(** A number of the type in the binade of 2^k, with F+1 digits, has exponent k-F. *)
Lemma binade F m e k : 0 <= F -> 2 ^ F <= m < 2 * 2 ^ F -> cmp_num m e 1 k <> Lt -> cmp_num m e 1 (k + 1) = Lt -> e = k - F.
Proof.
  intros HF Hm A B. unfold cmp_num in *.
  assert (PF := pow2_pos F HF). apply Z.compare_ge_iff in A. rewrite Z.compare_lt_iff in B. rewrite Z.mul_1_l in A, B.
  destruct (Z.le_gt_cases e k) as [H|H].
  - rewrite Z.min_l in A, B by lia. rewrite Z.sub_diag, Z.mul_1_r in A, B.
    assert (k - e < F + 1). { apply (Z.pow_lt_mono_r_iff 2); [lia|lia|]. rewrite pow2_S by lia. lia. }
    assert (F < k + 1 - e). { apply (Z.pow_lt_mono_r_iff 2); [lia|lia|]. lia. }
    lia.
  - rewrite (Z.min_r e k) in A by lia. rewrite (Z.min_r e (k + 1)) in B by lia. rewrite Z.sub_diag in B.
    assert (0 < 2 ^ (e - (k + 1))) by (apply pow2_pos; lia). nia.
Qed.

Section Range.
Variables (V : fval -> Prop) (F lo hi : Z).
Hypothesis (HF : 1 <= F) (L : lo < hi) (L0 : lo <= 0).
(** Numbers of F+1 digits, and multiples of 2^(lo-F) at the bottom. *)
Hypothesis (N : forall m e, 2 ^ F <= m < 2 * 2 ^ F -> lo <= e + F <= hi -> V (Num false m e)).
Hypothesis (M : forall m e, V (Num false m e) -> 0 < m < 2 * 2 ^ F /\ lo <= e + F).

Let P2 : 2 <= 2 ^ F.
Proof. change 2 with (2 ^ 1) at 1. apply Z.pow_le_mono_r; lia. Qed.

Lemma not_integers : ~ all_integers V.
Proof.
  intros A. destruct (A false (2 ^ F + 1) (lo - F)) as [n C]; [apply N; lia|]. apply cmp_eq_le in C; [|lia].
  replace (0 - (lo - F)) with (F - lo - 1 + 1) in C by lia. rewrite pow2_S in C by lia. replace (2 ^ F) with (2 * 2 ^ (F - 1)) in C by (rewrite <- pow2_S by lia; f_equal; lia).
  lia.
Qed.

Lemma not_exact : ~ sums_are_exact V.
Proof.
  intros A. specialize (A (2 ^ F) (lo - F) (2 ^ F + 1) (lo - F) (2 * 2 ^ F - 1) (lo + 1 - F)). unfold sum in A. cbn [fst snd] in A.
  rewrite Z.min_id, Z.sub_diag, !Z.mul_1_r in A.
  destruct A as (m & e & Hv & C); [apply N; lia|apply N; lia|apply N; lia| |].
  - unfold cmp_num. rewrite Z.min_l by lia. rewrite Z.sub_diag, Z.mul_1_r. replace (lo + 1 - F - (lo - F)) with 1 by lia. rewrite Z.compare_gt_iff. lia.
  - apply M in Hv. destruct Hv as [Hm He]. apply cmp_eq_ge in C; [|lia].
    destruct (Z.eq_dec e (lo - F)) as [->|]; [rewrite Z.sub_diag in C; lia|].
    replace (e - (lo - F)) with (e - (lo - F) - 1 + 1) in C by lia. rewrite pow2_S in C by lia. lia.
Qed.

Lemma not_subnormal : (forall m e, V (Num false m e) -> 2 ^ F <= m /\ e + F <= hi) -> ~ has_subnormals V (F + 1).
Proof.
  intros Nm (m & e & k & p & Hv & A & B & Hp & H). apply H. pose proof (M _ _ Hv) as [Hm He]. pose proof (Nm _ _ Hv) as [Hm' He'].
  assert (e = k - F) by (apply (binade F m e k); [lia|lia|assumption|assumption]). rewrite Z.add_simpl_r in *.
  rewrite pow2_S in Hp by lia. exists p, e. split; [apply N; lia|]. apply cmp_eq_le; [lia|]. replace (k - F - e) with 0 by lia. lia.
Qed.

Lemma subnormal : V (Num false 1 (lo - F)) -> has_subnormals V (F + 1).
Proof.
  intros Hv. exists 1, (lo - F), (lo - F), (2 ^ F + 1). rewrite Z.add_simpl_r, pow2_S by lia. split; [exact Hv|]. split; [|split; [|split]].
  - unfold cmp_num. rewrite Z.compare_refl. discriminate.
  - unfold cmp_num. rewrite Z.min_l by lia. rewrite Z.sub_diag. replace (lo - F + 1 - (lo - F)) with 1 by lia. reflexivity.
  - lia.
  - intros (m & e & Hw & C). apply M in Hw. destruct Hw as [Hm He]. apply cmp_eq_ge in C; [|lia].
    replace (e - (lo - F - F)) with (e - (lo - F) + F - 1 + 1) in C by lia. rewrite pow2_S in C by lia.
    replace (2 ^ F) with (2 * 2 ^ (F - 1)) in C by (rewrite <- pow2_S by lia; f_equal; lia). lia.
Qed.
End Range.

Lemma says_yes (P : Prop) : P -> says true P.
Proof. split; [auto|discriminate]. Qed.
Lemma says_no (P : Prop) : ~ P -> says false P.
Proof. split; [discriminate|auto]. Qed.

Lemma flopoco_traits_ok E F : 1 <= E -> 1 <= F -> describes flopoco_traits (data (E + F + 3) (decode E F)) (F + 1).
Proof.
  intros HE HF. pose proof (flopoco_range E F HE HF) as R. assert (B := bias_pos E HE). assert (PE := pow2_pos E ltac:(lia)). assert (PF := pow2_pos F ltac:(lia)).
  assert (W : forall fl s, 0 <= fl < 4 -> okf E F fl 0 0 /\ wf (E + F + 3) (pack E F fl s 0 0)).
  { intros fl s Hfl. assert (O : okf E F fl 0 0) by (unfold okf; lia). split; [exact O|exact (FlopocoLemmas.pack_wf _ _ _ _ _ _ O)]. }
  assert (M : forall m e, data (E + F + 3) (decode E F) (Num false m e) -> 0 < m < 2 * 2 ^ F /\ - bias E <= e + F) by (intros m e Hv; apply R in Hv; lia).
  assert (N : forall m e, 2 ^ F <= m < 2 * 2 ^ F -> - bias E <= e + F <= bias E + 1 -> data (E + F + 3) (decode E F) (Num false m e)) by (intros m e H1 H2; apply R; lia).
  unfold describes, flopoco_traits. cbn [is_signed is_integer is_exact has_infinity has_quiet_NaN has_denorm is_bounded].
  repeat match goal with |- _ /\ _ => split end.
  - apply says_yes. destruct (W 1 true) as [O Ok]; [lia|]. eexists _, _, _. split; [exact Ok|]. rewrite (decode_pack _ _ _ _ _ _ O). reflexivity.
  - apply says_no. apply (not_integers _ F (- bias E) (bias E + 1)); auto; lia.
  - apply says_no. apply (not_exact _ F (- bias E) (bias E + 1)); auto; lia.
  - apply says_yes. destruct (W 2 false) as [O Ok]; [lia|]. eexists. split; [exact Ok|]. rewrite (decode_pack _ _ _ _ _ _ O). reflexivity.
  - apply says_yes. destruct (W 3 false) as [O Ok]; [lia|]. eexists. split; [exact Ok|]. rewrite (decode_pack _ _ _ _ _ _ O). reflexivity.
  - apply says_no. apply (not_subnormal _ F (- bias E) (bias E + 1)); auto; try lia. intros m e Hv. apply R in Hv. lia.
  - apply says_yes. apply finite_data. lia.
Qed.

Lemma ieee_traits_ok E F : 2 <= E -> 1 <= F -> describes ieee_traits (data (E + F + 1) (decode_ieee E F)) (F + 1).
Proof.
  intros HE HF. pose proof (ieee_range E F HE HF) as R. assert (B := bias_pos2 E HE). assert (PE : 4 <= 2 ^ E) by (change 4 with (2 ^ 2); apply Z.pow_le_mono_r; lia).
  assert (PF : 2 <= 2 ^ F) by (change 2 with (2 ^ 1) at 1; apply Z.pow_le_mono_r; lia).
  assert (W : forall s e f, 0 <= e < 2 ^ E -> 0 <= f < 2 ^ F -> oki E F e f /\ wf (E + F + 1) (ipack E F s e f)).
  { intros s e f He Hf. assert (O : oki E F e f) by (unfold oki; lia). split; [exact O|exact (ipack_wf _ _ _ _ _ O)]. }
  assert (M : forall m e, data (E + F + 1) (decode_ieee E F) (Num false m e) -> 0 < m < 2 * 2 ^ F /\ 1 - bias E <= e + F) by (intros m e Hv; apply R in Hv; lia).
  assert (N : forall m e, 2 ^ F <= m < 2 * 2 ^ F -> 1 - bias E <= e + F <= bias E -> data (E + F + 1) (decode_ieee E F) (Num false m e)) by (intros m e H1 H2; apply R; lia).
  unfold describes, ieee_traits. cbn [is_signed is_integer is_exact has_infinity has_quiet_NaN has_denorm is_bounded].
  repeat match goal with |- _ /\ _ => split end.
  - apply says_yes. destruct (W true 1 0) as [O Ok]; [lia|lia|]. eexists _, _, _. split; [exact Ok|]. rewrite (decode_ipack _ _ _ _ _ O). change (1 =? 0) with false. replace (1 =? 2 ^ E - 1) with false by lia. reflexivity.
  - apply says_no. apply (not_integers _ F (1 - bias E) (bias E)); auto; lia.
  - apply says_no. apply (not_exact _ F (1 - bias E) (bias E)); auto; lia.
  - apply says_yes. destruct (W false (2 ^ E - 1) 0) as [O Ok]; [lia|lia|]. eexists. split; [exact Ok|]. rewrite (decode_ipack _ _ _ _ _ O), Z.eqb_refl. replace (_ =? 0) with false by lia. reflexivity.
  - apply says_yes. destruct (W false (2 ^ E - 1) 1) as [O Ok]; [lia|lia|]. eexists. split; [exact Ok|]. rewrite (decode_ipack _ _ _ _ _ O), Z.eqb_refl. replace (2 ^ E - 1 =? 0) with false by lia. reflexivity.
  - apply says_no. apply (not_subnormal _ F (1 - bias E) (bias E)); auto; try lia. intros m e Hv. apply R in Hv. lia.
  - apply says_yes. apply finite_data. lia.
Qed.

Lemma softfloat_traits_ok E F : 2 <= E -> 1 <= F -> describes softfloat_traits (data (E + F + 1) (decode754 E F)) (F + 1).
Proof.
  intros HE HF. assert (B := bias_pos2 E HE). assert (PE : 4 <= 2 ^ E) by (change 4 with (2 ^ 2); apply Z.pow_le_mono_r; lia).
  assert (PF : 2 <= 2 ^ F) by (change 2 with (2 ^ 1) at 1; apply Z.pow_le_mono_r; lia). assert (B2 : 2 * (bias E + 1) = 2 ^ E) by (unfold bias; replace (2 ^ E) with (2 * 2 ^ (E - 1)) by (rewrite <- pow2_S by lia; f_equal; lia); lia).
  assert (W : forall s e f, 0 <= e < 2 ^ E -> 0 <= f < 2 ^ F -> wf (E + F + 1) (Z.b2z s * 2 ^ (E + F) + (e * 2 ^ F + f))).
  { intros s e f He Hf. unfold wf. rewrite (pow2_S (E + F)), !(pow2_add E F) by lia. destruct s; cbn [Z.b2z]; nia. }
  assert (M : forall m e, data (E + F + 1) (decode754 E F) (Num false m e) -> 0 < m < 2 * 2 ^ F /\ 1 - bias E <= e + F).
  { intros m e (x & Hx & D). unfold decode754 in D. pose proof (Z.mod_pos_bound x (2 ^ F) ltac:(lia)). pose proof (Z.mod_pos_bound (x / 2 ^ F) (2 ^ E) ltac:(lia)).
    destruct (_ =? 2 ^ E - 1); [destruct (_ =? 0); discriminate|]. destruct (Z.eqb_spec ((x / 2 ^ F) mod 2 ^ E) 0).
    - destruct (Z.eqb_spec (x mod 2 ^ F) 0); [discriminate|]. assert (m = x mod 2 ^ F /\ e = 1 - bias E - F) as [-> ->] by (split; congruence). lia.
    - assert (m = 2 ^ F + x mod 2 ^ F /\ e = (x / 2 ^ F) mod 2 ^ E - bias E - F) as [-> ->] by (split; congruence). lia. }
  assert (N : forall m e, 2 ^ F <= m < 2 * 2 ^ F -> 1 - bias E <= e + F <= bias E -> data (E + F + 1) (decode754 E F) (Num false m e)).
  { intros m e H1 H2. eexists. split; [apply (W false (e + F + bias E) (m - 2 ^ F)); lia|]. rewrite decode754_fields by lia.
    replace (_ =? 2 ^ E - 1) with false by lia. replace (_ =? 0) with false by lia. f_equal; lia. }
  unfold describes, softfloat_traits. cbn [is_signed is_integer is_exact has_infinity has_quiet_NaN has_denorm is_bounded].
  repeat match goal with |- _ /\ _ => split end.
  - apply says_yes. eexists _, _, _. split; [apply (W true 1 0); lia|]. rewrite decode754_fields by lia. replace (1 =? 2 ^ E - 1) with false by lia. reflexivity.
  - apply says_no. apply (not_integers _ F (1 - bias E) (bias E)); auto; lia.
  - apply says_no. apply (not_exact _ F (1 - bias E) (bias E)); auto; lia.
  - apply says_yes. eexists. split; [apply (W false (2 ^ E - 1) 0); lia|]. rewrite decode754_fields by lia. rewrite Z.eqb_refl. reflexivity.
  - apply says_yes. eexists. split; [apply (W false (2 ^ E - 1) 1); lia|]. rewrite decode754_fields by lia. rewrite Z.eqb_refl. reflexivity.
  - apply says_yes. apply (subnormal _ F (1 - bias E)); auto; try lia. eexists. split; [apply (W false 0 1); lia|]. rewrite decode754_fields by lia. replace (0 =? 2 ^ E - 1) with false by lia. reflexivity.
  - apply says_yes. apply finite_data. lia.
Qed.

Lemma iec559_flags : iec559_consistent flopoco_traits /\ iec559_consistent ieee_traits /\ ~ iec559_consistent softfloat_traits /\
  exists x, 0 <= x < 2 ^ 32 /\ is_nan 8 23 x = true /\ is_quiet 8 23 x = false /\
    f32_add 32 x 0 = Some (quieted 8 23 x) /\ quieted 8 23 x <> x.
Proof.
  unfold iec559_consistent. split; [discriminate|]. split; [discriminate|]. split.
  - intros H. specialize (H eq_refl). destruct H as (_ & _ & H). discriminate H.
  - exists 0x7F812345. split; [lia|]. vm_compute. repeat split; congruence.
Qed.
