(** The library's own operators pass the test program; a NaN among the inputs makes right operators fail it. *)
From Coq Require Import ZArith List Bool Lia.
From Verif Require Import Fw FwLemmas Spec SpecPolicy Spec754 SpecLemmas Flopoco FlopocoLemmas CompareProofs Mul MulProofs AddDual AddDualProofs AddDualProofs5 Div DivProofs3 ConvertProofs Ieee IeeeProofs IeeeProofs2 SoftFloat App Policy PolicyProofs PolicyProofs2 PolicyProofs4 MpfrProofs2.
From Verif Require SfProofs10.
Import ListNotations.
Open Scope Z_scope.

Lemma same_value_refl v : same_value v v.
Proof. destruct v as [|s|s|s m e]; cbn; try exact I; try (destruct s; reflexivity). unfold cmp_num. rewrite Z.compare_refl. reflexivity. Qed.
Definition all_right (D : Z -> fval) (mul add div : fval -> fval -> fval) (V : Z -> Prop) (O : operators) (a b : Z) : Prop :=
  returns V O a b /\ right_comparisons D O a b /\ right_arithmetic D mul add div O a b.
Lemma all_right_of D mul add div (V : Z -> Prop) O a b : right_comparisons D O a b ->
  (exists r, o_mul O a b = Some r /\ V r /\ D r = mul (D a) (D b)) -> (exists r, o_add O a b = Some r /\ V r /\ D r = add (D a) (D b)) -> (exists r, o_div O a b = Some r /\ V r /\ D r = div (D a) (D b)) ->
  all_right D mul add div V O a b.
Proof.
  intros C [r1 [A1 [A2 A3]]] [r2 [B1 [B2 B3]]] [r3 [D1 [D2 D3]]]. pose proof C as (C1 & C2 & C3 & C4 & C5 & C6). split; [|split; [exact C|]].
  - repeat split; eauto.
  - repeat split; eexists; (split; [eassumption|]); rewrite ?A3, ?B3, ?D3; apply same_value_refl.
Qed.
Lemma to_bool_b2z b : to_bool (Z.b2z b) = b. Proof. destruct b; reflexivity. Qed.
Lemma flopoco_comparisons E F a b : 1 <= E -> 1 <= F -> wf (E + F + 3) a -> wf (E + F + 3) b -> (forall s, decode E F a = Inf s -> decode E F b = Inf s -> a = b) ->
  right_comparisons (decode E F) (flopoco_ops E F) a b.
Proof.
  intros HE HF Ha Hb HI. unfold right_comparisons, flopoco_ops, fl_cmp. cbn [o_eq o_ne o_lt o_le o_gt o_ge].
  assert (SI : (exists s, decode E F a = Inf s /\ decode E F b = Inf s) \/ ~ (exists s, decode E F a = Inf s /\ decode E F b = Inf s)).
  { destruct (decode E F a) as [|s|s|s m e], (decode E F b) as [|t|t|t n f]; try (right; intros X; destruct X as [x [X Y]]; discriminate). destruct (Bool.bool_dec s t) as [->|N]; [left; eauto|right; intros X; destruct X as [x [X Y]]; congruence]. }
  destruct SI as [[s [S1 S2]]|SI].
  - specialize (HI s S1 S2). subst b. clear S2. destruct (pack_view E F a HE HF Ha) as [fl [t [ey [f [Q ->]]]]]. assert (N3 : fl <> 3) by (apply (not_nan_flags E F fl t ey f Q); rewrite S1; discriminate).
    pose proof (comparisons_by_key E F E F fl t ey f fl t ey f Q Q N3 N3) as K. cbv zeta in K. unfold cmpkeys in K. rewrite Z.compare_refl in K. destruct K as (K1 & K2 & K3 & K4 & K5). rewrite S1.
    destruct (not_equal_complement E F E F _ _ HE HF HE HF Ha Ha) as [q [Q1 Q2]]. rewrite K5 in Q1. assert (q = true) by (destruct q; [reflexivity|discriminate]). subst q. cbn [negb] in Q2.
    rewrite K1, K2, K3, K4, K5, Q2. cbn [bind]. rewrite !to_bool_b2z. destruct s; repeat split; reflexivity.
  - destruct (comparisons_correct E F E F a b HE HF HE HF Ha Hb SI) as (K1 & K2 & K3 & K4 & K5 & K6). rewrite K1, K2, K3, K4, K5, K6. cbn [bind]. rewrite !to_bool_b2z. repeat split; reflexivity.
Qed.
Theorem flopoco_right E F a b : dual_ok_width E F -> wf (E + F + 3) a -> wf (E + F + 3) b -> (forall s, decode E F a = Inf s -> decode E F b = Inf s -> a = b) ->
  all_right (decode E F) (mul_spec E F) (add_spec E F) (div_spec E F) (wf (E + F + 3)) (flopoco_ops E F) a b.
Proof.
  intros HW Ha Hb HI. assert (B : 3 < E /\ 1 <= F) by (destruct HW; lia). apply all_right_of.
  - apply flopoco_comparisons; try assumption; lia.
  - cbn [flopoco_ops o_mul]. unfold fl_mul. apply mul_round_correct; (assumption || lia).
  - cbn [flopoco_ops o_add]. unfold fl_add. pose proof (add_dual_ok E F E F a b) as A. cbv zeta in A. rewrite !Z.max_id in A. apply A; (assumption || lia).
  - cbn [flopoco_ops o_div]. unfold fl_div. apply div_v1_correct; (assumption || lia).
Qed.
Theorem ieee_right E F a b : dual_ok_width E F -> wf (E + F + 1) a -> wf (E + F + 1) b ->
  all_right (decode_ieee E F) (mul_ieee E F) (add_ieee E F) (div_ieee E F) (wf (E + F + 1)) (ieee_ops E F) a b.
Proof.
  intros HW Ha Hb. assert (B : 3 < E /\ 1 <= F) by (destruct HW; lia). apply all_right_of.
  - destruct (w_comparisons_ok E F a b ltac:(lia) ltac:(lia) Ha Hb) as (K1 & K2 & K3 & K4 & K5 & K6). repeat split; assumption.
  - apply w_mul_ok; (assumption || lia).
  - apply w_add_ok; assumption.
  - apply w_div_ok; (assumption || lia).
Qed.
Lemma cmp754_vcmp x y : cmp754 x y = vcmp x y.
Proof.
  destruct x as [|s|s|s m e], y as [|t|t|t n f]; try reflexivity; try (destruct s; reflexivity); try (destruct t; reflexivity); try (destruct s, t; reflexivity).
  cbn [cmp754 vcmp]. cbv zeta. f_equal. unfold cmp_num. rewrite !sgn_mul. reflexivity.
Qed.
Theorem single_right U a b : 32 <= U -> word32 a -> word32 b ->
  all_right (decode754 8 23) (mul754 8 23) (add754 8 23) (div754 8 23) word32 (single_ops U) a b.
Proof.
  intros HU Ha Hb. apply all_right_of.
  - destruct (SfProofs10.f32_cmp_ok a b Ha Hb) as (K1 & K2 & K3 & K4 & K5 & K6). rewrite cmp754_vcmp in *.
    unfold right_comparisons, single_ops. cbn [o_eq o_ne o_lt o_le o_gt o_ge]. unfold f32_ne, f32_gt, f32_ge in *. unfold eq_spec, lt_spec, le_spec, gt_spec, ge_spec. rewrite K1, K3, K4, K5, K6. repeat split; f_equal; destruct (vcmp _ _) as [[]|]; reflexivity.
  - apply SfProofs10.f32_mul_ok; assumption.
  - apply SfProofs10.f32_add_ok; assumption.
  - apply SfProofs10.f32_div_ok; assumption.
Qed.
Theorem double_right a b : word64 a -> word64 b ->
  all_right (decode754 11 52) (mul754 11 52) (add754 11 52) (div754 11 52) word64 double_ops a b.
Proof.
  intros Ha Hb. apply all_right_of.
  - destruct (SfProofs10.f64_cmp_ok a b Ha Hb) as (K1 & K2 & K3 & K4 & K5 & K6). rewrite cmp754_vcmp in *.
    unfold right_comparisons, double_ops. cbn [o_eq o_ne o_lt o_le o_gt o_ge]. unfold f64_ne, f64_gt, f64_ge in *. unfold eq_spec, lt_spec, le_spec, gt_spec, ge_spec. rewrite K1, K3, K4, K5, K6. repeat split; f_equal; destruct (vcmp _ _) as [[]|]; reflexivity.
  - apply SfProofs10.f64_mul_ok; assumption.
  - apply SfProofs10.f64_add_ok; assumption.
  - apply SfProofs10.f64_div_ok; assumption.
Qed.

(** ** What the test program answers *)
Definition decides (P : policy) (D : Z -> fval) (V : Z -> Prop) (mul add div : fval -> fval -> fval) : Prop :=
  forall O l, (forall a, In a l -> V a) -> (forall a b, In a l -> In b l -> returns V O a b) ->
  exists f, test_inputs P O l = Some f /\ (f = false <-> forall a b, In a l -> In b l -> wanted D O a b /\ right_arithmetic D mul add div O a b).
Lemma decides_ok P D V mul add div O l : decides P D V mul add div ->
  (forall a, In a l -> V a /\ D a <> NaN) -> (forall a b, In a l -> In b l -> returns V O a b) ->
  exists f, test_inputs P O l = Some f /\ (f = false <-> forall a b, In a l -> In b l -> right_comparisons D O a b /\ right_arithmetic D mul add div O a b).
Proof.
  intros H HV HR. destruct (H O l (fun a Ha => proj1 (HV a Ha)) HR) as [f [F1 F2]]. exists f. split; [exact F1|]. rewrite F2.
  assert (W : forall a b, In a l -> In b l -> (wanted D O a b <-> right_comparisons D O a b)).
  { intros a b Ha Hb. unfold wanted. destruct (HV a Ha) as [_ Na]. destruct (HV b Hb) as [_ Nb]. destruct (D a) eqn:Da; [congruence|..]; destruct (D b) eqn:Db; try congruence; cbn [nan_v orb]; reflexivity. }
  split; intros X a b Ha Hb; specialize (X a b Ha Hb); rewrite W in * by assumption; exact X.
Qed.
Lemma decides_nan P D V mul add div O l a : decides P D V mul add div -> (forall x, In x l -> V x) -> (forall x y, In x l -> In y l -> returns V O x y) ->
  In a l -> D a = NaN -> right_comparisons D O a a -> test_inputs P O l = Some true.
Proof.
  intros H HV HR Ha Na RC. destruct (H O l HV HR) as [f [F1 F2]]. rewrite F1. f_equal. destruct f; [reflexivity|]. destruct (proj1 F2 eq_refl a a Ha Ha) as [W _]. unfold wanted in W. rewrite Na in W. cbn [nan_v orb] in W. destruct W as [W _]. destruct RC as [RC _]. rewrite Na in RC. cbn in RC. congruence.
Qed.
Lemma decides_pass P D V mul add div O l : decides P D V mul add div -> (forall a, In a l -> V a /\ D a <> NaN) ->
  (forall a b, In a l -> In b l -> all_right D mul add div V O a b) -> test_inputs P O l = Some false.
Proof.
  intros H HV HR. destruct (decides_ok P D V mul add div O l H HV (fun a b Ha Hb => proj1 (HR a b Ha Hb))) as [f [F1 F2]]. rewrite F1. f_equal. apply F2. intros a b Ha Hb. exact (proj2 (HR a b Ha Hb)).
Qed.
Lemma flopoco_decides E F : ok_ef E F -> decides (flopoco_policy E F) (decode E F) (wf (E + F + 3)) (mul_spec E F) (add_spec E F) (div_spec E F).
Proof. intros H O l. apply flopoco_test. exact H. Qed.
Lemma ieee_decides E F : ok_ef E F -> decides (ieee_policy E F) (decode_ieee E F) (wf (E + F + 1)) (mul_ieee E F) (add_ieee E F) (div_ieee E F).
Proof. intros H O l. apply ieee_test. exact H. Qed.
Lemma single_decides : decides single_policy (decode754 8 23) word32 (mul754 8 23) (add754 8 23) (div754 8 23).
Proof. intros O l. apply single_test. Qed.
Lemma double_decides : decides double_policy (decode754 11 52) word64 (mul754 11 52) (add754 11 52) (div754 11 52).
Proof. intros O l. apply double_test. Qed.
