From Coq Require Import ZArith Bool Lia.
From Verif Require Import Fw FwLemmas Spec SpecLemmas SpecDot SpecMpfr Flopoco FlopocoLemmas CompareProofs Dot DotProofs DotProofs2 DotProofs3 DotProofs4 DotProofs5 MpfrProofs2 RefDotProofs2.
Open Scope Z_scope.

(** The result overflows when the exponents of one product exceed the range. *)
Lemma dot4_products_over E F p0 X0 p1 X1 p2 X2 p3 X3 m e r0 : 1 <= E <= 30 -> 1 <= F ->
  let K := - 2 * bias E - 2 * F in let B := 2 ^ (E - 1) - 1 in
  2 ^ (2 * F) <= p0 < 2 ^ (2 * F + 2) -> 2 ^ (2 * F) <= p1 < 2 ^ (2 * F + 2) -> 2 ^ (2 * F) <= p2 < 2 ^ (2 * F + 2) -> 2 ^ (2 * F) <= p3 < 2 ^ (2 * F + 2) ->
  0 <= X0 < 2 ^ (E + 1) - 1 -> 0 <= X1 < 2 ^ (E + 1) - 1 -> 0 <= X2 < 2 ^ (E + 1) - 1 -> 0 <= X3 < 2 ^ (E + 1) - 1 ->
  K <= e -> m * 2 ^ (e - K) = p0 * 2 ^ X0 + p1 * 2 ^ X1 + (p2 * 2 ^ X2 + p3 * 2 ^ X3) ->
  (X1 <= X0 /\ X2 <= X0 /\ X3 <= X0 /\ r0 = dot4_tail E F B p0 p3 p2 p1 X0 X3 X2 X1) \/
  (X0 <= X1 /\ X2 <= X1 /\ X3 <= X1 /\ r0 = dot4_tail E F B p1 p0 p3 p2 X1 X0 X3 X2) \/
  (X0 <= X2 /\ X1 <= X2 /\ X3 <= X2 /\ r0 = dot4_tail E F B p2 p1 p0 p3 X2 X1 X0 X3) \/
  (X0 <= X3 /\ X1 <= X3 /\ X2 <= X3 /\ r0 = dot4_tail E F B p3 p2 p1 p0 X3 X2 X1 X0) ->
  2 ^ E + B <= X0 \/ 2 ^ E + B <= X1 \/ 2 ^ E + B <= X2 \/ 2 ^ E + B <= X3 ->
  (exists r, r0 = Some r /\ decode E F r = Inf false) /\ rndd E F (m, e) = Inf false.
Proof.
  intros HE HF K B Q0 Q1 Q2 Q3 Y0 Y1 Y2 Y3 HK Dm CS HX. pose proof (pow2_pos (2 * F) ltac:(lia)) as PF.
  assert (EE : 2 ^ E = 2 * 2 ^ (E - 1)) by (rewrite <- pow2_S by lia; f_equal; lia). assert (PE : 0 < 2 ^ (E - 1)) by (apply pow2_pos; lia). assert (EM : emin E <= emax E) by (unfold emin, emax, bias; lia).
  assert (S : forall p X, 2 ^ (2 * F) <= p -> 0 <= X -> 0 < p * 2 ^ X /\ 2 ^ (2 * F + X) <= p * 2 ^ X).
  { intros p X Hp HX0. pose proof (pow2_pos X HX0). rewrite pow2_add by lia. split; [apply Z.mul_pos_pos; lia|apply Z.mul_le_mono_nonneg_r; lia]. }
  assert (T : forall p0 X p1 Y1 p2 Y2 p3 Y3, 2 ^ (2 * F) <= p0 < 2 ^ (2 * F + 2) -> 2 ^ (2 * F) <= p1 < 2 ^ (2 * F + 2) -> 2 ^ (2 * F) <= p2 < 2 ^ (2 * F + 2) -> 2 ^ (2 * F) <= p3 < 2 ^ (2 * F + 2) ->
    0 <= Y1 <= X -> 0 <= Y2 <= X -> 0 <= Y3 <= X -> X < 2 ^ (E + 1) - 1 -> 2 ^ E + B <= X -> exists r, dot4_tail E F B p0 p1 p2 p3 X Y1 Y2 Y3 = Some r /\ decode E F r = Inf false).
  { clear - HE HF PF EE PE EM. intros p0 X p1 Y1 p2 Y2 p3 Y3 Q0 Q1 Q2 Q3 H1 H2 H3 HX G.
    destruct (dot4_tail_ok E F p0 X p1 Y1 p2 Y2 p3 Y3 _ HE HF Q0 Q1 Q2 Q3 H1 H2 H3 HX eq_refl) as (r & R & _ & D). exists r. split; [exact R|]. rewrite D. clear D R r.
    pose proof (pow2_pos (4 * F - 1) ltac:(lia)) as PP.
    pose proof (shifted_bound p1 (4 * F - 1) X Y1 H1 ltac:(lia) ltac:(lia)) as [L1 _]. pose proof (shifted_bound p2 (4 * F - 1) X Y2 H2 ltac:(lia) ltac:(lia)) as [L2 _]. pose proof (shifted_bound p3 (4 * F - 1) X Y3 H3 ltac:(lia) ltac:(lia)) as [L3 _].
    assert (LV : 2 ^ (2 * F + (4 * F - 1)) <= p0 * 2 ^ (4 * F - 1)) by (rewrite pow2_add by lia; apply Z.mul_le_mono_nonneg_r; lia). pose proof (pow2_pos (2 * F + (4 * F - 1)) ltac:(lia)) as PL.
    revert L1 L2 L3 LV. generalize (p1 * 2 ^ (4 * F - 1) * 2 ^ Y1 / 2 ^ X) as c1, (p2 * 2 ^ (4 * F - 1) * 2 ^ Y2 / 2 ^ X) as c2, (p3 * 2 ^ (4 * F - 1) * 2 ^ Y3 / 2 ^ X) as c3, (p0 * 2 ^ (4 * F - 1)) as c0. intros c1 c2 c3 c0 L1 L2 L3 LV.
    apply rndd_inf; [lia|lia| |exact EM]. assert (LL : 2 * F + (4 * F - 1) <= Z.log2 (c0 + c1 + c2 + c3)) by (rewrite <- (Z.log2_pow2 (2 * F + (4 * F - 1))) by lia; apply Z.log2_le_mono; lia). unfold emax, bias, B in *. lia. }
  split.
  - destruct CS as [(L1 & L2 & L3 & ->)|[(L1 & L2 & L3 & ->)|[(L1 & L2 & L3 & ->)|(L1 & L2 & L3 & ->)]]]; apply T; (assumption || lia).
  - destruct (S p0 X0 (proj1 Q0) (proj1 Y0)) as [A0 C0]. destruct (S p1 X1 (proj1 Q1) (proj1 Y1)) as [A1 C1]. destruct (S p2 X2 (proj1 Q2) (proj1 Y2)) as [A2 C2]. destruct (S p3 X3 (proj1 Q3) (proj1 Y3)) as [A3 C3].
    assert (PB : 0 <= B) by (unfold B; lia). assert (C : 2 ^ (2 * F + (2 ^ E + B)) <= m * 2 ^ (e - K)).
    { rewrite Dm. assert (M : forall X, 2 ^ E + B <= X -> 2 ^ (2 * F + (2 ^ E + B)) <= 2 ^ (2 * F + X)) by (intros X HX'; apply Z.pow_le_mono_r; lia). destruct HX as [HX|[HX|[HX|HX]]]; apply M in HX; clear - HX A0 A1 A2 A3 C0 C1 C2 C3; lia. }
    pose proof (pow2_pos (e - K) ltac:(lia)) as PK. pose proof (pow2_pos (2 * F + (2 ^ E + B)) ltac:(lia)) as PC. assert (PM : 0 < m) by (clear - PK PC C; destruct (Z_lt_le_dec 0 m) as [?|L]; [assumption|]; pose proof (Z.mul_nonpos_nonneg m _ L (Z.lt_le_incl _ _ PK)); lia).
    apply rndd_inf; [lia|exact PM| |exact EM]. apply Z.log2_le_mono in C. rewrite Z.log2_pow2, Z.log2_mul_pow2 in C by lia. unfold K, emax, bias, B in *. lia.
Qed.
(** No product can lie too far below the largest when the exponent range is narrow. *)
Theorem dot4_narrow E F a0 a1 a2 a3 b0 b1 b2 b3 : 1 <= E <= 30 -> 1 <= F -> 3 * 2 ^ (E - 1) - 2 < 4 * F ->
  wf (E + F + 3) a0 -> wf (E + F + 3) a1 -> wf (E + F + 3) a2 -> wf (E + F + 3) a3 ->
  wf (E + F + 3) b0 -> wf (E + F + 3) b1 -> wf (E + F + 3) b2 -> wf (E + F + 3) b3 ->
  let d := decode E F in
  pos_normal (d a0) -> pos_normal (d a1) -> pos_normal (d a2) -> pos_normal (d a3) ->
  pos_normal (d b0) -> pos_normal (d b1) -> pos_normal (d b2) -> pos_normal (d b3) ->
  exists r, dot4_pos_rndd E F a0 a1 a2 a3 b0 b1 b2 b3 = Some r /\ wf (E + F + 3) r /\
    d r = dot4_spec E F (d a0) (d a1) (d a2) (d a3) (d b0) (d b1) (d b2) (d b3).
Proof.
  intros HE HF HN Wa0 Wa1 Wa2 Wa3 Wb0 Wb1 Wb2 Wb3 d Pa0 Pa1 Pa2 Pa3 Pb0 Pb1 Pb2 Pb3. subst d.
  assert (HE' : 1 <= E) by lia.
  destruct (pos_view E F a0 HE' HF Wa0 Pa0) as (ea0 & fa0 & Oa0 & Ea0 & Da0). destruct (pos_view E F a1 HE' HF Wa1 Pa1) as (ea1 & fa1 & Oa1 & Ea1 & Da1).
  destruct (pos_view E F a2 HE' HF Wa2 Pa2) as (ea2 & fa2 & Oa2 & Ea2 & Da2). destruct (pos_view E F a3 HE' HF Wa3 Pa3) as (ea3 & fa3 & Oa3 & Ea3 & Da3).
  destruct (pos_view E F b0 HE' HF Wb0 Pb0) as (eb0 & fb0 & Ob0 & Eb0 & Db0). destruct (pos_view E F b1 HE' HF Wb1 Pb1) as (eb1 & fb1 & Ob1 & Eb1 & Db1).
  destruct (pos_view E F b2 HE' HF Wb2 Pb2) as (eb2 & fb2 & Ob2 & Eb2 & Db2). destruct (pos_view E F b3 HE' HF Wb3 Pb3) as (eb3 & fb3 & Ob3 & Eb3 & Db3).
  unfold dot4_spec, dot4_exact.
  rewrite (dmul_val E F a0 b0 ea0 fa0 eb0 fb0 Da0 Db0), (dmul_val E F a1 b1 ea1 fa1 eb1 fb1 Da1 Db1), (dmul_val E F a2 b2 ea2 fa2 eb2 fb2 Da2 Db2), (dmul_val E F a3 b3 ea3 fa3 eb3 fb3 Da3 Db3).
  cbn [snd]. rewrite <- !Z.sub_add_distr.
  pose proof (dot4_unfold E F ea0 fa0 ea1 fa1 ea2 fa2 ea3 fa3 eb0 fb0 eb1 fb1 eb2 fb2 eb3 fb3 HE Oa0 Oa1 Oa2 Oa3 Ob0 Ob1 Ob2 Ob3) as CS. cbv beta zeta in CS.
  rewrite <- Ea0, <- Ea1, <- Ea2, <- Ea3, <- Eb0, <- Eb1, <- Eb2, <- Eb3 in CS.
  remember (dot4_pos_rndd E F a0 a1 a2 a3 b0 b1 b2 b3) as r0 eqn:Er0. clear Er0 Ea0 Ea1 Ea2 Ea3 Eb0 Eb1 Eb2 Eb3 Da0 Da1 Da2 Da3 Db0 Db1 Db2 Db3 Pa0 Pa1 Pa2 Pa3 Pb0 Pb1 Pb2 Pb3 Wa0 Wa1 Wa2 Wa3 Wb0 Wb1 Wb2 Wb3.
  destruct Oa0 as (_ & _ & _ & A1 & A2), Oa1 as (_ & _ & _ & A3 & A4), Oa2 as (_ & _ & _ & A5 & A6), Oa3 as (_ & _ & _ & A7 & A8).
  destruct Ob0 as (_ & _ & _ & B1 & B2), Ob1 as (_ & _ & _ & B3 & B4), Ob2 as (_ & _ & _ & B5 & B6), Ob3 as (_ & _ & _ & B7 & B8).
  pose proof (prod_bound F fa0 fb0 ltac:(lia) A2 B2) as Q0. pose proof (prod_bound F fa1 fb1 ltac:(lia) A4 B4) as Q1.
  pose proof (prod_bound F fa2 fb2 ltac:(lia) A6 B6) as Q2. pose proof (prod_bound F fa3 fb3 ltac:(lia) A8 B8) as Q3.
  assert (E1 : 2 ^ (E + 1) = 2 * 2 ^ E) by (apply pow2_S; lia).
  assert (Y0 : 0 <= ea0 + eb0 < 2 ^ (E + 1) - 1) by (clear - A1 B1 E1; lia). assert (Y1 : 0 <= ea1 + eb1 < 2 ^ (E + 1) - 1) by (clear - A3 B3 E1; lia).
  assert (Y2 : 0 <= ea2 + eb2 < 2 ^ (E + 1) - 1) by (clear - A5 B5 E1; lia). assert (Y3 : 0 <= ea3 + eb3 < 2 ^ (E + 1) - 1) by (clear - A7 B7 E1; lia).
  clear A1 A2 A3 A4 A5 A6 A7 A8 B1 B2 B3 B4 B5 B6 B7 B8 E1.
  remember ((2 ^ F + fa0) * (2 ^ F + fb0)) as p0 eqn:K0. remember ((2 ^ F + fa1) * (2 ^ F + fb1)) as p1 eqn:K1.
  remember ((2 ^ F + fa2) * (2 ^ F + fb2)) as p2 eqn:K2. remember ((2 ^ F + fa3) * (2 ^ F + fb3)) as p3 eqn:K3. clear K0 K1 K2 K3.
  remember (ea0 + eb0) as X0 eqn:K0. remember (ea1 + eb1) as X1 eqn:K1. remember (ea2 + eb2) as X2 eqn:K2. remember (ea3 + eb3) as X3 eqn:K3. clear K0 K1 K2 K3.
  remember (- 2 * bias E - 2 * F) as K eqn:EK. replace (2 * bias E + 2 * F) with (- K) by lia.
  destruct (dadd_scale p0 (X0 - - K) p1 (X1 - - K) K ltac:(lia) ltac:(lia)) as (m01 & e01 & -> & De01 & Dm01).
  destruct (dadd_scale p2 (X2 - - K) p3 (X3 - - K) K ltac:(lia) ltac:(lia)) as (m23 & e23 & -> & De23 & Dm23).
  destruct (dadd_scale m01 e01 m23 e23 K ltac:(lia) ltac:(lia)) as (m & e & -> & De & Dm).
  rewrite Dm01, Dm23 in Dm. replace (X0 - - K - K) with X0 in Dm by lia. replace (X1 - - K - K) with X1 in Dm by lia. replace (X2 - - K - K) with X2 in Dm by lia. replace (X3 - - K - K) with X3 in Dm by lia.
  subst K.
  destruct (dot4_products E F p0 X0 p1 X1 p2 X2 p3 X3 m e r0 HE HF Q0 Q1 Q2 Q3 Y0 Y1 Y2 Y3 ltac:(lia) Dm CS) as (r & V & k & R1 & R2 & R3 & R4 & R5 & R6 & R7).
  exists r. split; [exact R1|]. split; [exact R2|].
  assert (EE : 2 ^ E = 2 * 2 ^ (E - 1)) by (rewrite <- pow2_S by lia; f_equal; lia).
  assert (CX : (X0 < 2 ^ E + (2 ^ (E - 1) - 1) /\ X1 < 2 ^ E + (2 ^ (E - 1) - 1) /\ X2 < 2 ^ E + (2 ^ (E - 1) - 1) /\ X3 < 2 ^ E + (2 ^ (E - 1) - 1)) \/
    (2 ^ E + (2 ^ (E - 1) - 1) <= X0 \/ 2 ^ E + (2 ^ (E - 1) - 1) <= X1 \/ 2 ^ E + (2 ^ (E - 1) - 1) <= X2 \/ 2 ^ E + (2 ^ (E - 1) - 1) <= X3)) by (clear; lia).
  destruct CX as [CX|CX].
  - apply R7. unfold far_count. cbv zeta. replace (4 * F - 1 <? _ - X0) with false by lia. replace (4 * F - 1 <? _ - X1) with false by lia. replace (4 * F - 1 <? _ - X2) with false by lia. replace (4 * F - 1 <? _ - X3) with false by lia. discriminate.
  - destruct (dot4_products_over E F p0 X0 p1 X1 p2 X2 p3 X3 m e r0 HE HF Q0 Q1 Q2 Q3 Y0 Y1 Y2 Y3 ltac:(lia) Dm CS CX) as ((r' & R & D) & S). rewrite R1 in R. injection R as <-. rewrite D, S. reflexivity.
Qed.
