From Coq Require Import ZArith Bool Lia.
From Verif Require Import Fw FwLemmas Spec SpecLemmas SpecDot Flopoco FlopocoLemmas CompareProofs Dot DotProofs DotProofs2 DotProofs3 DotProofs4.
Open Scope Z_scope.

Lemma exact4 E F p0 X0 p1 X1 p2 X2 p3 X3 K : 0 <= F -> 0 < p0 -> 0 < p1 -> 0 < p2 -> 0 < p3 -> 0 <= X0 -> 0 <= X1 -> 0 <= X2 -> 0 <= X3 ->
  rndd E F (dadd (dadd (p0, X0 + K) (p1, X1 + K)) (dadd (p2, X2 + K) (p3, X3 + K))) =
  rndd E F (p0 * 2 ^ X0 + p1 * 2 ^ X1 + (p2 * 2 ^ X2 + p3 * 2 ^ X3), K).
Proof.
  intros HF P0 P1 P2 P3 H0 H1 H2 H3.
  destruct (dadd_scale p0 (X0 + K) p1 (X1 + K) K ltac:(lia) ltac:(lia)) as (m01 & e01 & -> & De01 & Dm01).
  destruct (dadd_scale p2 (X2 + K) p3 (X3 + K) K ltac:(lia) ltac:(lia)) as (m23 & e23 & -> & De23 & Dm23).
  destruct (dadd_scale m01 e01 m23 e23 K ltac:(lia) ltac:(lia)) as (m & e & -> & De & Dm).
  rewrite Dm01, Dm23 in Dm. rewrite !Z.add_simpl_r in Dm. rewrite <- Dm.
  assert (Pe : 0 < 2 ^ (e - K)) by (apply pow2_pos; lia).
  assert (PN : 0 < m * 2 ^ (e - K)).
  { rewrite Dm. assert (0 < p0 * 2 ^ X0) by (apply Z.mul_pos_pos; [lia|apply pow2_pos; lia]). assert (0 < p1 * 2 ^ X1) by (apply Z.mul_pos_pos; [lia|apply pow2_pos; lia]).
    assert (0 < p2 * 2 ^ X2) by (apply Z.mul_pos_pos; [lia|apply pow2_pos; lia]). assert (0 < p3 * 2 ^ X3) by (apply Z.mul_pos_pos; [lia|apply pow2_pos; lia]). lia. }
  rewrite rndd_scale by (try lia; nia). f_equal. f_equal. lia.
Qed.


Lemma lost_carry E F X G p0 : 1 <= E -> 4 <= F -> 6 * F <= X -> bias E <= X < 2 ^ E -> 2 ^ F < G < 2 * 2 ^ F -> p0 = G * 2 ^ F - 1 ->
  let p1 := 2 * 2 ^ (2 * F) - 2 in let P := 4 * F - 1 in let K := - 2 * bias E - 2 * F in
  rndd E F (p0 * 2 ^ P + 2 ^ (2 * F) * 2 ^ P * 2 ^ (X - 6 * F) / 2 ^ X + p1 * 2 ^ P * 2 ^ (X - 4 * F - 1) / 2 ^ X + p1 * 2 ^ P * 2 ^ (X - 2 * F - 1) / 2 ^ X, X - 2 * bias E - 2 * F - P)
    = Num false (G - 1) (X - 2 * bias E - F) /\
  rndd E F (p0 * 2 ^ X + p1 * 2 ^ (X - 2 * F - 1) + (p1 * 2 ^ (X - 4 * F - 1) + 2 ^ (2 * F) * 2 ^ (X - 6 * F)), K) = Num false G (X - 2 * bias E - F).
Proof.
  intros HE HF HX HB HG H0 p1 P K.
  assert (EE : 2 ^ E = 2 * 2 ^ (E - 1)) by (rewrite <- pow2_S by lia; f_equal; lia).
  assert (PE : 0 < 2 ^ (E - 1)) by (apply pow2_pos; lia).
  assert (FIN : forall g, 2 ^ F <= g < 2 * 2 ^ F -> finish (emin E) (emax E) F false (g, X - 2 * bias E - F) = Num false g (X - 2 * bias E - F)).
  { intros g Hg. unfold finish. replace (X - 2 * bias E - F + F) with (X - 2 * bias E) by lia. destruct (Z.ltb_spec (X - 2 * bias E) (emin E)); [unfold emin, emax, bias in *; lia|]. destruct (Z.ltb_spec (emax E) (X - 2 * bias E)); [unfold emin, emax, bias in *; lia|]. reflexivity. }
  assert (PT : 0 < 2 ^ F) by (apply pow2_pos; lia). assert (PP : 0 < 2 ^ P) by (apply pow2_pos; unfold P; lia).
  assert (P2F : 2 ^ (2 * F) = 2 ^ F * 2 ^ F) by (rewrite <- pow2_add by lia; f_equal; lia).
  assert (P2F1 : 2 ^ (2 * F + 1) = 2 * (2 ^ F * 2 ^ F)) by (rewrite pow2_S, P2F by lia; reflexivity).
  split.
  - replace (X - 6 * F) with (X - (6 * F)) by lia. replace (X - 4 * F - 1) with (X - (4 * F + 1)) by lia. replace (X - 2 * F - 1) with (X - (2 * F + 1)) by lia.
    rewrite <- !shift_div by (unfold P; lia).
    replace (X - (X - (6 * F))) with (6 * F) by lia. replace (X - (X - (4 * F + 1))) with (4 * F + 1) by lia. replace (X - (X - (2 * F + 1))) with (2 * F + 1) by lia.
    assert (Z1 : 2 ^ (2 * F) * 2 ^ P / 2 ^ (6 * F) = 0).
    { rewrite <- pow2_add by (unfold P; lia). apply Z.div_small. split; [apply Z.lt_le_incl, pow2_pos; unfold P; lia|apply Z.pow_lt_mono_r; unfold P; lia]. }
    assert (Q : 2 ^ (2 * F) = 2 * 2 ^ (2 * F - 1)) by (rewrite <- pow2_S by lia; f_equal; lia).
    assert (Z2 : p1 * 2 ^ P / 2 ^ (4 * F + 1) = 2 ^ (2 * F - 1) - 1).
    { replace (4 * F + 1) with (2 + P) by (unfold P; lia). rewrite (pow2_add 2 P) by (unfold P; lia). rewrite Z.div_mul_cancel_r by lia. change (2 ^ 2) with 4. unfold p1. rewrite Q.
      replace (2 * (2 * 2 ^ (2 * F - 1)) - 2) with (2 + (2 ^ (2 * F - 1) - 1) * 4) by ring. rewrite Z.div_add by lia. reflexivity. }
    assert (Z3 : p1 * 2 ^ P / 2 ^ (2 * F + 1) = 2 ^ P - 2 ^ (2 * F - 1)).
    { replace (2 ^ P) with (2 ^ (2 * F - 2) * 2 ^ (2 * F + 1)) by (rewrite <- pow2_add by lia; f_equal; unfold P; lia). rewrite Z.mul_assoc, Z.div_mul by (apply Z.pow_nonzero; lia).
      unfold p1. assert (R : 2 ^ (2 * F - 1) = 2 * 2 ^ (2 * F - 2)) by (rewrite <- pow2_S by lia; f_equal; lia). rewrite pow2_S by lia. rewrite R. ring. }
    rewrite Z1, Z2, Z3. remember (2 ^ (2 * F - 1)) as u eqn:Eu. clear Eu.
    replace (p0 * 2 ^ P + 0 + (u - 1) + (2 ^ P - u)) with ((G * 2 ^ F) * 2 ^ P - 1) by (rewrite H0; ring).
    assert (PC : 2 ^ (2 * F + P) = 2 ^ F * 2 ^ F * 2 ^ P) by (rewrite pow2_add, P2F by (unfold P; lia); reflexivity).
    assert (B0 : 2 ^ F * 2 ^ P <= (G - 2 ^ F) * (2 ^ F * 2 ^ P)) by (clear - HG PT PP; nia).
    assert (B1 : G * (2 ^ F * 2 ^ P) < (2 * 2 ^ F) * (2 ^ F * 2 ^ P)) by (apply Z.mul_lt_mono_pos_r; [apply Z.mul_pos_pos|]; lia).
    assert (B2 : 0 < 2 ^ F * 2 ^ P) by (apply Z.mul_pos_pos; lia).
    unfold rndd. rewrite (trunc_char _ _ F false _ _ (2 * F + P)).
    2: unfold P; lia.
    2: { rewrite pow2_S, PC by (unfold P; lia). clear - B0 B1 B2 PT PP. lia. }
    replace (2 * F + P - F) with (F + P) by lia. rewrite pow2_add by (unfold P; lia).
    replace (G * 2 ^ F * 2 ^ P - 1) with (2 ^ F * 2 ^ P - 1 + (G - 1) * (2 ^ F * 2 ^ P)) by ring. rewrite Z.div_add by lia. rewrite Z.div_small by lia.
    replace (F + P + (X - 2 * bias E - 2 * F - P)) with (X - 2 * bias E - F) by lia. rewrite Z.add_0_l. apply FIN. lia.
  - assert (N1 : p0 * 2 ^ X + p1 * 2 ^ (X - 2 * F - 1) + (p1 * 2 ^ (X - 4 * F - 1) + 2 ^ (2 * F) * 2 ^ (X - 6 * F)) = G * 2 ^ F * 2 ^ X).
    { unfold p1. remember (2 ^ (X - 6 * F)) as y eqn:Ey.
      assert (X1 : 2 ^ (X - 4 * F) = 2 ^ (2 * F) * y) by (subst y; rewrite <- pow2_add by lia; f_equal; lia).
      assert (X2 : 2 * 2 ^ (X - 4 * F - 1) = 2 ^ (X - 4 * F)) by (rewrite <- pow2_S by lia; f_equal; lia).
      assert (X3 : 2 ^ (X - 2 * F) = 2 ^ (2 * F) * 2 ^ (X - 4 * F)) by (rewrite <- pow2_add by lia; f_equal; lia).
      assert (X4 : 2 * 2 ^ (X - 2 * F - 1) = 2 ^ (X - 2 * F)) by (rewrite <- pow2_S by lia; f_equal; lia).
      assert (X5 : 2 ^ X = 2 ^ (2 * F) * 2 ^ (X - 2 * F)) by (rewrite <- pow2_add by lia; f_equal; lia).
      replace ((2 * 2 ^ (2 * F) - 2) * 2 ^ (X - 2 * F - 1)) with (2 ^ (2 * F) * (2 * 2 ^ (X - 2 * F - 1)) - 2 * 2 ^ (X - 2 * F - 1)) by ring.
      replace ((2 * 2 ^ (2 * F) - 2) * 2 ^ (X - 4 * F - 1)) with (2 ^ (2 * F) * (2 * 2 ^ (X - 4 * F - 1)) - 2 * 2 ^ (X - 4 * F - 1)) by ring.
      rewrite X4, X2, <- X1, <- X3, <- X5, H0. ring. }
    rewrite N1. assert (GP : 0 < G * 2 ^ F) by (apply Z.mul_pos_pos; lia). rewrite rndd_scale by lia.
    unfold rndd. rewrite (trunc_char _ _ F false _ _ (2 * F)).
    2: lia.
    2: { rewrite P2F1, P2F. clear - HG PT. split; [apply Z.mul_le_mono_nonneg_r; lia|]. rewrite Z.mul_assoc. apply Z.mul_lt_mono_pos_r; lia. }
    replace (2 * F - F) with F by lia. rewrite Z.div_mul by lia. unfold K. replace (F + (- 2 * bias E - 2 * F + X)) with (X - 2 * bias E - F) by lia. apply FIN. lia.
Qed.

(** Where carries are lost: x1 and x2 are 1.11...1 and continue each other, x3 makes the carry. *)
Theorem dot4_loses_carry E F : E <= 30 -> 4 <= F -> 6 * F < 2 ^ E ->
  exists a0 a1 a2 a3 b0 b1 b2 b3, let d := decode E F in
    (wf (E + F + 3) a0 /\ wf (E + F + 3) a1 /\ wf (E + F + 3) a2 /\ wf (E + F + 3) a3 /\
     wf (E + F + 3) b0 /\ wf (E + F + 3) b1 /\ wf (E + F + 3) b2 /\ wf (E + F + 3) b3) /\
    (pos_normal (d a0) /\ pos_normal (d a1) /\ pos_normal (d a2) /\ pos_normal (d a3) /\
     pos_normal (d b0) /\ pos_normal (d b1) /\ pos_normal (d b2) /\ pos_normal (d b3)) /\
    exists r m e, dot4_pos_rndd E F a0 a1 a2 a3 b0 b1 b2 b3 = Some r /\
      dot4_spec E F (d a0) (d a1) (d a2) (d a3) (d b0) (d b1) (d b2) (d b3) = Num false m e /\
      d r = Num false (m - 1) e.
Proof.
  intros HE HF HR.
  assert (HE1 : 1 <= E).
  { destruct (Z_le_gt_dec 1 E) as [L|L]; [exact L|]. assert (2 ^ E <= 2 ^ 0) by (apply Z.pow_le_mono_r; lia). change (2 ^ 0) with 1 in *. lia. }
  assert (EE : 2 ^ E = 2 * 2 ^ (E - 1)) by (rewrite <- pow2_S by lia; f_equal; lia).
  assert (PE : 0 < 2 ^ (E - 1)) by (apply pow2_pos; lia).
  remember (Z.max (6 * F) (bias E)) as X eqn:EX. assert (HX : 6 * F <= X /\ bias E <= X < 2 ^ E) by (unfold bias in *; lia). clear EX.
  remember ((F + 1) / 2) as h eqn:Eh. assert (Hh : F <= 2 * h <= F + 1).
  { subst h. pose proof (div_mod_eq (F + 1) 2 ltac:(lia)). pose proof (Z.mod_pos_bound (F + 1) 2 ltac:(lia)). lia. } clear Eh.
  remember (2 ^ F) as T eqn:ET. remember (2 ^ h) as H eqn:EH.
  assert (HH : H * H = T * 2 ^ (2 * h - F)) by (subst; rewrite <- !pow2_add by lia; f_equal; lia).
  assert (H4 : 4 <= H) by (subst; change 4 with (2 ^ 2); apply Z.pow_le_mono_r; lia).
  assert (TH : 4 * H <= T).
  { subst. change 4 with (2 ^ 2). rewrite <- pow2_add by lia. apply Z.pow_le_mono_r; lia. }
  assert (P2F : 2 ^ (2 * F) = T * T) by (subst T; rewrite <- pow2_add by lia; f_equal; lia).
  assert (P2F2 : 2 ^ (2 * F + 2) = 4 * (T * T)) by (rewrite pow2_add, P2F by lia; change (2 ^ 2) with 4; ring).
  assert (PG : 0 < 2 ^ (2 * h - F) <= 2).
  { split; [apply pow2_pos; lia|]. apply (Z.le_trans _ (2 ^ 1)); [apply Z.pow_le_mono_r; lia|lia]. }
  remember (T + 2 * H + 2 ^ (2 * h - F)) as G eqn:EG.
  assert (K0 : (T + (H - 1)) * (T + (H + 1)) = G * T - 1).
  { rewrite EG. rewrite (Z.mul_add_distr_r (T + 2 * H)), (Z.mul_comm _ T), (Z.mul_comm _ T), <- HH. ring. }
  assert (HG : T < G < 2 * T) by lia.
  assert (O : forall e f, 0 <= e < 2 ^ E -> 0 <= f < T -> okf E F 1 e f) by (intros e f A B; unfold okf; rewrite <- ET; lia).
  assert (U : forall e f, okf E F 1 e f -> wf (E + F + 3) (pack E F 1 false e f) /\ decode E F (pack E F 1 false e f) = Num false (T + f) (e - bias E - F)).
  { intros e f A. split; [apply pack_wf; exact A|]. rewrite decode_pack by exact A. cbn. rewrite ET. reflexivity. }
  assert (Oa0 : okf E F 1 X (H - 1)) by (apply O; lia). assert (Ob0 : okf E F 1 0 (H + 1)) by (apply O; lia).
  assert (Oa1 : okf E F 1 (X - 2 * F - 1) (T - 2)) by (apply O; lia). assert (Ob1 : okf E F 1 0 1) by (apply O; lia).
  assert (Oa2 : okf E F 1 (X - 4 * F - 1) (T - 2)) by (apply O; lia).
  assert (Oa3 : okf E F 1 (X - 6 * F) 0) by (apply O; lia). assert (Ob3 : okf E F 1 0 0) by (apply O; lia).
  exists (pack E F 1 false X (H - 1)), (pack E F 1 false (X - 2 * F - 1) (T - 2)), (pack E F 1 false (X - 4 * F - 1) (T - 2)), (pack E F 1 false (X - 6 * F) 0),
    (pack E F 1 false 0 (H + 1)), (pack E F 1 false 0 1), (pack E F 1 false 0 1), (pack E F 1 false 0 0). cbv zeta.
  destruct (U _ _ Oa0) as [Wa0 Da0], (U _ _ Oa1) as [Wa1 Da1], (U _ _ Oa2) as [Wa2 Da2], (U _ _ Oa3) as [Wa3 Da3], (U _ _ Ob0) as [Wb0 Db0], (U _ _ Ob1) as [Wb1 Db1], (U _ _ Ob3) as [Wb3 Db3].
  split; [repeat (split; [assumption|]); assumption|].
  rewrite Da0, Da1, Da2, Da3, Db0, Db1, Db3.
  split; [repeat (split; [eexists; eexists; reflexivity|]); eexists; eexists; reflexivity|].
  pose proof (dot4_unfold E F X (H - 1) (X - 2 * F - 1) (T - 2) (X - 4 * F - 1) (T - 2) (X - 6 * F) 0 0 (H + 1) 0 1 0 1 0 0 ltac:(lia) Oa0 Oa1 Oa2 Oa3 Ob0 Ob1 Ob1 Ob3) as CS. cbv beta zeta in CS.
  rewrite <- ET in CS. rewrite !Z.add_0_r in CS.
  destruct CS as [(_ & _ & _ & CS)|[C|[C|C]]]; [|lia..].
  rewrite K0 in CS. replace (T * T) with (2 ^ (2 * F)) in CS. replace ((T + (T - 2)) * (T + 1)) with (2 * 2 ^ (2 * F) - 2) in CS by (rewrite P2F; ring).
  assert (TT : 16 * T <= T * T) by (apply Z.mul_le_mono_nonneg_r; lia).
  assert (GT1 : (T + 1) * T <= G * T) by (apply Z.mul_le_mono_nonneg_r; lia).
  assert (GT2 : G * T < (2 * T) * T) by (apply Z.mul_lt_mono_pos_r; lia).
  assert (B1 : 2 ^ (2 * F) <= G * T - 1 < 2 ^ (2 * F + 2)) by (rewrite P2F, P2F2; clear - GT1 GT2 TT H4 TH; lia).
  assert (B2 : 2 ^ (2 * F) <= 2 ^ (2 * F) < 2 ^ (2 * F + 2)) by (rewrite P2F, P2F2; clear - TT H4 TH; lia).
  assert (B3 : 2 ^ (2 * F) <= 2 * 2 ^ (2 * F) - 2 < 2 ^ (2 * F + 2)) by (rewrite P2F, P2F2; clear - TT H4 TH; lia).
  assert (PF : 16 <= 2 ^ (2 * F)) by (rewrite P2F; clear - TT H4 TH; lia).
  destruct (lost_carry E F X G (G * T - 1) HE1 HF ltac:(lia) ltac:(lia) ltac:(lia) ltac:(lia)) as [L1 L2].
  destruct (dot4_tail_ok E F (G * T - 1) X (2 ^ (2 * F)) (X - 6 * F) (2 * 2 ^ (2 * F) - 2) (X - 4 * F - 1) (2 * 2 ^ (2 * F) - 2) (X - 2 * F - 1) _ ltac:(lia) ltac:(lia) B1 B2 B3 B3 ltac:(lia) ltac:(lia) ltac:(lia)
    ltac:(rewrite pow2_S by lia; lia) eq_refl) as (r & R1 & R2 & R3).
  exists r, G, (X - 2 * bias E - F). split; [rewrite CS; exact R1|]. split; [|rewrite R3; exact L1].
  rewrite <- L2. unfold dot4_spec, dot4_exact, dmul. rewrite K0.
  replace ((T + (T - 2)) * (T + 1)) with (2 * 2 ^ (2 * F) - 2) by (rewrite P2F; ring). replace ((T + 0) * (T + 0)) with (2 ^ (2 * F)) by (rewrite P2F; ring).
  remember (- 2 * bias E - 2 * F) as K eqn:EK.
  replace (X - bias E - F + (0 - bias E - F)) with (X + K) by lia. replace (X - 2 * F - 1 - bias E - F + (0 - bias E - F)) with (X - 2 * F - 1 + K) by lia.
  replace (X - 4 * F - 1 - bias E - F + (0 - bias E - F)) with (X - 4 * F - 1 + K) by lia. replace (X - 6 * F - bias E - F + (0 - bias E - F)) with (X - 6 * F + K) by lia.
  clear - HF HX B1 B2 B3 PF. apply exact4; lia.
Qed.

(** The input assertions. *)
Lemma dot_check_cases E F x : 1 <= E -> 1 <= F -> wf (E + F + 3) x ->
  (pos_normal (decode E F x) /\ dot_check E F x = Some tt) \/ (~ pos_normal (decode E F x) /\ dot_check E F x = None).
Proof.
  intros HE HF Hx. destruct (pack_view E F x HE HF Hx) as (a & s & e & f & H & ->). rewrite decode_pack by exact H.
  unfold dot_check, is_positive, is_normal. rewrite get_sign_pack, get_flags_pack by exact H.
  pose proof H as (_ & _ & Ha & _). apply flags_cases in Ha.
  destruct Ha as [->|[->|[->| ->]]], s; (left; split; [eexists; eexists; reflexivity|reflexivity]) || (right; split; [intros (m & k & D); discriminate|reflexivity]).
Qed.

Theorem dot2_rejects E F a0 a1 b0 b1 : 1 <= E -> 1 <= F ->
  wf (E + F + 3) a0 -> wf (E + F + 3) a1 -> wf (E + F + 3) b0 -> wf (E + F + 3) b1 ->
  let n x := pos_normal (decode E F x) in ~ (n a0 /\ n a1 /\ n b0 /\ n b1) -> dot2_pos_rndd E F a0 a1 b0 b1 = None.
Proof.
  intros HE HF Wa0 Wa1 Wb0 Wb1 n H. unfold n in H. unfold dot2_pos_rndd.
  destruct (dot_check_cases E F a0 HE HF Wa0) as [[A ->]|[A ->]]; [cbn [bind]|reflexivity].
  destruct (dot_check_cases E F a1 HE HF Wa1) as [[A1 ->]|[A1 ->]]; [cbn [bind]|reflexivity].
  destruct (dot_check_cases E F b0 HE HF Wb0) as [[A2 ->]|[A2 ->]]; [cbn [bind]|reflexivity].
  destruct (dot_check_cases E F b1 HE HF Wb1) as [[A3 ->]|[A3 ->]]; [|reflexivity]. exfalso. tauto.
Qed.

Theorem dot4_rejects E F a0 a1 a2 a3 b0 b1 b2 b3 : 1 <= E -> 1 <= F ->
  wf (E + F + 3) a0 -> wf (E + F + 3) a1 -> wf (E + F + 3) a2 -> wf (E + F + 3) a3 ->
  wf (E + F + 3) b0 -> wf (E + F + 3) b1 -> wf (E + F + 3) b2 -> wf (E + F + 3) b3 ->
  let n x := pos_normal (decode E F x) in
  ~ (n a0 /\ n a1 /\ n a2 /\ n a3 /\ n b0 /\ n b1 /\ n b2 /\ n b3) -> dot4_pos_rndd E F a0 a1 a2 a3 b0 b1 b2 b3 = None.
Proof.
  intros HE HF Wa0 Wa1 Wa2 Wa3 Wb0 Wb1 Wb2 Wb3 n H. unfold n in H. unfold dot4_pos_rndd.
  destruct (dot_check_cases E F a0 HE HF Wa0) as [[A ->]|[A ->]]; [cbn [bind]|reflexivity].
  destruct (dot_check_cases E F a1 HE HF Wa1) as [[A1 ->]|[A1 ->]]; [cbn [bind]|reflexivity].
  destruct (dot_check_cases E F a2 HE HF Wa2) as [[A2 ->]|[A2 ->]]; [cbn [bind]|reflexivity].
  destruct (dot_check_cases E F a3 HE HF Wa3) as [[A3 ->]|[A3 ->]]; [cbn [bind]|reflexivity].
  destruct (dot_check_cases E F b0 HE HF Wb0) as [[B ->]|[B ->]]; [cbn [bind]|reflexivity].
  destruct (dot_check_cases E F b1 HE HF Wb1) as [[B1 ->]|[B1 ->]]; [cbn [bind]|reflexivity].
  destruct (dot_check_cases E F b2 HE HF Wb2) as [[B2 ->]|[B2 ->]]; [cbn [bind]|reflexivity].
  destruct (dot_check_cases E F b3 HE HF Wb3) as [[B3 ->]|[B3 ->]]; [|reflexivity]. exfalso. tauto.
Qed.
