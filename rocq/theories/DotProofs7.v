(** Every format with room for two products 4F bits below the largest has sums that dot4 rounds wrongly. *)
From Coq Require Import ZArith Bool List Lia.
Import ListNotations.
From Verif Require Import Fw FwLemmas Spec SpecLemmas SpecDot Flopoco FlopocoLemmas CompareProofs Dot DotProofs DotProofs2 DotProofs3 DotProofs4 DotProofs5 DotProofs6.
Open Scope Z_scope.

Lemma rndd_exact E F G s k : 1 <= F -> 0 <= s -> 2 ^ F < G < 2 * 2 ^ F -> emin E <= s + k + F <= emax E -> rndd E F (G * 2 ^ s, k) = Num false G (s + k).
Proof.
  intros HF Hs HG HR. assert (PF : 0 < 2 ^ F) by (apply pow2_pos; lia). rewrite rndd_scale by lia. unfold rndd.
  rewrite (trunc_char _ _ F false _ _ F) by (try rewrite pow2_S by lia; lia). rewrite Z.sub_diag, Z.pow_0_r, Z.div_1_r, Z.add_0_l. unfold finish.
  destruct (Z.ltb_spec (k + s + F) (emin E)); [lia|]. destruct (Z.ltb_spec (emax E) (k + s + F)); [lia|]. f_equal. lia.
Qed.

Lemma rndd_below E F G s k : 1 <= F -> 0 <= s -> 2 ^ F < G < 2 * 2 ^ F -> emin E <= s + k + F <= emax E -> rndd E F (G * 2 ^ s - 1, k) = Num false (G - 1) (s + k).
Proof.
  intros HF Hs HG HR. assert (PF : 0 < 2 ^ F) by (apply pow2_pos; lia). assert (PS : 0 < 2 ^ s) by (apply pow2_pos; lia). unfold rndd.
  rewrite (trunc_char _ _ F false _ _ (F + s)).
  2: lia.
  2: { rewrite pow2_S, pow2_add by lia. split; nia. }
  replace (F + s - F) with s by lia. replace (G * 2 ^ s - 1) with (2 ^ s - 1 + (G - 1) * 2 ^ s) by ring. rewrite Z.div_add, Z.div_small by lia. rewrite Z.add_0_l. unfold finish.
  destruct (Z.ltb_spec (s + k + F) (emin E)); [lia|]. destruct (Z.ltb_spec (emax E) (s + k + F)); [lia|]. reflexivity.
Qed.

Lemma dot4_gap E F X D d1 d2 d3 fa0 fb0 fa1 fb1 fa2 fb2 fa3 fb3 G s :
  let T := 2 ^ F in let P := 4 * F - 1 in
  let p0 := (T + fa0) * (T + fb0) in let p1 := (T + fa1) * (T + fb1) in let p2 := (T + fa2) * (T + fb2) in let p3 := (T + fa3) * (T + fb3) in
  1 <= E <= 30 -> 1 <= F -> bias E <= X < 2 ^ E + bias E -> 0 <= D <= X -> 0 < d1 <= D -> 0 < d2 <= D -> 0 < d3 <= D ->
  X - d1 < 2 ^ E -> X - d2 < 2 ^ E -> X - d3 < 2 ^ E -> P <= s -> s - P - F + X < 2 ^ E + bias E -> 0 <= s - P - F ->
  0 <= fa0 < T -> 0 <= fb0 < T -> 0 <= fa1 < T -> 0 <= fb1 < T -> 0 <= fa2 < T -> 0 <= fb2 < T -> 0 <= fa3 < T -> 0 <= fb3 < T ->
  T < G < 2 * T ->
  p0 * 2 ^ P + p3 * 2 ^ P / 2 ^ d3 + p2 * 2 ^ P / 2 ^ d2 + p1 * 2 ^ P / 2 ^ d1 = G * 2 ^ s - 1 ->
  p0 * 2 ^ D + p1 * 2 ^ (D - d1) + (p2 * 2 ^ (D - d2) + p3 * 2 ^ (D - d3)) = G * 2 ^ (s - P + D) ->
  exists a0 a1 a2 a3 b0 b1 b2 b3, let d := decode E F in
    (wf (E + F + 3) a0 /\ wf (E + F + 3) a1 /\ wf (E + F + 3) a2 /\ wf (E + F + 3) a3 /\
     wf (E + F + 3) b0 /\ wf (E + F + 3) b1 /\ wf (E + F + 3) b2 /\ wf (E + F + 3) b3) /\
    (pos_normal (d a0) /\ pos_normal (d a1) /\ pos_normal (d a2) /\ pos_normal (d a3) /\
     pos_normal (d b0) /\ pos_normal (d b1) /\ pos_normal (d b2) /\ pos_normal (d b3)) /\
    exists r m e, dot4_pos_rndd E F a0 a1 a2 a3 b0 b1 b2 b3 = Some r /\
      dot4_spec E F (d a0) (d a1) (d a2) (d a3) (d b0) (d b1) (d b2) (d b3) = Num false m e /\
      d r = Num false (m - 1) e.
Proof.
  intros T P p0 p1 p2 p3 HE HF HX HD H1 H2 H3 Y1 Y2 Y3 Hs HO HU A0 B0 A1 B1 A2 B2 A3 B3 HG HW HN.
  assert (EE : 2 ^ E = 2 * 2 ^ (E - 1)) by (rewrite <- pow2_S by lia; f_equal; lia).
  assert (EE1 : 2 ^ (E + 1) = 2 * 2 ^ E) by (rewrite pow2_S by lia; reflexivity).
  assert (PE : 0 < 2 ^ (E - 1)) by (apply pow2_pos; lia). assert (PT : 0 < T) by (apply pow2_pos; lia).
  assert (HB : 0 <= bias E) by (unfold bias; lia). assert (EB : bias E < 2 ^ E) by (unfold bias; lia).
  remember (Z.min X (2 ^ E - 1)) as e0 eqn:E0. assert (He0 : 0 <= e0 < 2 ^ E /\ 0 <= X - e0 < 2 ^ E) by lia. clear E0.
  assert (O : forall e f, 0 <= e < 2 ^ E -> 0 <= f < T -> okf E F 1 e f) by (intros e f ? ?; unfold okf; fold T; lia).
  assert (U : forall e f, okf E F 1 e f -> wf (E + F + 3) (pack E F 1 false e f) /\ decode E F (pack E F 1 false e f) = Num false (T + f) (e - bias E - F)).
  { intros e f A. split; [apply pack_wf; exact A|]. rewrite decode_pack by exact A. reflexivity. }
  assert (Oa0 : okf E F 1 e0 fa0) by (apply O; lia). assert (Ob0 : okf E F 1 (X - e0) fb0) by (apply O; lia).
  assert (Oa1 : okf E F 1 (X - d1) fa1) by (apply O; lia). assert (Ob1 : okf E F 1 0 fb1) by (apply O; lia).
  assert (Oa2 : okf E F 1 (X - d2) fa2) by (apply O; lia). assert (Ob2 : okf E F 1 0 fb2) by (apply O; lia).
  assert (Oa3 : okf E F 1 (X - d3) fa3) by (apply O; lia). assert (Ob3 : okf E F 1 0 fb3) by (apply O; lia).
  exists (pack E F 1 false e0 fa0), (pack E F 1 false (X - d1) fa1), (pack E F 1 false (X - d2) fa2), (pack E F 1 false (X - d3) fa3),
    (pack E F 1 false (X - e0) fb0), (pack E F 1 false 0 fb1), (pack E F 1 false 0 fb2), (pack E F 1 false 0 fb3). cbv zeta.
  destruct (U _ _ Oa0) as [Wa0 Da0], (U _ _ Oa1) as [Wa1 Da1], (U _ _ Oa2) as [Wa2 Da2], (U _ _ Oa3) as [Wa3 Da3], (U _ _ Ob0) as [Wb0 Db0], (U _ _ Ob1) as [Wb1 Db1], (U _ _ Ob2) as [Wb2 Db2], (U _ _ Ob3) as [Wb3 Db3].
  split; [repeat (split; [assumption|]); assumption|].
  rewrite Da0, Da1, Da2, Da3, Db0, Db1, Db2, Db3.
  split; [repeat (split; [eexists; eexists; reflexivity|]); eexists; eexists; reflexivity|].
  pose proof (dot4_unfold E F e0 fa0 (X - d1) fa1 (X - d2) fa2 (X - d3) fa3 (X - e0) fb0 0 fb1 0 fb2 0 fb3 HE Oa0 Oa1 Oa2 Oa3 Ob0 Ob1 Ob2 Ob3) as CS. cbv beta zeta in CS.
  fold T in CS. rewrite !Z.add_0_r in CS. replace (e0 + (X - e0)) with X in CS by lia.
  destruct CS as [(_ & _ & _ & CS)|[C|[C|C]]]; [|lia..]. fold p0 p1 p2 p3 in CS.
  assert (P2F : 2 ^ (2 * F) = T * T) by (unfold T; rewrite <- pow2_add by lia; f_equal; lia).
  assert (P2F2 : 2 ^ (2 * F + 2) = 4 * (T * T)) by (rewrite pow2_add, P2F by lia; change (2 ^ 2) with 4; ring).
  assert (Q : forall x y, 0 <= x < T -> 0 <= y < T -> 2 ^ (2 * F) <= (T + x) * (T + y) < 2 ^ (2 * F + 2)) by (intros x y ? ?; rewrite P2F, P2F2; clear - PT H H0; split; nia).
  pose proof (Q _ _ A0 B0) as Q0. pose proof (Q _ _ A1 B1) as Q1. pose proof (Q _ _ A2 B2) as Q2. pose proof (Q _ _ A3 B3) as Q3. fold p0 in Q0. fold p1 in Q1. fold p2 in Q2. fold p3 in Q3.
  destruct (dot4_tail_ok E F p0 X p3 (X - d3) p2 (X - d2) p1 (X - d1) _ ltac:(lia) ltac:(lia) Q0 Q3 Q2 Q1 ltac:(lia) ltac:(lia) ltac:(lia)
    ltac:(unfold bias in *; lia) eq_refl) as (r & R1 & R2 & R3).
  rewrite <- !shift_div in R3 by lia. fold P in R3. replace (X - (X - d3)) with d3 in R3 by lia. replace (X - (X - d2)) with d2 in R3 by lia. replace (X - (X - d1)) with d1 in R3 by lia. rewrite HW in R3.
  exists r, G, (s + (X - 2 * bias E - 2 * F - P)). split; [rewrite CS; exact R1|].
  unfold dot4_spec, dot4_exact, dmul. fold p0 p1 p2 p3.
  assert (EP : P = 4 * F - 1) by reflexivity. clear HW Q CS R1 U O Oa0 Ob0 Oa1 Ob1 Oa2 Ob2 Oa3 Ob3 Wa0 Wa1 Wa2 Wa3 Wb0 Wb1 Wb2 Wb3 Da0 Da1 Da2 Da3 Db0 Db1 Db2 Db3.
  assert (HG' : 2 ^ F < G < 2 * 2 ^ F) by exact HG. clearbody p0 p1 p2 p3 P T.
  assert (EX : emin E <= s + (X - 2 * bias E - 2 * F - P) + F <= emax E) by (unfold emin, emax, bias in *; lia).
  split.
  - remember (- 2 * bias E - 2 * F) as K eqn:EK.
    replace (e0 - bias E - F + (X - e0 - bias E - F)) with (X + K) by lia. replace (X - d1 - bias E - F + (0 - bias E - F)) with (X - d1 + K) by lia.
    replace (X - d2 - bias E - F + (0 - bias E - F)) with (X - d2 + K) by lia. replace (X - d3 - bias E - F + (0 - bias E - F)) with (X - d3 + K) by lia.
    assert (PF : 0 < 2 ^ (2 * F)) by (apply pow2_pos; lia).
    rewrite exact4 by (clear - HF HX HB HD H1 H2 H3 Q0 Q1 Q2 Q3 PF; lia).
    assert (SP : forall d, d <= D -> 2 ^ (X - d) = 2 ^ (D - d) * 2 ^ (X - D)) by (intros d Hd; rewrite <- pow2_add by lia; f_equal; lia).
    rewrite (SP d1), (SP d2), (SP d3) by (clear - H1 H2 H3; lia). replace (2 ^ X) with (2 ^ D * 2 ^ (X - D)) by (rewrite <- pow2_add by lia; f_equal; lia).
    replace (p0 * (2 ^ D * 2 ^ (X - D)) + p1 * (2 ^ (D - d1) * 2 ^ (X - D)) + (p2 * (2 ^ (D - d2) * 2 ^ (X - D)) + p3 * (2 ^ (D - d3) * 2 ^ (X - D))))
      with ((p0 * 2 ^ D + p1 * 2 ^ (D - d1) + (p2 * 2 ^ (D - d2) + p3 * 2 ^ (D - d3))) * 2 ^ (X - D)) by ring.
    rewrite HN, <- Z.mul_assoc, <- pow2_add by lia. rewrite rndd_exact by (try exact HG'; unfold emin, emax, bias in *; lia). f_equal. lia.
  - rewrite R3. apply rndd_below; [lia|lia|exact HG'|exact EX].
Qed.

(** 1.375^2 and its complement to 4, both 4F below 2T^2 - 7T - 9; (1.5T)^2 - 1 between them. *)
Theorem dot4_wide E F : 3 <= E <= 30 -> 1 <= F -> 4 * F <= 3 * 2 ^ (E - 1) - 2 ->
  exists a0 a1 a2 a3 b0 b1 b2 b3, let d := decode E F in
    (wf (E + F + 3) a0 /\ wf (E + F + 3) a1 /\ wf (E + F + 3) a2 /\ wf (E + F + 3) a3 /\
     wf (E + F + 3) b0 /\ wf (E + F + 3) b1 /\ wf (E + F + 3) b2 /\ wf (E + F + 3) b3) /\
    (pos_normal (d a0) /\ pos_normal (d a1) /\ pos_normal (d a2) /\ pos_normal (d a3) /\
     pos_normal (d b0) /\ pos_normal (d b1) /\ pos_normal (d b2) /\ pos_normal (d b3)) /\
    exists r m e, dot4_pos_rndd E F a0 a1 a2 a3 b0 b1 b2 b3 = Some r /\
      dot4_spec E F (d a0) (d a1) (d a2) (d a3) (d b0) (d b1) (d b2) (d b3) = Num false m e /\
      d r = Num false (m - 1) e.
Proof.
  intros HE HF HR.
  assert (EE : 2 ^ E = 2 * 2 ^ (E - 1)) by (rewrite <- pow2_S by lia; f_equal; lia).
  assert (P4 : 4 <= 2 ^ (E - 1)) by (change 4 with (2 ^ 2); apply Z.pow_le_mono_r; lia).
  assert (C : F = 1 \/ F = 2 \/ F = 3 \/ 4 <= F) by lia.
  destruct C as [->|[->|[->|HF4]]].
  - apply (dot4_gap E 1 (Z.max 5 (bias E)) 5 4 5 2 1 1 1 1 0 1 1 1 3 5); unfold bias; try (vm_compute; split; congruence); try reflexivity; try (change (2 ^ 1) with 2); lia.
  - apply (dot4_gap E 2 (Z.max 9 (bias E)) 9 8 9 3 0 0 3 3 1 2 1 2 5 9); unfold bias; try (vm_compute; split; congruence); try reflexivity; try (change (2 ^ 2) with 4); lia.
  - apply (dot4_gap E 3 (Z.max 12 (bias E)) 12 12 12 4 1 7 3 3 1 7 3 5 9 15); unfold bias; try (vm_compute; split; congruence); try reflexivity; try (change (2 ^ 3) with 8); lia.
  - remember (2 ^ (F - 3)) as Q eqn:EQ. assert (ET : 2 ^ F = 8 * Q) by (subst Q; change 8 with (2 ^ 3); rewrite <- pow2_add by lia; f_equal; lia).
    assert (HQ : 2 <= Q) by (subst Q; change 2 with (2 ^ 1) at 1; apply Z.pow_le_mono_r; lia).
    assert (EH : exists h, Q = 2 * h) by (exists (2 ^ (F - 4)); subst Q; rewrite <- pow2_S by lia; f_equal; lia). destruct EH as [h EH].
    apply (dot4_gap E F (Z.max (4 * F) (bias E)) (4 * F) (4 * F) (4 * F) (2 * F - 2) (8 * Q - 9) 1 (3 * Q + 3) (3 * Q + 3) (7 * Q - 9) (Q + 1) (4 * Q - 1) (4 * Q + 1) (16 * Q - 7) (5 * F - 1)); unfold bias; rewrite ?ET; try lia.
    + assert (S3 : 2 ^ (4 * F - 1) = 2 ^ (2 * F + 1) * 2 ^ (2 * F - 2)) by (rewrite <- pow2_add by lia; f_equal; lia).
      assert (S1 : 2 ^ (4 * F) = 2 * 2 ^ (4 * F - 1)) by (rewrite <- pow2_S by lia; f_equal; lia).
      assert (S5 : 2 ^ (5 * F - 1) = 8 * Q * 2 ^ (4 * F - 1)) by (rewrite <- ET, <- pow2_add by lia; f_equal; lia).
      assert (S2 : 2 ^ (2 * F + 1) = 2 * (8 * Q * (8 * Q))) by (rewrite pow2_S by lia; f_equal; rewrite <- ET, <- pow2_add by lia; f_equal; lia).
      assert (PP : 0 < 2 ^ (4 * F - 1)) by (apply pow2_pos; lia). assert (PD : 0 < 2 ^ (2 * F - 2)) by (apply pow2_pos; lia).
      rewrite S1. rewrite !(Z.mul_comm 2 (2 ^ (4 * F - 1))). rewrite <- !Z.div_div by lia. rewrite !Z.div_mul by lia.
      replace (2 ^ (4 * F - 1) / 2 ^ (2 * F - 2)) with (2 ^ (2 * F + 1)) by (rewrite S3, Z.div_mul by lia; reflexivity).
      rewrite S3 at 2. rewrite !Z.mul_assoc, Z.div_mul by lia. rewrite S5.
      assert (D1 : (8 * Q + (3 * Q + 3)) * (8 * Q + (3 * Q + 3)) / 2 = 242 * (h * h) + 66 * h + 4).
      { subst Q. symmetry. apply (Z.div_unique _ _ _ 1); [lia|]. rewrite EH. ring. }
      assert (D2 : (8 * Q + (7 * Q - 9)) * (8 * Q + (Q + 1)) / 2 = 270 * (h * h) - 66 * h - 5).
      { symmetry. apply (Z.div_unique _ _ _ 1); [lia|]. rewrite EH. ring. }
      assert (S4 : 2 ^ (2 * F - 2) = 4 * Q * (4 * Q)).
      { replace (4 * Q) with (2 ^ (F - 1)) by (subst Q; change 4 with (2 ^ 2); rewrite <- pow2_add by lia; f_equal; lia). rewrite <- pow2_add by lia. f_equal. lia. }
      rewrite D1, D2, S2, ?S3, ?S2, S4. clear - EH. subst Q. ring.
    + rewrite Z.sub_diag, Z.pow_0_r, !Z.mul_1_r.
      assert (S3 : 2 ^ (4 * F) = (8 * Q * (8 * Q)) * (8 * Q * (8 * Q))) by (rewrite <- !ET, <- !pow2_add by lia; f_equal; lia).
      assert (S2 : 2 ^ (4 * F - (2 * F - 2)) = 4 * (8 * Q * (8 * Q))) by (rewrite <- !ET, <- !pow2_add by lia; change 4 with (2 ^ 2); rewrite <- pow2_add by lia; f_equal; lia).
      assert (S5 : 2 ^ (5 * F - 1 - (4 * F - 1) + 4 * F) = 8 * Q * ((8 * Q * (8 * Q)) * (8 * Q * (8 * Q)))) by (rewrite <- !ET, <- !pow2_add by lia; f_equal; lia).
      rewrite S3, S2, S5. ring.
Qed.

(** <2,1>: two products can be exactly 4F below the largest, and their dropped bits never matter. *)
Lemma tiny_sum p0 p1 p2 p3 Y : In p0 [4; 6; 9] -> In p1 [4; 6; 9] -> In p2 [4; 6; 9] -> In p3 [4; 6; 9] -> In Y [0; 1; 2; 3; 4] ->
  rndd 2 1 (p0 * 8 + p1 * 8 * 1 / 16 + p2 * 8 * 1 / 16 + p3 * 8 * 2 ^ Y / 16, -3) = rndd 2 1 (p0 * 16 + p1 + p2 + p3 * 2 ^ Y, -4).
Proof.
  assert (C : forallb (fun p0 => forallb (fun p1 => forallb (fun p2 => forallb (fun p3 => forallb (fun Y =>
    match rndd 2 1 (p0 * 8 + p1 * 8 * 1 / 16 + p2 * 8 * 1 / 16 + p3 * 8 * 2 ^ Y / 16, -3), rndd 2 1 (p0 * 16 + p1 + p2 + p3 * 2 ^ Y, -4) with
    | Num false m e, Num false m' e' => (m =? m') && (e =? e') | Inf false, Inf false => true | _, _ => false end) [0; 1; 2; 3; 4]) [4; 6; 9]) [4; 6; 9]) [4; 6; 9]) [4; 6; 9] = true) by (vm_compute; reflexivity).
  intros H0 H1 H2 H3 H4. rewrite forallb_forall in C. specialize (C p0 H0). rewrite forallb_forall in C. specialize (C p1 H1). rewrite forallb_forall in C. specialize (C p2 H2).
  rewrite forallb_forall in C. specialize (C p3 H3). rewrite forallb_forall in C. specialize (C Y H4). revert C.
  destruct (rndd 2 1 (_, -3)) as [|[]|[]|[] m e], (rndd 2 1 (_, -4)) as [|[]|[]|[] m' e']; intros C; try discriminate; try reflexivity.
  apply andb_true_iff in C. f_equal; apply Z.eqb_eq; apply C.
Qed.

Lemma tiny_tail p0 p1 p2 p3 Y1 Y2 Y3 : In p0 [4; 6; 9] -> In p1 [4; 6; 9] -> In p2 [4; 6; 9] -> In p3 [4; 6; 9] -> 0 <= Y1 <= 4 -> 0 <= Y2 <= 4 -> 0 <= Y3 <= 4 ->
  (Y1 = 0 /\ Y2 = 0) \/ (Y1 = 0 /\ Y3 = 0) \/ (Y2 = 0 /\ Y3 = 0) -> forall r, dot4_tail 2 1 (2 ^ (2 - 1) - 1) p0 p1 p2 p3 4 Y1 Y2 Y3 = Some r ->
  decode 2 1 r = rndd 2 1 (p0 * 2 ^ 4 + p1 * 2 ^ Y1 + p2 * 2 ^ Y2 + p3 * 2 ^ Y3, -4).
Proof.
  intros I0 I1 I2 I3 H1 H2 H3 C r Hr.
  assert (R : forall p, In p [4; 6; 9] -> 2 ^ (2 * 1) <= p < 2 ^ (2 * 1 + 2)) by (intros p I; change (2 ^ (2 * 1)) with 4; change (2 ^ (2 * 1 + 2)) with 16; destruct I as [<-|[<-|[<-|[]]]]; lia).
  destruct (dot4_tail_ok 2 1 p0 4 p1 Y1 p2 Y2 p3 Y3 _ ltac:(lia) ltac:(lia) (R _ I0) (R _ I1) (R _ I2) (R _ I3) H1 H2 H3 ltac:(change (2 ^ (2 + 1)) with 8; lia) eq_refl) as (r' & R1 & _ & R3).
  assert (r' = r) by congruence. subst r'. rewrite R3. change (2 ^ (4 * 1 - 1)) with 8. change (2 ^ 4) with 16. change (4 - 2 * bias 2 - 2 * 1 - (4 * 1 - 1)) with (-3).
  assert (J : forall Y, 0 <= Y <= 4 -> In Y [0; 1; 2; 3; 4]) by (intros Y HY; cbn; lia).
  destruct C as [[-> ->]|[[-> ->]|[-> ->]]]; change (2 ^ 0) with 1; rewrite ?(Z.mul_1_r p1), ?(Z.mul_1_r p2), ?(Z.mul_1_r p3).
  - rewrite <- (tiny_sum p0 p1 p2 p3 Y3 I0 I1 I2 I3 (J _ H3)). rewrite !Z.mul_1_r. reflexivity.
  - replace (p0 * 16 + p1 + p2 * 2 ^ Y2 + p3) with (p0 * 16 + p1 + p3 + p2 * 2 ^ Y2) by ring. rewrite <- (tiny_sum p0 p1 p3 p2 Y2 I0 I1 I3 I2 (J _ H2)). rewrite !Z.mul_1_r. f_equal. f_equal. lia.
  - replace (p0 * 16 + p1 * 2 ^ Y1 + p2 + p3) with (p0 * 16 + p2 + p3 + p1 * 2 ^ Y1) by ring. rewrite <- (tiny_sum p0 p2 p3 p1 Y1 I0 I2 I3 I1 (J _ H1)). rewrite !Z.mul_1_r. f_equal. f_equal. lia.
Qed.

Theorem dot4_tiny a0 a1 a2 a3 b0 b1 b2 b3 : wf (2 + 1 + 3) a0 -> wf (2 + 1 + 3) a1 -> wf (2 + 1 + 3) a2 -> wf (2 + 1 + 3) a3 ->
  wf (2 + 1 + 3) b0 -> wf (2 + 1 + 3) b1 -> wf (2 + 1 + 3) b2 -> wf (2 + 1 + 3) b3 ->
  let d := decode 2 1 in
  pos_normal (d a0) -> pos_normal (d a1) -> pos_normal (d a2) -> pos_normal (d a3) ->
  pos_normal (d b0) -> pos_normal (d b1) -> pos_normal (d b2) -> pos_normal (d b3) ->
  exists r, dot4_pos_rndd 2 1 a0 a1 a2 a3 b0 b1 b2 b3 = Some r /\ wf (2 + 1 + 3) r /\
    d r = dot4_spec 2 1 (d a0) (d a1) (d a2) (d a3) (d b0) (d b1) (d b2) (d b3).
Proof.
  intros Wa0 Wa1 Wa2 Wa3 Wb0 Wb1 Wb2 Wb3 d Pa0 Pa1 Pa2 Pa3 Pb0 Pb1 Pb2 Pb3. subst d.
  assert (HE' : 1 <= 2) by lia. assert (HF : 1 <= 1) by lia. assert (HE : 1 <= 2 <= 30) by lia.
  destruct (pos_view 2 1 a0 HE' HF Wa0 Pa0) as (ea0 & fa0 & Oa0 & Ea0 & Da0). destruct (pos_view 2 1 a1 HE' HF Wa1 Pa1) as (ea1 & fa1 & Oa1 & Ea1 & Da1).
  destruct (pos_view 2 1 a2 HE' HF Wa2 Pa2) as (ea2 & fa2 & Oa2 & Ea2 & Da2). destruct (pos_view 2 1 a3 HE' HF Wa3 Pa3) as (ea3 & fa3 & Oa3 & Ea3 & Da3).
  destruct (pos_view 2 1 b0 HE' HF Wb0 Pb0) as (eb0 & fb0 & Ob0 & Eb0 & Db0). destruct (pos_view 2 1 b1 HE' HF Wb1 Pb1) as (eb1 & fb1 & Ob1 & Eb1 & Db1).
  destruct (pos_view 2 1 b2 HE' HF Wb2 Pb2) as (eb2 & fb2 & Ob2 & Eb2 & Db2). destruct (pos_view 2 1 b3 HE' HF Wb3 Pb3) as (eb3 & fb3 & Ob3 & Eb3 & Db3).
  unfold dot4_spec, dot4_exact.
  rewrite (dmul_val 2 1 a0 b0 ea0 fa0 eb0 fb0 Da0 Db0), (dmul_val 2 1 a1 b1 ea1 fa1 eb1 fb1 Da1 Db1), (dmul_val 2 1 a2 b2 ea2 fa2 eb2 fb2 Da2 Db2), (dmul_val 2 1 a3 b3 ea3 fa3 eb3 fb3 Da3 Db3).
  rewrite <- !Z.sub_add_distr.
  pose proof (dot4_unfold 2 1 ea0 fa0 ea1 fa1 ea2 fa2 ea3 fa3 eb0 fb0 eb1 fb1 eb2 fb2 eb3 fb3 HE Oa0 Oa1 Oa2 Oa3 Ob0 Ob1 Ob2 Ob3) as CS. cbv beta zeta in CS.
  rewrite <- Ea0, <- Ea1, <- Ea2, <- Ea3, <- Eb0, <- Eb1, <- Eb2, <- Eb3 in CS.
  remember (dot4_pos_rndd 2 1 a0 a1 a2 a3 b0 b1 b2 b3) as r0 eqn:Er0. clear Er0 Ea0 Ea1 Ea2 Ea3 Eb0 Eb1 Eb2 Eb3 Da0 Da1 Da2 Da3 Db0 Db1 Db2 Db3 Pa0 Pa1 Pa2 Pa3 Pb0 Pb1 Pb2 Pb3 Wa0 Wa1 Wa2 Wa3 Wb0 Wb1 Wb2 Wb3.
  destruct Oa0 as (_ & _ & _ & A1 & A2), Oa1 as (_ & _ & _ & A3 & A4), Oa2 as (_ & _ & _ & A5 & A6), Oa3 as (_ & _ & _ & A7 & A8).
  destruct Ob0 as (_ & _ & _ & B1 & B2), Ob1 as (_ & _ & _ & B3 & B4), Ob2 as (_ & _ & _ & B5 & B6), Ob3 as (_ & _ & _ & B7 & B8).
  assert (I : forall x y, 0 <= x < 2 ^ 1 -> 0 <= y < 2 ^ 1 -> In ((2 ^ 1 + x) * (2 ^ 1 + y)) [4; 6; 9]).
  { intros x y Hx Hy. change (2 ^ 1) with 2 in *. assert (x = 0 \/ x = 1) as [->| ->] by lia; assert (y = 0 \/ y = 1) as [->| ->] by lia; cbn; tauto. }
  pose proof (I _ _ A2 B2) as I0. pose proof (I _ _ A4 B4) as I1. pose proof (I _ _ A6 B6) as I2. pose proof (I _ _ A8 B8) as I3. clear I.
  pose proof (prod_bound 1 fa0 fb0 ltac:(lia) A2 B2) as Q0. pose proof (prod_bound 1 fa1 fb1 ltac:(lia) A4 B4) as Q1.
  pose proof (prod_bound 1 fa2 fb2 ltac:(lia) A6 B6) as Q2. pose proof (prod_bound 1 fa3 fb3 ltac:(lia) A8 B8) as Q3.
  assert (E1 : 2 ^ (2 + 1) = 2 * 2 ^ 2) by (apply pow2_S; lia).
  assert (Y0 : 0 <= ea0 + eb0 < 2 ^ (2 + 1) - 1) by (clear - A1 B1 E1; lia). assert (Y1 : 0 <= ea1 + eb1 < 2 ^ (2 + 1) - 1) by (clear - A3 B3 E1; lia).
  assert (Y2 : 0 <= ea2 + eb2 < 2 ^ (2 + 1) - 1) by (clear - A5 B5 E1; lia). assert (Y3 : 0 <= ea3 + eb3 < 2 ^ (2 + 1) - 1) by (clear - A7 B7 E1; lia).
  clear A1 A2 A3 A4 A5 A6 A7 A8 B1 B2 B3 B4 B5 B6 B7 B8 E1.
  remember ((2 ^ 1 + fa0) * (2 ^ 1 + fb0)) as p0 eqn:K0. remember ((2 ^ 1 + fa1) * (2 ^ 1 + fb1)) as p1 eqn:K1.
  remember ((2 ^ 1 + fa2) * (2 ^ 1 + fb2)) as p2 eqn:K2. remember ((2 ^ 1 + fa3) * (2 ^ 1 + fb3)) as p3 eqn:K3. clear K0 K1 K2 K3.
  remember (ea0 + eb0) as X0 eqn:K0. remember (ea1 + eb1) as X1 eqn:K1. remember (ea2 + eb2) as X2 eqn:K2. remember (ea3 + eb3) as X3 eqn:K3. clear K0 K1 K2 K3.
  change (2 * bias 2 + 2 * 1) with 4.
  assert (KK : - 2 * bias 2 - 2 * 1 = -4) by reflexivity.
  destruct (dadd_scale p0 (X0 - 4) p1 (X1 - 4) (-4) ltac:(lia) ltac:(lia)) as (m01 & e01 & -> & De01 & Dm01).
  destruct (dadd_scale p2 (X2 - 4) p3 (X3 - 4) (-4) ltac:(lia) ltac:(lia)) as (m23 & e23 & -> & De23 & Dm23).
  destruct (dadd_scale m01 e01 m23 e23 (-4) ltac:(lia) ltac:(lia)) as (m & e & -> & De & Dm).
  rewrite Dm01, Dm23 in Dm. replace (X0 - 4 - -4) with X0 in Dm by lia. replace (X1 - 4 - -4) with X1 in Dm by lia. replace (X2 - 4 - -4) with X2 in Dm by lia. replace (X3 - 4 - -4) with X3 in Dm by lia.
  destruct (dot4_products 2 1 p0 X0 p1 X1 p2 X2 p3 X3 m e r0 HE HF Q0 Q1 Q2 Q3 Y0 Y1 Y2 Y3 ltac:(rewrite KK; lia) ltac:(rewrite KK; exact Dm) CS) as (r & V & k & R1 & R2 & R3 & R4 & R5 & R6 & R7).
  exists r. split; [exact R1|]. split; [exact R2|].
  assert (CX : (X0 < 5 /\ X1 < 5 /\ X2 < 5 /\ X3 < 5) \/ (5 <= X0 \/ 5 <= X1 \/ 5 <= X2 \/ 5 <= X3)) by (clear; lia).
  destruct CX as [CX|CX].
  - destruct (Z_le_gt_dec (far_count 1 X0 X1 X2 X3) 1) as [FC|FC]; [apply R7; exact FC|].
    assert (M : 0 < m * 2 ^ (e - -4)).
    { rewrite Dm. clear - Q0 Q1 Q2 Q3 Y0 Y1 Y2 Y3. change (2 ^ (2 * 1)) with 4 in *. pose proof (pow2_pos X0 ltac:(lia)). pose proof (pow2_pos X1 ltac:(lia)). pose proof (pow2_pos X2 ltac:(lia)). pose proof (pow2_pos X3 ltac:(lia)).
      assert (0 < p0 * 2 ^ X0) by (apply Z.mul_pos_pos; lia). assert (0 < p1 * 2 ^ X1) by (apply Z.mul_pos_pos; lia). assert (0 < p2 * 2 ^ X2) by (apply Z.mul_pos_pos; lia). assert (0 < p3 * 2 ^ X3) by (apply Z.mul_pos_pos; lia). lia. }
    assert (PM : 0 < m) by (pose proof (pow2_pos (e - -4) ltac:(lia)); clear - M H; nia).
    replace (rndd 2 1 (m, e)) with (rndd 2 1 (m * 2 ^ (e - -4), -4)) by (rewrite rndd_scale by lia; f_equal; f_equal; lia). rewrite Dm.
    clear R2 R3 R4 R5 R6 R7 V k KK Dm Dm01 Dm23 De De01 De23 M PM Q0 Q1 Q2 Q3. change (2 ^ (2 + 1)) with 8 in *.
    unfold far_count in FC. cbv zeta in FC.
    destruct (Z.ltb_spec (4 * 1 - 1) (Z.max (Z.max X0 X1) (Z.max X2 X3) - X0)), (Z.ltb_spec (4 * 1 - 1) (Z.max (Z.max X0 X1) (Z.max X2 X3) - X1)),
      (Z.ltb_spec (4 * 1 - 1) (Z.max (Z.max X0 X1) (Z.max X2 X3) - X2)), (Z.ltb_spec (4 * 1 - 1) (Z.max (Z.max X0 X1) (Z.max X2 X3) - X3)); cbn [Z.b2z] in FC; try lia;
    (destruct CS as [(L1 & L2 & L3 & CS)|[(L1 & L2 & L3 & CS)|[(L1 & L2 & L3 & CS)|(L1 & L2 & L3 & CS)]]]; rewrite R1 in CS; try (exfalso; clear - L1 L2 L3 CX Y0 Y1 Y2 Y3 H H0 H1 H2; lia);
     first [assert (XX : X0 = 4) by lia; rewrite XX in CS |- *; rewrite (tiny_tail p0 p3 p2 p1 X3 X2 X1) with (r := r) by (assumption || lia || (symmetry; exact CS))
     |assert (XX : X1 = 4) by lia; rewrite XX in CS |- *; rewrite (tiny_tail p1 p0 p3 p2 X0 X3 X2) with (r := r) by (assumption || lia || (symmetry; exact CS))
     |assert (XX : X2 = 4) by lia; rewrite XX in CS |- *; rewrite (tiny_tail p2 p1 p0 p3 X1 X0 X3) with (r := r) by (assumption || lia || (symmetry; exact CS))
     |assert (XX : X3 = 4) by lia; rewrite XX in CS |- *; rewrite (tiny_tail p3 p2 p1 p0 X2 X1 X0) with (r := r) by (assumption || lia || (symmetry; exact CS))]; f_equal; f_equal; ring).
  - destruct (dot4_products_over 2 1 p0 X0 p1 X1 p2 X2 p3 X3 m e r0 HE HF Q0 Q1 Q2 Q3 Y0 Y1 Y2 Y3 ltac:(rewrite KK; lia) ltac:(rewrite KK; exact Dm) CS CX) as ((r' & R & D) & S). assert (r' = r) by congruence. subst r'. rewrite D, S. reflexivity.
Qed.

Theorem dot4_formats E F : 1 <= E <= 30 -> 1 <= F ->
  ((forall a0 a1 a2 a3 b0 b1 b2 b3, let d := decode E F in
      wf (E + F + 3) a0 -> wf (E + F + 3) a1 -> wf (E + F + 3) a2 -> wf (E + F + 3) a3 ->
      wf (E + F + 3) b0 -> wf (E + F + 3) b1 -> wf (E + F + 3) b2 -> wf (E + F + 3) b3 ->
      pos_normal (d a0) -> pos_normal (d a1) -> pos_normal (d a2) -> pos_normal (d a3) ->
      pos_normal (d b0) -> pos_normal (d b1) -> pos_normal (d b2) -> pos_normal (d b3) ->
      exists r, dot4_pos_rndd E F a0 a1 a2 a3 b0 b1 b2 b3 = Some r /\
        d r = dot4_spec E F (d a0) (d a1) (d a2) (d a3) (d b0) (d b1) (d b2) (d b3)) <->
   3 * 2 ^ (E - 1) - 2 < 4 * F \/ (E = 2 /\ F = 1)).
Proof.
  intros HE HF. split.
  - intros H. destruct (Z_lt_le_dec (3 * 2 ^ (E - 1) - 2) (4 * F)) as [L|L]; [left; exact L|right].
    assert (C : E = 1 \/ E = 2 \/ 3 <= E) by lia. destruct C as [->|[->|C]]; [exfalso; change (2 ^ (1 - 1)) with 1 in L; lia|change (2 ^ (2 - 1)) with 2 in L; lia|exfalso].
    destruct (dot4_wide E F ltac:(lia) HF L) as (a0 & a1 & a2 & a3 & b0 & b1 & b2 & b3 & (W1 & W2 & W3 & W4 & W5 & W6 & W7 & W8) & (N1 & N2 & N3 & N4 & N5 & N6 & N7 & N8) & r & m & e & R & S & D).
    destruct (H a0 a1 a2 a3 b0 b1 b2 b3 W1 W2 W3 W4 W5 W6 W7 W8 N1 N2 N3 N4 N5 N6 N7 N8) as (r' & R' & D').
    assert (r' = r) by congruence. subst r'. rewrite D, S in D'. assert (X : m - 1 = m) by congruence. lia.
  - intros [L|[-> ->]] a0 a1 a2 a3 b0 b1 b2 b3 d W1 W2 W3 W4 W5 W6 W7 W8 N1 N2 N3 N4 N5 N6 N7 N8.
    + destruct (dot4_narrow E F a0 a1 a2 a3 b0 b1 b2 b3 HE HF L W1 W2 W3 W4 W5 W6 W7 W8 N1 N2 N3 N4 N5 N6 N7 N8) as (r & R & _ & D). exists r. split; assumption.
    + destruct (dot4_tiny a0 a1 a2 a3 b0 b1 b2 b3 W1 W2 W3 W4 W5 W6 W7 W8 N1 N2 N3 N4 N5 N6 N7 N8) as (r & R & _ & D). exists r. split; assumption.
Qed.
