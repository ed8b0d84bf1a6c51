From Coq Require Import ZArith Bool Lia.
From Verif Require Import Fw FwLemmas Spec SpecDot Flopoco FlopocoLemmas CompareProofs Dot DotProofs DotProofs2 DotProofs3.
Open Scope Z_scope.

(** Which product comes first. *)
Lemma dot4_unfold E F ea0 fa0 ea1 fa1 ea2 fa2 ea3 fa3 eb0 fb0 eb1 fb1 eb2 fb2 eb3 fb3 :
  1 <= E <= 30 -> okf E F 1 ea0 fa0 -> okf E F 1 ea1 fa1 -> okf E F 1 ea2 fa2 -> okf E F 1 ea3 fa3 ->
  okf E F 1 eb0 fb0 -> okf E F 1 eb1 fb1 -> okf E F 1 eb2 fb2 -> okf E F 1 eb3 fb3 ->
  let p0 := (2 ^ F + fa0) * (2 ^ F + fb0) in let p1 := (2 ^ F + fa1) * (2 ^ F + fb1) in
  let p2 := (2 ^ F + fa2) * (2 ^ F + fb2) in let p3 := (2 ^ F + fa3) * (2 ^ F + fb3) in
  let X0 := ea0 + eb0 in let X1 := ea1 + eb1 in let X2 := ea2 + eb2 in let X3 := ea3 + eb3 in
  let k e f := pack E F 1 false e f in
  let B := 2 ^ (E - 1) - 1 in
  let r := dot4_pos_rndd E F (k ea0 fa0) (k ea1 fa1) (k ea2 fa2) (k ea3 fa3) (k eb0 fb0) (k eb1 fb1) (k eb2 fb2) (k eb3 fb3) in
  (X1 <= X0 /\ X2 <= X0 /\ X3 <= X0 /\ r = dot4_tail E F B p0 p3 p2 p1 X0 X3 X2 X1) \/
  (X0 <= X1 /\ X2 <= X1 /\ X3 <= X1 /\ r = dot4_tail E F B p1 p0 p3 p2 X1 X0 X3 X2) \/
  (X0 <= X2 /\ X1 <= X2 /\ X3 <= X2 /\ r = dot4_tail E F B p2 p1 p0 p3 X2 X1 X0 X3) \/
  (X0 <= X3 /\ X1 <= X3 /\ X2 <= X3 /\ r = dot4_tail E F B p3 p2 p1 p0 X3 X2 X1 X0).
Proof.
  intros HE A0 A1 A2 A3 B0 B1 B2 B3 p0 p1 p2 p3 X0 X1 X2 X3 k B r. subst r k.
  unfold dot4_pos_rndd. rewrite !dot_check_pack by assumption. cbn [bind]. unfold dot_bias.
  destruct (Z.leb_spec E 30); [|lia]. cbn [assert_ bind]. rewrite !dot_frac_pack, !dot_exp_pack by assumption.
  fold p0 p1 p2 p3 X0 X1 X2 X3. fold B. clearbody p0 p1 p2 p3 X0 X1 X2 X3 B. unfold fgt. rewrite !select_b2z.
  destruct (Z.ltb_spec X0 X1), (Z.ltb_spec X2 X3); cbv iota;
    match goal with |- context[Z.ltb ?a ?b] => destruct (Z.ltb_spec a b) end; cbv iota;
    [right; right; right|right; left|right; right; left|right; left|right; right; right|left|right; right; left|left];
    (repeat split; try lia); reflexivity.
Qed.

Lemma far_sorted F X Y1 Y2 Y3 : 1 <= F -> Z.b2z (4 * F - 1 <? X - X) + Z.b2z (4 * F - 1 <? X - Y1) + Z.b2z (4 * F - 1 <? X - Y2) + Z.b2z (4 * F - 1 <? X - Y3) =
  Z.b2z (4 * F - 1 <? X - Y1) + Z.b2z (4 * F - 1 <? X - Y2) + Z.b2z (4 * F - 1 <? X - Y3).
Proof. intros HF. destruct (Z.ltb_spec (4 * F - 1) (X - X)); cbn [Z.b2z]; lia. Qed.

Lemma value_bounds V k m e K P X N : K <= e -> 0 <= P -> k = X + K - P -> 0 <= X -> N = m * 2 ^ (e - K) ->
  V * 2 ^ X <= N * 2 ^ P < (V + 3) * 2 ^ X -> cmp_num V k m e <> Gt /\ cmp_num m e (V + 3) k = Lt.
Proof.
  intros HK HP Hk HX HN HB. rewrite (cmp_num_k V k m e (K - P)), (cmp_num_k m e (V + 3) k (K - P)) by lia.
  replace (k - (K - P)) with X by lia. replace (e - (K - P)) with ((e - K) + P) by lia. rewrite pow2_add, Z.mul_assoc, <- HN by lia.
  split; [apply Z.compare_le_iff; lia|apply Z.compare_lt_iff; lia].
Qed.

(** The statement about the products p_i * 2^(X_i + K). *)
Lemma dot4_products E F p0 X0 p1 X1 p2 X2 p3 X3 m e r0 : 1 <= E <= 30 -> 1 <= F ->
  let K := - 2 * bias E - 2 * F in let B := 2 ^ (E - 1) - 1 in
  2 ^ (2 * F) <= p0 < 2 ^ (2 * F + 2) -> 2 ^ (2 * F) <= p1 < 2 ^ (2 * F + 2) -> 2 ^ (2 * F) <= p2 < 2 ^ (2 * F + 2) -> 2 ^ (2 * F) <= p3 < 2 ^ (2 * F + 2) ->
  0 <= X0 < 2 ^ (E + 1) - 1 -> 0 <= X1 < 2 ^ (E + 1) - 1 -> 0 <= X2 < 2 ^ (E + 1) - 1 -> 0 <= X3 < 2 ^ (E + 1) - 1 ->
  K <= e -> m * 2 ^ (e - K) = p0 * 2 ^ X0 + p1 * 2 ^ X1 + (p2 * 2 ^ X2 + p3 * 2 ^ X3) ->
  (X1 <= X0 /\ X2 <= X0 /\ X3 <= X0 /\ r0 = dot4_tail E F B p0 p3 p2 p1 X0 X3 X2 X1) \/
  (X0 <= X1 /\ X2 <= X1 /\ X3 <= X1 /\ r0 = dot4_tail E F B p1 p0 p3 p2 X1 X0 X3 X2) \/
  (X0 <= X2 /\ X1 <= X2 /\ X3 <= X2 /\ r0 = dot4_tail E F B p2 p1 p0 p3 X2 X1 X0 X3) \/
  (X0 <= X3 /\ X1 <= X3 /\ X2 <= X3 /\ r0 = dot4_tail E F B p3 p2 p1 p0 X3 X2 X1 X0) ->
  exists r V k, r0 = Some r /\ wf (E + F + 3) r /\
    decode E F r = rndd E F (V, k) /\ 2 ^ (6 * F - 1) <= V /\ cmp_num V k m e <> Gt /\ cmp_num m e (V + 3) k = Lt /\
    (far_count F X0 X1 X2 X3 <= 1 -> decode E F r = rndd E F (m, e)).
Proof.
  intros HE HF K B H0 H1 H2 H3 Y0 Y1 Y2 Y3 He Hm CS.
  assert (Pe : 0 < 2 ^ (e - K)) by (apply pow2_pos; lia).
  assert (PN : 0 < m * 2 ^ (e - K)).
  { rewrite Hm. assert (0 < 2 ^ (2 * F)) by (apply pow2_pos; lia).
    assert (0 < p0 * 2 ^ X0) by (apply Z.mul_pos_pos; [lia|apply pow2_pos; lia]). assert (0 < p1 * 2 ^ X1) by (apply Z.mul_pos_pos; [lia|apply pow2_pos; lia]).
    assert (0 < p2 * 2 ^ X2) by (apply Z.mul_pos_pos; [lia|apply pow2_pos; lia]). assert (0 < p3 * 2 ^ X3) by (apply Z.mul_pos_pos; [lia|apply pow2_pos; lia]). lia. }
  assert (Pm : 0 < m) by nia.
  assert (SP : rndd E F (m, e) = rndd E F (m * 2 ^ (e - K), K)) by (rewrite rndd_scale by lia; f_equal; f_equal; lia).
  assert (GO : forall q0 Z0 q1 Z1 q2 Z2 q3 Z3, 2 ^ (2 * F) <= q0 < 2 ^ (2 * F + 2) -> 2 ^ (2 * F) <= q1 < 2 ^ (2 * F + 2) -> 2 ^ (2 * F) <= q2 < 2 ^ (2 * F + 2) -> 2 ^ (2 * F) <= q3 < 2 ^ (2 * F + 2) ->
    0 <= Z1 <= Z0 -> 0 <= Z2 <= Z0 -> 0 <= Z3 <= Z0 -> Z0 < 2 ^ (E + 1) - 1 -> m * 2 ^ (e - K) = q0 * 2 ^ Z0 + q1 * 2 ^ Z1 + q2 * 2 ^ Z2 + q3 * 2 ^ Z3 ->
    r0 = dot4_tail E F B q0 q1 q2 q3 Z0 Z1 Z2 Z3 ->
    (far_count F X0 X1 X2 X3 <= 1 -> Z.b2z (4 * F - 1 <? Z0 - Z1) + Z.b2z (4 * F - 1 <? Z0 - Z2) + Z.b2z (4 * F - 1 <? Z0 - Z3) <= 1) ->
    exists r V k, r0 = Some r /\ wf (E + F + 3) r /\
    decode E F r = rndd E F (V, k) /\ 2 ^ (6 * F - 1) <= V /\ cmp_num V k m e <> Gt /\ cmp_num m e (V + 3) k = Lt /\
    (far_count F X0 X1 X2 X3 <= 1 -> decode E F r = rndd E F (m, e))).
  { intros q0 Z0 q1 Z1 q2 Z2 q3 Z3 G0 G1 G2 G3 L1 L2 L3 L0 GN GR GF.
    destruct (dot4_sorted E F q0 Z0 q1 Z1 q2 Z2 q3 Z3 _ HE HF G0 G1 G2 G3 L1 L2 L3 L0 GN) as (r & V & R1 & R2 & R3 & R4 & R5 & R6).
    exists r, V, (Z0 - 2 * bias E - 2 * F - (4 * F - 1)). split; [rewrite GR; exact R1|]. split; [exact R2|]. split; [exact R3|]. split; [exact R4|].
    destruct (value_bounds V (Z0 - 2 * bias E - 2 * F - (4 * F - 1)) m e K (4 * F - 1) Z0 _ He ltac:(lia) ltac:(unfold K; lia) ltac:(lia) eq_refl R5) as [V1 V2].
    split; [exact V1|]. split; [exact V2|]. intros Q. rewrite SP. apply R6. apply GF. exact Q. }
  unfold far_count in *. destruct CS as [(C1 & C2 & C3 & C4)|[(C1 & C2 & C3 & C4)|[(C1 & C2 & C3 & C4)|(C1 & C2 & C3 & C4)]]].
  - replace (Z.max (Z.max X0 X1) (Z.max X2 X3)) with X0 in * by lia. apply (GO p0 X0 p3 X3 p2 X2 p1 X1); try lia; try assumption. pose proof (far_sorted F X0 X1 X2 X3 HF). lia.
  - replace (Z.max (Z.max X0 X1) (Z.max X2 X3)) with X1 in * by lia. apply (GO p1 X1 p0 X0 p3 X3 p2 X2); try lia; try assumption. pose proof (far_sorted F X1 X0 X2 X3 HF). lia.
  - replace (Z.max (Z.max X0 X1) (Z.max X2 X3)) with X2 in * by lia. apply (GO p2 X2 p1 X1 p0 X0 p3 X3); try lia; try assumption. pose proof (far_sorted F X2 X0 X1 X3 HF). lia.
  - replace (Z.max (Z.max X0 X1) (Z.max X2 X3)) with X3 in * by lia. apply (GO p3 X3 p2 X2 p1 X1 p0 X0); try lia; try assumption. pose proof (far_sorted F X3 X0 X1 X2 HF). lia.
Qed.

Lemma far_shift F c X0 X1 X2 X3 : far_count F (X0 - c) (X1 - c) (X2 - c) (X3 - c) = far_count F X0 X1 X2 X3.
Proof. unfold far_count. replace (Z.max (Z.max (X0 - c) (X1 - c)) (Z.max (X2 - c) (X3 - c))) with (Z.max (Z.max X0 X1) (Z.max X2 X3) - c) by lia.
  rewrite !Z.sub_sub_distr. replace (Z.max (Z.max X0 X1) (Z.max X2 X3) - c - X0 + c) with (Z.max (Z.max X0 X1) (Z.max X2 X3) - X0) by lia.
  replace (Z.max (Z.max X0 X1) (Z.max X2 X3) - c - X1 + c) with (Z.max (Z.max X0 X1) (Z.max X2 X3) - X1) by lia.
  replace (Z.max (Z.max X0 X1) (Z.max X2 X3) - c - X2 + c) with (Z.max (Z.max X0 X1) (Z.max X2 X3) - X2) by lia.
  replace (Z.max (Z.max X0 X1) (Z.max X2 X3) - c - X3 + c) with (Z.max (Z.max X0 X1) (Z.max X2 X3) - X3) by lia. reflexivity.
Qed.

Theorem dot4_ok E F a0 a1 a2 a3 b0 b1 b2 b3 : 1 <= E <= 30 -> 1 <= F ->
  wf (E + F + 3) a0 -> wf (E + F + 3) a1 -> wf (E + F + 3) a2 -> wf (E + F + 3) a3 ->
  wf (E + F + 3) b0 -> wf (E + F + 3) b1 -> wf (E + F + 3) b2 -> wf (E + F + 3) b3 ->
  let d := decode E F in
  pos_normal (d a0) -> pos_normal (d a1) -> pos_normal (d a2) -> pos_normal (d a3) ->
  pos_normal (d b0) -> pos_normal (d b1) -> pos_normal (d b2) -> pos_normal (d b3) ->
  exists r V k, dot4_pos_rndd E F a0 a1 a2 a3 b0 b1 b2 b3 = Some r /\ wf (E + F + 3) r /\
    d r = rndd E F (V, k) /\ 2 ^ (6 * F - 1) <= V /\
    (let '(m, e) := dot4_exact (d a0) (d a1) (d a2) (d a3) (d b0) (d b1) (d b2) (d b3) in
     cmp_num V k m e <> Gt /\ cmp_num m e (V + 3) k = Lt) /\
    (far_count F (snd (dmul (d a0) (d b0))) (snd (dmul (d a1) (d b1))) (snd (dmul (d a2) (d b2))) (snd (dmul (d a3) (d b3))) <= 1 ->
     d r = dot4_spec E F (d a0) (d a1) (d a2) (d a3) (d b0) (d b1) (d b2) (d b3)).
Proof.
  intros HE HF Wa0 Wa1 Wa2 Wa3 Wb0 Wb1 Wb2 Wb3 d Pa0 Pa1 Pa2 Pa3 Pb0 Pb1 Pb2 Pb3. subst d.
  assert (HE' : 1 <= E) by lia.
  destruct (pos_view E F a0 HE' HF Wa0 Pa0) as (ea0 & fa0 & Oa0 & Ea0 & Da0). destruct (pos_view E F a1 HE' HF Wa1 Pa1) as (ea1 & fa1 & Oa1 & Ea1 & Da1).
  destruct (pos_view E F a2 HE' HF Wa2 Pa2) as (ea2 & fa2 & Oa2 & Ea2 & Da2). destruct (pos_view E F a3 HE' HF Wa3 Pa3) as (ea3 & fa3 & Oa3 & Ea3 & Da3).
  destruct (pos_view E F b0 HE' HF Wb0 Pb0) as (eb0 & fb0 & Ob0 & Eb0 & Db0). destruct (pos_view E F b1 HE' HF Wb1 Pb1) as (eb1 & fb1 & Ob1 & Eb1 & Db1).
  destruct (pos_view E F b2 HE' HF Wb2 Pb2) as (eb2 & fb2 & Ob2 & Eb2 & Db2). destruct (pos_view E F b3 HE' HF Wb3 Pb3) as (eb3 & fb3 & Ob3 & Eb3 & Db3).
  unfold dot4_spec, dot4_exact.
  rewrite (dmul_val E F a0 b0 ea0 fa0 eb0 fb0 Da0 Db0), (dmul_val E F a1 b1 ea1 fa1 eb1 fb1 Da1 Db1), (dmul_val E F a2 b2 ea2 fa2 eb2 fb2 Da2 Db2), (dmul_val E F a3 b3 ea3 fa3 eb3 fb3 Da3 Db3).
  cbn [snd]. rewrite <- !Z.sub_add_distr. rewrite far_shift.
  pose proof (dot4_unfold E F ea0 fa0 ea1 fa1 ea2 fa2 ea3 fa3 eb0 fb0 eb1 fb1 eb2 fb2 eb3 fb3 HE Oa0 Oa1 Oa2 Oa3 Ob0 Ob1 Ob2 Ob3) as CS. cbv beta zeta in CS.
  rewrite <- Ea0, <- Ea1, <- Ea2, <- Ea3, <- Eb0, <- Eb1, <- Eb2, <- Eb3 in CS.
  remember (dot4_pos_rndd E F a0 a1 a2 a3 b0 b1 b2 b3) as r0 eqn:Er0. clear Er0 Ea0 Ea1 Ea2 Ea3 Eb0 Eb1 Eb2 Eb3 Da0 Da1 Da2 Da3 Db0 Db1 Db2 Db3 Pa0 Pa1 Pa2 Pa3 Pb0 Pb1 Pb2 Pb3 Wa0 Wa1 Wa2 Wa3 Wb0 Wb1 Wb2 Wb3.
  destruct Oa0 as (_ & _ & _ & A1 & A2), Oa1 as (_ & _ & _ & A3 & A4), Oa2 as (_ & _ & _ & A5 & A6), Oa3 as (_ & _ & _ & A7 & A8).
  destruct Ob0 as (_ & _ & _ & B1 & B2), Ob1 as (_ & _ & _ & B3 & B4), Ob2 as (_ & _ & _ & B5 & B6), Ob3 as (_ & _ & _ & B7 & B8).
  pose proof (prod_bound F fa0 fb0 ltac:(lia) A2 B2) as Q0. pose proof (prod_bound F fa1 fb1 ltac:(lia) A4 B4) as Q1.
  pose proof (prod_bound F fa2 fb2 ltac:(lia) A6 B6) as Q2. pose proof (prod_bound F fa3 fb3 ltac:(lia) A8 B8) as Q3.
  assert (E1 : 2 ^ (E + 1) = 2 * 2 ^ E) by (apply pow2_S; lia).
  assert (Y0 : 0 <= ea0 + eb0 < 2 ^ (E + 1) - 1) by (clear - A1 B1 E1; lia). assert (Y1 : 0 <= ea1 + eb1 < 2 ^ (E + 1) - 1) by (clear - A3 B3 E1; lia).
  assert (Y2 : 0 <= ea2 + eb2 < 2 ^ (E + 1) - 1) by (clear - A5 B5 E1; lia). assert (Y3 : 0 <= ea3 + eb3 < 2 ^ (E + 1) - 1) by (clear - A7 B7 E1; lia).
  clear A1 A2 A3 A4 A5 A6 A7 A8 B1 B2 B3 B4 B5 B6 B7 B8 E1.
  remember ((2 ^ F + fa0) * (2 ^ F + fb0)) as p0 eqn:K0. remember ((2 ^ F + fa1) * (2 ^ F + fb1)) as p1 eqn:K1.
  remember ((2 ^ F + fa2) * (2 ^ F + fb2)) as p2 eqn:K2. remember ((2 ^ F + fa3) * (2 ^ F + fb3)) as p3 eqn:K3. clear K0 K1 K2 K3.
  remember (ea0 + eb0) as X0 eqn:K0. remember (ea1 + eb1) as X1 eqn:K1. remember (ea2 + eb2) as X2 eqn:K2. remember (ea3 + eb3) as X3 eqn:K3. clear K0 K1 K2 K3.
  remember (- 2 * bias E - 2 * F) as K eqn:EK. replace (2 * bias E + 2 * F) with (- K) by lia.
  destruct (dadd_scale p0 (X0 - - K) p1 (X1 - - K) K ltac:(lia) ltac:(lia)) as (m01 & e01 & -> & De01 & Dm01).
  destruct (dadd_scale p2 (X2 - - K) p3 (X3 - - K) K ltac:(lia) ltac:(lia)) as (m23 & e23 & -> & De23 & Dm23).
  destruct (dadd_scale m01 e01 m23 e23 K ltac:(lia) ltac:(lia)) as (m & e & -> & De & Dm).
  rewrite Dm01, Dm23 in Dm. replace (X0 - - K - K) with X0 in Dm by lia. replace (X1 - - K - K) with X1 in Dm by lia. replace (X2 - - K - K) with X2 in Dm by lia. replace (X3 - - K - K) with X3 in Dm by lia.
  subst K.
  destruct (dot4_products E F p0 X0 p1 X1 p2 X2 p3 X3 m e r0 HE HF Q0 Q1 Q2 Q3 Y0 Y1 Y2 Y3 ltac:(lia) Dm CS) as (r & V & k & R1 & R2 & R3 & R4 & R5 & R6 & R7).
  exists r, V, k. split; [exact R1|]. split; [exact R2|]. split; [exact R3|]. split; [exact R4|]. split; [split; assumption|]. exact R7.
Qed.
