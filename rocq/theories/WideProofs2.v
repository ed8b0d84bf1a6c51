(** The operations of a wide format as a way to compute those of a narrow one. *)
From Coq Require Import ZArith Bool Lia.
From Verif Require Import Fw FwLemmas Spec SpecLemmas Flopoco FlopocoLemmas CompareProofs ConvertProofs ValueLemmas Mul MulProofs Div DivProofs3 AddDual AddDualProofs AddDualProofs5 AddDualProofs6 SpecCores WidthProofs FmaProofs FmaProofs2 FmaProofs3 FmaProofs5 WideProofs.
Open Scope Z_scope.

Lemma decode_sized E F x : 1 <= E -> 1 <= F -> wf (E + F + 3) x -> sized_v F (decode E F x).
Proof.
  intros HE HF Hx. destruct (decode E F x) as [|s|s|s m e] eqn:D; try exact I. destruct (decode_num E F x s m e HE HF Hx D) as [A _].
  cbn. rewrite pow2_S by lia. exact A.
Qed.

Lemma mul_gen_scale2 E G d x y : 0 <= G -> 0 <= d -> pos_v x -> pos_v y -> mul_spec E G (scale_v d x) (scale_v d y) = mul_spec E G x y.
Proof.
  intros HG Hd Hx Hy. unfold mul_spec. destruct x as [|s|s|s m e], y as [|t|t|t n f]; cbn [mul_gen scale_v pos_v] in *; try reflexivity.
  assert (P : 0 < 2 ^ d) by (apply pow2_pos; lia).
  replace (m * 2 ^ d * (n * 2 ^ d)) with (m * n * 2 ^ d * 2 ^ d) by ring. replace (e - d + (f - d)) with (e + f - d - d) by lia.
  rewrite !round_to_val; try lia; try reflexivity; nia.
Qed.

Theorem wide_mul E F D G x y : 2 <= E < D -> 1 <= F -> 2 * F + 1 <= G -> wf (E + F + 3) x -> wf (E + F + 3) y ->
  exists x' y' p r d, convert D G E F x = Some x' /\ convert D G E F y = Some y' /\ mul D G D G G x' y' = Some p /\ convert E F D G p = Some r /\
    mul E F E F F x y = Some d /\ wf (E + F + 3) r /\ decode E F r = decode E F d.
Proof.
  intros HE HF HG Wx Wy.
  destruct (convert_widen D G E F x ltac:(lia) ltac:(lia) Wx) as (x' & X1 & X2 & X3). destruct (convert_widen D G E F y ltac:(lia) ltac:(lia) Wy) as (y' & Y1 & Y2 & Y3).
  destruct (mul_round_correct D G G G x' y' ltac:(lia) ltac:(lia) ltac:(lia) ltac:(lia) X2 Y2) as (p & P1 & P2 & P3).
  destruct (convert_correct E F D G p ltac:(lia) ltac:(lia) ltac:(lia) ltac:(lia) P2 ltac:(lia)) as (r & R1 & R2 & R3).
  destruct (mul_round_correct E F F F x y ltac:(lia) ltac:(lia) ltac:(lia) ltac:(lia) Wx Wy) as (d & D1 & D2 & D3).
  exists x', y', p, r, d. repeat (split; [assumption|]). rewrite R3, P3, X3, Y3, D3.
  rewrite mul_gen_scale2 by (try apply decode_pos; lia). apply wide_mul_one; try lia; apply decode_sized; try assumption; lia.
Qed.

Theorem wide_div E F D G x y : 2 <= E < D -> 1 <= F -> 2 * F + 1 <= G -> wf (E + F + 3) x -> wf (E + F + 3) y ->
  exists x' y' p r d, convert D G E F x = Some x' /\ convert D G E F y = Some y' /\ div D G D G D G x' y' = Some p /\ convert E F D G p = Some r /\
    div E F E F E F x y = Some d /\ wf (E + F + 3) r /\ decode E F r = decode E F d.
Proof.
  intros HE HF HG Wx Wy.
  destruct (convert_widen D G E F x ltac:(lia) ltac:(lia) Wx) as (x' & X1 & X2 & X3). destruct (convert_widen D G E F y ltac:(lia) ltac:(lia) Wy) as (y' & Y1 & Y2 & Y3).
  destruct (div_v1_correct D G D G D G x' y' ltac:(lia) ltac:(lia) ltac:(lia) ltac:(lia) ltac:(lia) X2 Y2) as (p & P1 & P2 & P3).
  destruct (convert_correct E F D G p ltac:(lia) ltac:(lia) ltac:(lia) ltac:(lia) P2 ltac:(lia)) as (r & R1 & R2 & R3).
  destruct (div_v1_correct E F E F E F x y ltac:(lia) ltac:(lia) ltac:(lia) ltac:(lia) ltac:(lia) Wx Wy) as (d & D1 & D2 & D3).
  exists x', y', p, r, d. repeat (split; [assumption|]). rewrite R3, P3, X3, Y3, D3.
  apply wide_div_one; try lia; apply decode_sized; try assumption; lia.
Qed.

Lemma add_same_ok E F x y : dual_ok_width E F -> wf (E + F + 3) x -> wf (E + F + 3) y ->
  exists r, add_dual E F E F E F x y = Some r /\ wf (E + F + 3) r /\ decode E F r = add_spec E F (decode E F x) (decode E F y).
Proof.
  intros H Wx Wy. assert (B : 3 < E /\ 1 <= F) by (destruct H as (? & ? & _); lia). pose proof (add_dual_ok E F E F x y) as A. cbv zeta in A. rewrite !Z.max_id in A. apply A; try assumption; lia.
Qed.

Theorem wide_add E F D G add_n add_w x y : 1 <= E < D -> 1 <= F -> 2 * F + 2 <= G ->
  core_right E F F F (add_spec E F) add_n -> core_right D G G G (add_spec D G) add_w -> wf (E + F + 3) x -> wf (E + F + 3) y ->
  exists x' y' p r d, convert D G E F x = Some x' /\ convert D G E F y = Some y' /\ add_w x' y' = Some p /\ convert E F D G p = Some r /\
    add_n x y = Some d /\ wf (E + F + 3) r /\ decode E F r = decode E F d.
Proof.
  intros HE HF HG OE OD Wx Wy.
  destruct (convert_widen D G E F x ltac:(lia) ltac:(lia) Wx) as (x' & X1 & X2 & X3). destruct (convert_widen D G E F y ltac:(lia) ltac:(lia) Wy) as (y' & Y1 & Y2 & Y3).
  destruct (OD x' y' X2 Y2) as (p & P1 & P2 & P3).
  destruct (convert_correct E F D G p ltac:(lia) ltac:(lia) ltac:(lia) ltac:(lia) P2 ltac:(lia)) as (r & R1 & R2 & R3).
  destruct (OE x y Wx Wy) as (d & D1 & D2 & D3).
  exists x', y', p, r, d. repeat (split; [assumption|]). rewrite R3, P3, X3, Y3, D3. unfold add_spec at 1.
  rewrite add_gen_scale2 by (try apply round_to_val; try apply decode_pos; lia). apply wide_add_one; try lia; apply decode_sized; try assumption; lia.
Qed.

Theorem wide_add_dual E F D G x y : 3 < E < D -> 1 <= F -> 2 * F + 2 <= G -> D + G + 3 <= 128 ->
  ~ (F = 1 \/ F = 61 /\ 7 <= E \/ E = 4 /\ 33 <= F \/ E = 5 /\ 65 <= F) -> ~ (G = 61 /\ 7 <= D \/ D = 5 /\ 65 <= G) ->
  wf (E + F + 3) x -> wf (E + F + 3) y ->
  exists x' y' p r d, convert D G E F x = Some x' /\ convert D G E F y = Some y' /\ add_dual D G D G D G x' y' = Some p /\ convert E F D G p = Some r /\
    add_dual E F E F E F x y = Some d /\ wf (E + F + 3) r /\ decode E F r = decode E F d.
Proof.
  intros HE HF HG HW N1 N2 Wx Wy. apply wide_add; try assumption; try lia.
  - apply add_dual_right_iff; lia.
  - apply add_dual_right_iff; lia.
Qed.

(** One bit less is not enough. *)
Lemma short_sum E D F k : 1 <= E < D -> 2 <= F -> emin E <= k + 2 * F + 2 <= emax E ->
  let n := (2 ^ F + 1) * 2 ^ (F + 2) + (2 * 2 ^ F - 1) in
  round_to E F false n 1 k = Num false (2 ^ F + 1) (k + F + 2) /\
  convert_spec E F (round_to D (2 * F + 1) false n 1 k) = Num false (2 ^ F + 2) (k + F + 2).
Proof.
  intros HE HF HK n. assert (PF : 4 <= 2 ^ F) by (change 4 with (2 ^ 2); apply pow2_le; lia).
  assert (E2 : 2 ^ (F + 2) = 4 * 2 ^ F) by (rewrite pow2_add by lia; change (2 ^ 2) with 4; ring).
  assert (E1 : 2 ^ (F + 1) = 2 * 2 ^ F) by (apply pow2_S; lia).
  assert (EG : 2 ^ (2 * F + 1) = 2 * (2 ^ F * 2 ^ F)) by (rewrite <- pow2_add, <- pow2_S by lia; f_equal; lia).
  assert (EV : exists h, 2 ^ F = 2 * h) by (exists (2 ^ (F - 1)); rewrite <- pow2_S by lia; f_equal; lia). destruct EV as (h & Eh).
  assert (BE : emin D < emin E /\ emax E < emax D). { assert (2 ^ (E - 1) < 2 ^ (D - 1)) by (apply Z.pow_lt_mono_r; lia). unfold emin, emax, bias. lia. }
  assert (FIN : forall m, 2 ^ F <= m < 2 * 2 ^ F -> finish (emin E) (emax E) F false (norm_me F m (k + F + 2)) = Num false m (k + F + 2)).
  { intros m Hm. unfold norm_me. rewrite E1. destruct (Z.eqb_spec m (2 * 2 ^ F)); [lia|]. unfold finish. destruct (Z.ltb_spec (k + F + 2 + F) (emin E)); [lia|]. destruct (Z.ltb_spec (emax E) (k + F + 2 + F)); [lia|]. reflexivity. }
  split.
  - rewrite (round_to_at E F false n k (F + 2)); [|lia|lia|unfold n; rewrite E2; nia].
    replace (rne_div n (2 ^ (F + 2))) with (2 ^ F + 1) by (symmetry; apply rne_nearest; unfold n; rewrite E2; lia).
    replace (k + (F + 2)) with (k + F + 2) by lia. apply FIN. lia.
  - rewrite (round_to_at D (2 * F + 1) false n k 1); [|lia|lia|unfold n; rewrite EG, E2; change (2 ^ 1) with 2; nia].
    replace n with ((2 * ((2 ^ F + 1) * (2 * 2 ^ F) + 2 ^ F - 1) + 1) * 1) by (unfold n; rewrite E2; ring). change (2 ^ 1) with (2 * 1). rewrite rne_half by lia.
    replace (Z.even ((2 ^ F + 1) * (2 * 2 ^ F) + 2 ^ F - 1)) with false.
    2: { symmetry. rewrite Eh. replace ((2 * h + 1) * (2 * (2 * h)) + 2 * h - 1) with (1 + 2 * ((2 * h + 1) * (2 * h) + h - 1)) by ring. rewrite Z.even_add_mul_2. reflexivity. }
    unfold norm_me. rewrite (pow2_S (2 * F + 1)) by lia. rewrite EG. destruct (Z.eqb_spec ((2 ^ F + 1) * (2 * 2 ^ F) + 2 ^ F - 1 + 1) (2 * (2 * (2 ^ F * 2 ^ F)))) as [C|_]; [nia|].
    unfold finish at 1. destruct (Z.ltb_spec (k + 1 + (2 * F + 1)) (emin D)); [lia|]. destruct (Z.ltb_spec (emax D) (k + 1 + (2 * F + 1))); [lia|].
    unfold convert_spec, convert_gen. rewrite (round_to_at E F false _ (k + 1) (F + 1)); [|lia|lia|rewrite E1; nia].
    replace ((2 ^ F + 1) * (2 * 2 ^ F) + 2 ^ F - 1 + 1) with ((2 * (2 ^ F + 1) + 1) * 2 ^ F) by ring. rewrite E1, rne_half by lia.
    replace (Z.even (2 ^ F + 1)) with false by (rewrite Eh, Z.add_comm, Z.even_add_mul_2; reflexivity).
    replace (k + 1 + (F + 1)) with (k + F + 2) by lia. replace (2 ^ F + 1 + 1) with (2 ^ F + 2) by lia. apply FIN. lia.
Qed.

Theorem short_add_ok E F D : E < D -> F + 2 < 2 ^ E -> dual_ok_width E F -> dual_ok_width D (2 * F + 1) ->
  exists x y x' y' p r d m e, wf (E + F + 3) x /\ wf (E + F + 3) y /\
    convert D (2 * F + 1) E F x = Some x' /\ convert D (2 * F + 1) E F y = Some y' /\ add_dual D (2 * F + 1) D (2 * F + 1) D (2 * F + 1) x' y' = Some p /\
    convert E F D (2 * F + 1) p = Some r /\ add_dual E F E F E F x y = Some d /\ decode E F d = Num false m e /\ decode E F r = Num false (m + 1) e.
Proof.
  intros HE HS OE OD. assert (B : 3 < E /\ 2 <= F).
  { destruct OE as (A & A' & _ & _ & C). split; [lia|]. destruct (Z.eq_dec F 1) as [->|]; [|lia]. exfalso.
    change (2 ^ Z.log2 (1 + 3) <> 1 + 3) with (4 <> 4) in C. pose proof (pow2_le 4 E ltac:(lia)). change (2 ^ 4) with 16 in *. lia. }
  assert (PF : 4 <= 2 ^ F) by (change 4 with (2 ^ 2); apply pow2_le; lia).
  assert (Ox : okf E F 1 (F + 2) 1) by (unfold okf; lia). assert (Oy : okf E F 1 0 (2 ^ F - 1)) by (unfold okf; lia).
  pose proof (pack_wf E F 1 false _ _ Ox) as Wx. pose proof (pack_wf E F 1 false _ _ Oy) as Wy.
  destruct (convert_widen D (2 * F + 1) E F _ ltac:(lia) ltac:(lia) Wx) as (x' & X1 & X2 & X3). destruct (convert_widen D (2 * F + 1) E F _ ltac:(lia) ltac:(lia) Wy) as (y' & Y1 & Y2 & Y3).
  destruct (add_same_ok D _ x' y' OD X2 Y2) as (p & P1 & P2 & P3).
  destruct (convert_correct E F D (2 * F + 1) p ltac:(lia) ltac:(lia) ltac:(lia) ltac:(lia) P2 ltac:(lia)) as (r & R1 & R2 & R3).
  destruct (add_same_ok E F _ _ OE Wx Wy) as (d & D1 & D2 & D3).
  exists (pack E F 1 false (F + 2) 1), (pack E F 1 false 0 (2 ^ F - 1)), x', y', p, r, d, (2 ^ F + 1), (2 - bias E).
  repeat (split; [assumption|]). rewrite R3, P3, X3, Y3, D3. unfold add_spec at 2.
  rewrite add_gen_scale2 by (try apply round_to_val; try apply decode_pos; lia). unfold add_spec.
  rewrite !decode_pack by assumption. cbn [Z.eqb Pos.eqb]. unfold add_gen.
  replace (Z.min (F + 2 - bias E - F) (0 - bias E - F)) with (0 - bias E - F) by lia. rewrite Z.sub_diag. change (2 ^ 0) with 1. rewrite Z.mul_1_r.
  replace (F + 2 - bias E - F - (0 - bias E - F)) with (F + 2) by lia. unfold sgn. replace (2 ^ F + (2 ^ F - 1)) with (2 * 2 ^ F - 1) by ring.
  assert (EB : 2 ^ E = 2 * bias E + 2). { unfold bias. assert (2 ^ E = 2 * 2 ^ (E - 1)) by (rewrite <- pow2_S by lia; f_equal; lia). lia. }
  destruct (short_sum E D F (0 - bias E - F) ltac:(lia) ltac:(lia) ltac:(unfold emin, emax; lia)) as [S1 S2].
  assert (P : 0 < (2 ^ F + 1) * 2 ^ (F + 2) + (2 * 2 ^ F - 1)) by (pose proof (pow2_pos (F + 2) ltac:(lia)); nia).
  remember ((2 ^ F + 1) * 2 ^ (F + 2) + (2 * 2 ^ F - 1)) as n eqn:En. clear En.
  destruct (Z.eqb_spec n 0); [lia|]. destruct (Z.ltb_spec n 0); [lia|]. rewrite Z.abs_eq by lia. rewrite S1, S2.
  replace (0 - bias E - F + F + 2) with (2 - bias E) by lia. replace (2 ^ F + 1 + 1) with (2 ^ F + 2) by lia. split; reflexivity.
Qed.

Theorem short_add E F D : 3 < E < D -> 1 < F -> D + (2 * F + 1) + 3 <= 128 -> ~ (E = 4 /\ 14 <= F \/ E = 5 /\ 30 <= F \/ D = 5 /\ 32 <= F) -> F <> 30 \/ D < 7 ->
  exists x y x' y' p r d m e, wf (E + F + 3) x /\ wf (E + F + 3) y /\
    convert D (2 * F + 1) E F x = Some x' /\ convert D (2 * F + 1) E F y = Some y' /\ add_dual D (2 * F + 1) D (2 * F + 1) D (2 * F + 1) x' y' = Some p /\
    convert E F D (2 * F + 1) p = Some r /\ add_dual E F E F E F x y = Some d /\ decode E F d = Num false m e /\ decode E F r = Num false (m + 1) e.
Proof.
  intros HE HF HW N1 N2. apply short_add_ok; [lia| | |].
  - destruct (Z.eq_dec E 4) as [->|]; [change (2 ^ 4) with 16; lia|]. destruct (Z.eq_dec E 5) as [->|]; [change (2 ^ 5) with 32; lia|].
    pose proof (pow2_le 6 E ltac:(lia)) as P. change (2 ^ 6) with 64 in P. lia.
  - apply dual_legal_widths; lia.
  - apply dual_legal_widths; lia.
Qed.
