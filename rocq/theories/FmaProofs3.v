From Coq Require Import ZArith Bool Lia.
From Verif Require Import Fw FwLemmas Spec SpecLemmas SpecFma Flopoco FlopocoLemmas CompareProofs ValueLemmas AddDual AddDualProofs Fma FmaProofs FmaProofs2.
Open Scope Z_scope.

Lemma round_to_at E F s n k d : 0 <= F -> 0 <= d -> 2 ^ F * 2 ^ d <= n < 2 * 2 ^ F * 2 ^ d ->
  round_to E F s n 1 k = finish (emin E) (emax E) F s (norm_me F (rne_div n (2 ^ d)) (k + d)).
Proof.
  intros HF Hd Hn. assert (Pd : 0 < 2 ^ d) by (apply pow2_pos; lia). assert (PF : 0 < 2 ^ F) by (apply pow2_pos; lia).
  assert (0 < 2 ^ F * 2 ^ d) by (apply Z.mul_pos_pos; lia).
  unfold round_to. apply round_range_char; [lia|lia|lia|lia| |rewrite pow2_S by lia; lia].
  replace (k - (k + d)) with (- d) by lia. unfold num2, den2. rewrite Z.opp_involutive, (Z.max_r 0 d), (Z.max_l 0 (- d)) by lia. change (2 ^ 0) with 1. ring.
Qed.

(** 1.5 * (1 + 2^-F) is half way between two numbers; a tiny z takes it below, but is lost in
    the first rounding. *)
Theorem fma_double_rounds E F : 3 <= F < 2 ^ 28 -> 2 * F + 6 <= 2 ^ E ->
  exists x y z r m e, wf (E + F + 3) x /\ wf (E + F + 3) y /\ wf (E + F + 3) z /\
    fma E F E F E F E F x y z = Some r /\
    fma_spec E F (decode E F x) (decode E F y) (decode E F z) = Num false m e /\ decode E F r = Num false (m + 1) e.
Proof.
  intros HF HR.
  assert (HE : 2 <= E).
  { destruct (Z_le_gt_dec 2 E) as [L|L]; [exact L|]. assert (2 ^ E <= 2 ^ 1) by (apply Z.pow_le_mono_r; lia). change (2 ^ 1) with 2 in *. lia. }
  assert (EE : 2 ^ E = 2 * 2 ^ (E - 1)) by (rewrite <- pow2_S by lia; f_equal; lia).
  assert (PE : 0 < 2 ^ (E - 1)) by (apply pow2_pos; lia).
  assert (EF : 2 ^ F = 2 * 2 ^ (F - 1)) by (rewrite <- pow2_S by lia; f_equal; lia).
  assert (PF : 4 <= 2 ^ (F - 1)) by (change 4 with (2 ^ 2); apply Z.pow_le_mono_r; lia).
  assert (Ox : okf E F 1 (2 ^ E - 1) (2 ^ (F - 1))) by (unfold okf; lia).
  assert (Oy : okf E F 1 (bias E) 1) by (unfold okf, bias; lia).
  assert (Oz : okf E F 1 0 0) by (unfold okf; lia).
  exists (pack E F 1 false (2 ^ E - 1) (2 ^ (F - 1))), (pack E F 1 false (bias E) 1), (pack E F 1 true 0 0).
  assert (DW : dual_ok_width (E + 2) (2 * F + 2)).
  { unfold dual_ok_width. replace (E + 2 + 1) with (E + 3) by lia. rewrite pow2_add by lia. change (2 ^ 3) with 8. change (2 ^ 31) with (8 * 2 ^ 28).
    repeat split; try lia. do 4 right. intros Q. destruct (Z.eq_dec (Z.log2 (2 * F + 2 + 3)) 0) as [Z0|Z0]; [rewrite Z0 in Q; change (2 ^ 0) with 1 in Q; lia|].
    pose proof (Z.log2_nonneg (2 * F + 2 + 3)). assert (2 ^ Z.log2 (2 * F + 2 + 3) = 2 * 2 ^ (Z.log2 (2 * F + 2 + 3) - 1)) by (rewrite <- pow2_S by lia; f_equal; lia). lia. }
  assert (DW' : dual_ok_width (Z.max (Z.max E E + 2) (E + 1)) (Z.max (F + F + 2) F)).
  { replace (Z.max (Z.max E E + 2) (E + 1)) with (E + 2) by lia. replace (Z.max (F + F + 2) F) with (2 * F + 2) by lia. exact DW. }
  pose proof (pack_wf E F 1 false _ _ Ox) as Wx. pose proof (pack_wf E F 1 false _ _ Oy) as Wy. pose proof (pack_wf E F 1 true _ _ Oz) as Wz.
  destruct (fma_two_roundings E F E F E F E F _ _ _ ltac:(lia) ltac:(lia) ltac:(lia) ltac:(lia) ltac:(lia) ltac:(lia) ltac:(lia) ltac:(lia) DW' ltac:(lia) Wx Wy Wz) as (r & R1 & _ & R3).
  replace (Z.max (Z.max E E + 2) (E + 1)) with (E + 2) in R3 by lia. replace (Z.max (F + F + 2) F) with (2 * F + 2) in R3 by lia.
  rewrite !decode_pack in R3 by assumption. cbn [Z.eqb Pos.eqb] in R3. rewrite !decode_pack by assumption. cbn [Z.eqb Pos.eqb].
  unfold fma_spec. unfold add_spec in R3. cbn [prod_exact mul_gen no_rounding xorb add_gen] in *. unfold prod_exact, mul_gen, no_rounding, xorb, add_gen in *.
  remember (2 ^ (F - 1)) as h eqn:Eh. remember (bias E) as B eqn:EB. rewrite EF in *.
  remember (2 ^ E - 1 - F) as d eqn:Ed.
  assert (Hk : Z.min (2 ^ E - 1 - B - F + (B - B - F)) (0 - B - F) = - B - F) by (unfold bias in EB; lia). rewrite Hk in *.
  replace (2 ^ E - 1 - B - F + (B - B - F) - (- B - F)) with d in * by lia. replace (0 - B - F - (- B - F)) with 0 in * by lia.
  change (2 ^ 0) with 1 in *. unfold sgn in *. rewrite Z.add_0_r, Z.mul_1_r in *.
  remember ((2 * h + h) * (2 * h + 1)) as P eqn:EP.
  assert (Pd : 0 < 2 ^ d) by (apply pow2_pos; lia).
  assert (E2 : 2 ^ d = 4 * 2 ^ (d - 2)) by (replace d with (d - 2 + 2) at 1 by lia; rewrite pow2_add by lia; change (2 ^ 2) with 4; ring).
  assert (PL : 16 * (2 * h) <= 2 ^ d).
  { rewrite <- EF. change 16 with (2 ^ 4). rewrite <- pow2_add by lia. apply Z.pow_le_mono_r; lia. }
  assert (BP : 4 * (h * h) + 1 <= P < 8 * (h * h)) by (rewrite EP; clear - PF; nia).
  assert (VP : 4 * (h * h) * 2 ^ d <= P * 2 ^ d - 2 * h < 8 * (h * h) * 2 ^ d) by (clear - BP PL PF Pd; nia).
  assert (P2F : 2 ^ (2 * F) = 4 * (h * h)) by (replace (2 * F) with (F + F) by lia; rewrite pow2_add, EF by lia; ring).
  remember (P * 2 ^ d + - (2 * h)) as v eqn:Ev.
  assert (V0 : 0 < v) by (clear - VP Ev PF Pd; nia).
  destruct (Z.eqb_spec v 0) as [V|_]; [lia|]. destruct (Z.ltb_spec v 0) as [V|_]; [lia|]. rewrite Z.abs_eq in * by lia.
  exists r, (3 * h + 1), (- B - F + (d + F)). split; [exact Wx|]. split; [exact Wy|]. split; [exact Wz|]. split; [exact R1|].
  assert (RNG : forall g, finish (emin E) (emax E) F false (norm_me F g (- B - F + (d + F))) = if g =? 2 * (2 * h) then finish (emin E) (emax E) F false (2 * h, - B - F + (d + F) + 1) else Num false g (- B - F + (d + F))).
  { intros g. unfold norm_me. rewrite pow2_S, EF by lia. destruct (g =? 2 * (2 * h)); [reflexivity|]. unfold finish.
    replace (- B - F + (d + F) + F) with (emax E) by (unfold emax, bias in *; lia). destruct (Z.ltb_spec (emax E) (emin E)); [unfold emax, emin, bias in *; lia|]. rewrite Z.ltb_irrefl. reflexivity. }
  assert (EdF : 2 ^ (d + F) = 2 ^ d * (2 * h)) by (rewrite pow2_add, EF by lia; reflexivity).
  split.
  - rewrite (round_to_at E F false v (- B - F) (d + F)); [|lia|lia|rewrite EdF, EF; clear - VP Ev; lia].
    rewrite RNG. rewrite (rne_nearest v (2 ^ (d + F)) (3 * h + 1)).
    + destruct (Z.eqb_spec (3 * h + 1) (2 * (2 * h))); [lia|reflexivity].
    + rewrite EdF. apply Z.mul_pos_pos; lia.
    + rewrite EdF. replace (v - (3 * h + 1) * (2 ^ d * (2 * h))) with (h * 2 ^ d - 2 * h) by (rewrite Ev, EP; ring). clear - PL PF Pd. nia.
  - rewrite R3.
    rewrite (round_to_at (E + 2) (2 * F + 2) false v (- B - F) (d - 2)); [|lia|lia|].
    2: { rewrite (pow2_add (2 * F) 2), P2F by lia. change (2 ^ 2) with 4. clear - VP Ev E2. rewrite E2 in VP. lia. }
    rewrite (rne_nearest v (2 ^ (d - 2)) (4 * P)); [|lia|].
    2: { replace (v - 4 * P * 2 ^ (d - 2)) with (- (2 * h)) by (rewrite Ev, E2; ring). clear - E2 PL PF. lia. }
    unfold norm_me. rewrite pow2_S, (pow2_add (2 * F) 2), P2F by lia. change (2 ^ 2) with 4. destruct (Z.eqb_spec (4 * P) (2 * (4 * (h * h) * 4))) as [K|_]; [clear - K BP; lia|].
    pose proof (bias_2 E ltac:(lia)) as BE. unfold finish.
    destruct (Z.ltb_spec (- B - F + (d - 2) + (2 * F + 2)) (emin (E + 2))) as [K|_]; [unfold emin, bias in *; lia|].
    destruct (Z.ltb_spec (emax (E + 2)) (- B - F + (d - 2) + (2 * F + 2))) as [K|_]; [unfold emax in *; rewrite BE in K; unfold bias in *; lia|].
    unfold convert_spec, convert_gen.
    assert (EF2 : 2 ^ (F + 2) = 8 * h) by (rewrite pow2_add, EF by lia; change (2 ^ 2) with 4; ring).
    rewrite (round_to_at E F false (4 * P) (- B - F + (d - 2)) (F + 2)); [|lia|lia|rewrite EF2, EF; clear - BP; lia].
    replace (- B - F + (d - 2) + (F + 2)) with (- B - F + (d + F)) by lia. rewrite RNG.
    assert (RT : rne_div (4 * P) (2 ^ (F + 2)) = 3 * h + 2).
    { rewrite EF2. unfold rne_div. replace (4 * P) with (4 * h + (3 * h + 1) * (8 * h)) by (rewrite EP; ring). rewrite Z.div_add, Z.mod_add by lia. rewrite Z.div_small, Z.mod_small by lia.
      destruct (Z.ltb_spec (2 * (4 * h)) (8 * h)); [lia|]. destruct (Z.ltb_spec (8 * h) (2 * (4 * h))); [lia|].
      assert (EV : Z.even (0 + (3 * h + 1)) = false).
      { rewrite Eh. replace (F - 1) with (F - 2 + 1) by lia. rewrite pow2_S by lia. replace (0 + (3 * (2 * 2 ^ (F - 2)) + 1)) with (1 + 2 * (3 * 2 ^ (F - 2))) by ring. rewrite Z.even_add_mul_2. reflexivity. }
      rewrite EV. lia. }
    rewrite RT. destruct (Z.eqb_spec (3 * h + 2) (2 * (2 * h))); [lia|]. f_equal; lia.
Qed.
