(** The fused multiply-add rounds twice in every format. *)
From Coq Require Import ZArith Bool Lia.
From Verif Require Import Fw FwLemmas Spec SpecLemmas SpecFma Flopoco FlopocoLemmas CompareProofs ValueLemmas AddDual AddDualProofs Fma FmaProofs FmaProofs2 FmaProofs3.
Open Scope Z_scope.

Lemma rne_even_near n D a : 0 < D -> Z.even a = true -> - D <= 2 * (n - a * D) <= D -> rne_div n D = a.
Proof.
  intros HD Ea H. unfold rne_div.
  destruct (Z_lt_ge_dec (n - a * D) 0) as [L|L].
  - assert (Q : n / D = a - 1) by (symmetry; apply (Z.div_unique n D (a - 1) (n - (a - 1) * D)); lia).
    rewrite Q, (Z.mod_eq n D), Q by lia.
    destruct (Z.ltb_spec (2 * (n - D * (a - 1))) D); [lia|]. destruct (Z.ltb_spec D (2 * (n - D * (a - 1)))); [lia|].
    replace (Z.even (a - 1)) with false; [lia|]. rewrite Z.even_sub, Ea. reflexivity.
  - assert (Q : n / D = a) by (symmetry; apply (Z.div_unique n D a (n - a * D)); lia).
    rewrite Q, (Z.mod_eq n D), Q, Ea by lia.
    destruct (Z.ltb_spec (2 * (n - D * a)) D); [lia|]. destruct (Z.ltb_spec D (2 * (n - D * a))); [lia|]. reflexivity.
Qed.

Lemma rne_half K D : 0 < D -> rne_div ((2 * K + 1) * D) (2 * D) = if Z.even K then K else K + 1.
Proof.
  intros HD. unfold rne_div. assert (Q : (2 * K + 1) * D / (2 * D) = K) by (symmetry; apply (Z.div_unique _ _ K D); lia).
  rewrite (Z.mod_eq _ (2 * D)), Q by lia. replace ((2 * K + 1) * D - 2 * D * K) with D by ring. rewrite Z.ltb_irrefl.
  destruct (Z.ltb_spec (2 * D) (2 * D)); [lia|]. reflexivity.
Qed.

(** A number next to the middle between K and K + 1: one rounding sees on which side it lies, two do not. *)
Lemma two_round E F n k q t K : 1 <= E -> 1 <= F -> F + 2 <= q -> n = (2 * K + 1) * 2 ^ q + t -> t <> 0 -> 2 * Z.abs t <= 2 ^ (q - F - 1) ->
  2 ^ F <= K -> K + 1 < 2 ^ (F + 1) -> emin E <= k + q + 1 + F <= emax E ->
  round_to E F false n 1 k = Num false (if t <? 0 then K else K + 1) (k + q + 1) /\
  convert_spec E F (round_to (E + 2) (2 * F + 2) false n 1 k) = Num false (if Z.even K then K else K + 1) (k + q + 1).
Proof.
  intros HE HF Hq En Ht Htd HK1 HK2 HR. remember (q - F - 1) as d eqn:Ed.
  pose proof (pow2_pos d ltac:(lia)) as Pd. pose proof (pow2_pos q ltac:(lia)) as Pq. pose proof (pow2_pos F ltac:(lia)) as PF.
  assert (EF1 : 2 ^ (F + 1) = 2 * 2 ^ F) by (apply pow2_S; lia).
  assert (Eq : 2 ^ q = 2 ^ (F + 1) * 2 ^ d) by (rewrite <- pow2_add by lia; f_equal; lia).
  assert (Eq1 : 2 ^ (q + 1) = 2 * 2 ^ q) by (apply pow2_S; lia).
  assert (Hdq : 2 * 2 ^ d <= 2 ^ q) by (rewrite Eq, EF1; nia).
  assert (B1 : 2 ^ F * (2 * 2 ^ q) <= n < 2 * 2 ^ F * (2 * 2 ^ q)).
  { subst n. split; nia. }
  assert (FIN : forall m, 2 ^ F <= m < 2 ^ (F + 1) -> finish (emin E) (emax E) F false (norm_me F m (k + q + 1)) = Num false m (k + q + 1)).
  { intros m Hm. unfold norm_me. destruct (Z.eqb_spec m (2 ^ (F + 1))); [lia|]. unfold finish.
    destruct (Z.ltb_spec (k + q + 1 + F) (emin E)); [lia|]. destruct (Z.ltb_spec (emax E) (k + q + 1 + F)); [lia|]. reflexivity. }
  split.
  - rewrite (round_to_at E F false n k (q + 1)) by (rewrite ?Eq1; lia). replace (k + (q + 1)) with (k + q + 1) by lia.
    rewrite (rne_nearest n (2 ^ (q + 1)) (if t <? 0 then K else K + 1)); [|lia|].
    + apply FIN. destruct (t <? 0); lia.
    + rewrite Eq1, En. destruct (Z.ltb_spec t 0); nia.
  - rewrite (round_to_at (E + 2) (2 * F + 2) false n k d); [|lia|lia|].
    2: { replace (2 ^ (2 * F + 2)) with (2 * 2 ^ F * 2 ^ (F + 1)) by (rewrite EF1; replace (2 * F + 2) with (F + 1 + (F + 1)) by lia; rewrite pow2_add, EF1 by lia; ring).
         rewrite Eq in B1. lia. }
    rewrite (rne_even_near n (2 ^ d) ((2 * K + 1) * 2 ^ (F + 1))); [|lia| |].
    2: { rewrite EF1. rewrite !Z.even_mul. cbn [Z.even]. apply orb_true_r. }
    2: { rewrite En, Eq. replace ((2 * K + 1) * (2 ^ (F + 1) * 2 ^ d) + t - (2 * K + 1) * 2 ^ (F + 1) * 2 ^ d) with t by ring. lia. }
    unfold norm_me. destruct (Z.eqb_spec ((2 * K + 1) * 2 ^ (F + 1)) (2 ^ (2 * F + 2 + 1))) as [X|_].
    { exfalso. replace (2 ^ (2 * F + 2 + 1)) with (4 * 2 ^ F * 2 ^ (F + 1)) in X by (rewrite EF1; replace (2 * F + 2 + 1) with (F + 1 + (F + 1) + 1) by lia; rewrite pow2_S, pow2_add, EF1 by lia; ring).
      apply Z.mul_reg_r in X; lia. }
    pose proof (bias_2 E ltac:(lia)) as BE. assert (BB : 0 <= bias E) by (unfold bias; pose proof (pow2_pos (E - 1) ltac:(lia)); lia).
    assert (E2 : 2 ^ (E + 2) = 4 * 2 ^ E) by (rewrite pow2_add by lia; change (2 ^ 2) with 4; ring).
    pose proof (pow2_pos E ltac:(lia)) as PE.
    unfold finish. replace (k + d + (2 * F + 2)) with (k + q + 1 + F) by lia.
    assert (Lo : emin (E + 2) <= emin E) by (unfold emin; lia).
    assert (Hi : emax E <= emax (E + 2)).
    { unfold emax. rewrite BE. unfold bias. assert (2 ^ E = 2 * 2 ^ (E - 1)) by (rewrite <- pow2_S by lia; f_equal; lia). lia. }
    destruct (Z.ltb_spec (k + q + 1 + F) (emin (E + 2))); [lia|]. destruct (Z.ltb_spec (emax (E + 2)) (k + q + 1 + F)); [lia|].
    unfold convert_spec, convert_gen.
    assert (EF2 : 2 ^ (F + 2) = 2 * 2 ^ (F + 1)) by (replace (F + 2) with (F + 1 + 1) by lia; rewrite (pow2_S (F + 1)) by lia; ring).
    rewrite (round_to_at E F false _ (k + d) (F + 2)); [|lia|lia|].
    2: { rewrite EF2. split.
         - replace (2 ^ F * (2 * 2 ^ (F + 1))) with (2 * 2 ^ F * 2 ^ (F + 1)) by ring. apply Z.mul_le_mono_nonneg_r; lia.
         - replace (2 * 2 ^ F * (2 * 2 ^ (F + 1))) with (4 * 2 ^ F * 2 ^ (F + 1)) by ring. apply Z.mul_lt_mono_pos_r; lia. }
    rewrite EF2, rne_half by lia. replace (k + d + (F + 2)) with (k + q + 1) by lia. apply FIN. destruct (Z.even K); lia.
Qed.

Lemma wide_ok E F : dual_ok_width (E + 2) (2 * F + 2) -> 2 <= E.
Proof. intros (H & _). lia. Qed.

(** Any operands whose exact x*y + z is as in [two_round]. *)
Lemma fma_at E F fx mx fy my gz mz q t K : dual_ok_width (E + 2) (2 * F + 2) -> 1 <= F ->
  0 <= fx < 2 ^ E -> 0 <= fy < 2 ^ E -> 0 <= gz < 2 ^ E -> 2 ^ F <= mx < 2 * 2 ^ F -> 2 ^ F <= my < 2 * 2 ^ F -> 2 ^ F <= mz < 2 * 2 ^ F ->
  let sh := gz - fx - fy + bias E + F in 0 <= sh -> F + 2 <= q ->
  mx * my + mz * 2 ^ sh = (2 * K + 1) * 2 ^ q + t -> t <> 0 -> 2 * Z.abs t <= 2 ^ (q - F - 1) ->
  2 ^ F <= K -> K + 1 < 2 ^ (F + 1) -> 0 <= fx + fy - bias E + q + 1 - F < 2 ^ E ->
  exists x y z r e, wf (E + F + 3) x /\ wf (E + F + 3) y /\ wf (E + F + 3) z /\
    fma E F E F E F E F x y z = Some r /\
    fma_spec E F (decode E F x) (decode E F y) (decode E F z) = Num false (if t <? 0 then K else K + 1) e /\
    decode E F r = Num false (if Z.even K then K else K + 1) e.
Proof.
  intros DW HF Hfx Hfy Hgz Hmx Hmy Hmz sh Hsh Hq EN Ht Htd HK1 HK2 HR. pose proof (wide_ok E F DW) as HE.
  assert (Ox : okf E F 1 fx (mx - 2 ^ F)) by (unfold okf; lia). assert (Oy : okf E F 1 fy (my - 2 ^ F)) by (unfold okf; lia).
  assert (Oz : okf E F 1 gz (mz - 2 ^ F)) by (unfold okf; lia).
  exists (pack E F 1 false fx (mx - 2 ^ F)), (pack E F 1 false fy (my - 2 ^ F)), (pack E F 1 false gz (mz - 2 ^ F)).
  assert (DW' : dual_ok_width (Z.max (Z.max E E + 2) (E + 1)) (Z.max (F + F + 2) F)).
  { replace (Z.max (Z.max E E + 2) (E + 1)) with (E + 2) by lia. replace (Z.max (F + F + 2) F) with (2 * F + 2) by lia. exact DW. }
  pose proof (pack_wf E F 1 false _ _ Ox) as Wx. pose proof (pack_wf E F 1 false _ _ Oy) as Wy. pose proof (pack_wf E F 1 false _ _ Oz) as Wz.
  destruct (fma_two_roundings E F E F E F E F _ _ _ ltac:(lia) ltac:(lia) ltac:(lia) ltac:(lia) ltac:(lia) ltac:(lia) ltac:(lia) ltac:(lia) DW' ltac:(lia) Wx Wy Wz) as (r & R1 & _ & R3).
  replace (Z.max (Z.max E E + 2) (E + 1)) with (E + 2) in R3 by lia. replace (Z.max (F + F + 2) F) with (2 * F + 2) in R3 by lia.
  rewrite !decode_pack in R3 by assumption. cbn [Z.eqb Pos.eqb] in R3. rewrite !decode_pack by assumption. cbn [Z.eqb Pos.eqb].
  replace (2 ^ F + (mx - 2 ^ F)) with mx in * by ring. replace (2 ^ F + (my - 2 ^ F)) with my in * by ring. replace (2 ^ F + (mz - 2 ^ F)) with mz in * by ring.
  unfold fma_spec. unfold add_spec in R3. unfold prod_exact, mul_gen, no_rounding, xorb, add_gen in *.
  remember (bias E) as B eqn:EB. remember (fx - B - F + (fy - B - F)) as k eqn:Ek.
  replace (Z.min k (gz - B - F)) with k in * by lia. rewrite Z.sub_diag, Z.pow_0_r, Z.mul_1_r in *. unfold sgn in *.
  replace (gz - B - F - k) with sh in * by (unfold sh; lia). remember (mx * my + mz * 2 ^ sh) as n eqn:En.
  assert (N0 : 0 < n). { subst n. pose proof (pow2_pos sh Hsh). pose proof (pow2_pos F ltac:(lia)). nia. }
  destruct (Z.eqb_spec n 0) as [V|_]; [lia|]. destruct (Z.ltb_spec n 0) as [V|_]; [lia|]. rewrite Z.abs_eq in * by lia.
  destruct (two_round E F n k q t K) as [T1 T2]; try assumption; try lia.
  { unfold emin, emax. assert (2 ^ E = 2 * 2 ^ (E - 1)) by (rewrite <- pow2_S by lia; f_equal; lia). assert (B = 2 ^ (E - 1) - 1) by exact EB. rewrite <- EB. lia. }
  exists r, (k + q + 1). split; [exact Wx|]. split; [exact Wy|]. split; [exact Wz|]. split; [exact R1|]. split; [exact T1|]. rewrite R3. exact T2.
Qed.

Theorem fma_never_fused E F : 1 <= F -> dual_ok_width (E + 2) (2 * F + 2) ->
  exists x y z r m m' e, wf (E + F + 3) x /\ wf (E + F + 3) y /\ wf (E + F + 3) z /\
    fma E F E F E F E F x y z = Some r /\
    fma_spec E F (decode E F x) (decode E F y) (decode E F z) = Num false m e /\ decode E F r = Num false m' e /\ Z.abs (m' - m) = 1.
Proof.
  intros HF DW. pose proof (wide_ok E F DW) as HE.
  assert (EB : 2 ^ E = 2 * bias E + 2). { unfold bias. assert (2 ^ E = 2 * 2 ^ (E - 1)) by (rewrite <- pow2_S by lia; f_equal; lia). lia. }
  assert (HB : 1 <= bias E). { pose proof (pow2_le 2 E ltac:(lia)) as P. change (2 ^ 2) with 4 in P. lia. }
  assert (G : (exists fx mx fy my gz mz q t K, 0 <= fx < 2 ^ E /\ 0 <= fy < 2 ^ E /\ 0 <= gz < 2 ^ E /\ 2 ^ F <= mx < 2 * 2 ^ F /\ 2 ^ F <= my < 2 * 2 ^ F /\ 2 ^ F <= mz < 2 * 2 ^ F /\
     0 <= gz - fx - fy + bias E + F /\ F + 2 <= q /\ mx * my + mz * 2 ^ (gz - fx - fy + bias E + F) = (2 * K + 1) * 2 ^ q + t /\ t <> 0 /\ 2 * Z.abs t <= 2 ^ (q - F - 1) /\
     2 ^ F <= K /\ K + 1 < 2 ^ (F + 1) /\ 0 <= fx + fy - bias E + q + 1 - F < 2 ^ E /\ Z.even K = negb (t <? 0))).
  { destruct (Z_le_gt_dec 4 F) as [H4|H4].
    - (* X^2 - 1 with X = 2^F + 2^a *)
      assert (Ha : exists a g, 2 * a = F + g /\ 2 <= g <= 3 /\ 2 <= a < F).
      { pose proof (Z.div_mod (F + 3) 2 ltac:(lia)) as D. pose proof (Z.mod_pos_bound (F + 3) 2 ltac:(lia)).
        exists ((F + 3) / 2), (2 * ((F + 3) / 2) - F). lia. }
      destruct Ha as (a & g & Ea & Hg & Haf). remember (F - a) as b eqn:Eb.
      assert (Pa : 4 <= 2 ^ a) by (change 4 with (2 ^ 2); apply pow2_le; lia).
      assert (Pb : 2 <= 2 ^ b) by (change 2 with (2 ^ 1) at 1; apply pow2_le; lia).
      assert (EF : 2 ^ F = 2 ^ a * 2 ^ b) by (rewrite <- pow2_add by lia; f_equal; lia).
      assert (Eb1 : 2 ^ b = 2 * 2 ^ (b - 1)) by (rewrite <- pow2_S by lia; f_equal; lia).
      assert (E2a : 2 ^ (2 * a) = 2 ^ a * 2 ^ a) by (rewrite <- pow2_add by lia; f_equal; lia).
      assert (Hbb : 2 ^ b * 2 ^ b * 4 <= 2 ^ F).
      { change 4 with (2 ^ 2). rewrite <- !pow2_add by lia. apply pow2_le. lia. }
      pose proof (pow2_pos (b - 1) ltac:(lia)) as Pb1.
      exists (bias E - 1), (2 ^ F + 2 ^ a + 1), 0, (2 ^ F + 2 ^ a - 1), g, (2 ^ F + 1), (2 * a), (-1), (2 ^ F + 1 + 2 * (2 ^ (b - 1) * 2 ^ (b - 1)) + 2 ^ b).
      assert (ES : g - (bias E - 1) - 0 + bias E + F = 2 * a + 1) by lia. rewrite ES.
      split; [lia|]. split; [lia|]. split; [lia|]. split; [nia|]. split; [nia|]. split; [nia|]. split; [lia|]. split; [lia|].
      split. { rewrite (pow2_S (2 * a)) by lia. rewrite E2a. rewrite EF, Eb1. ring. }
      split; [lia|]. split. { replace (2 * Z.abs (-1)) with (2 ^ 1) by reflexivity. apply pow2_le. lia. }
      split; [nia|]. split; [rewrite pow2_S by lia; nia|]. split; [lia|].
      replace (2 ^ F + 1 + 2 * (2 ^ (b - 1) * 2 ^ (b - 1)) + 2 ^ b) with (1 + 2 * (2 ^ a * 2 ^ (b - 1) + 2 ^ (b - 1) * 2 ^ (b - 1) + 2 ^ (b - 1))) by (rewrite EF, Eb1; ring).
      rewrite Z.even_add_mul_2. reflexivity.
    - assert (C : F = 1 \/ F = 2 \/ F = 3) by lia. destruct C as [-> | [-> | ->]].
      + exists (bias E - 1), 3, 0, 3, 2, 2, 3, 1, 2. replace (2 - (bias E - 1) - 0 + bias E + 1) with 4 by lia. cbn. lia.
      + exists (bias E - 1), 7, 0, 7, 1, 6, 4, 1, 4. replace (1 - (bias E - 1) - 0 + bias E + 2) with 4 by lia. cbn. lia.
      + exists (bias E - 1), 15, 0, 15, 1, 10, 5, 1, 8. replace (1 - (bias E - 1) - 0 + bias E + 3) with 5 by lia. cbn. lia. }
  destruct G as (fx & mx & fy & my & gz & mz & q & t & K & H1 & H2 & H3 & H4 & H5 & H6 & H7 & H8 & H9 & H10 & H11 & H12 & H13 & H14 & H15).
  destruct (fma_at E F fx mx fy my gz mz q t K DW HF H1 H2 H3 H4 H5 H6 H7 H8 H9 H10 H11 H12 H13 H14) as (x & y & z & r & e & R1 & R2 & R3 & R4 & R5 & R6).
  exists x, y, z, r. do 3 eexists. split; [exact R1|]. split; [exact R2|]. split; [exact R3|]. split; [exact R4|]. split; [exact R5|]. split; [exact R6|].
  rewrite H15. destruct (t <? 0); cbn [negb]; lia.
Qed.
