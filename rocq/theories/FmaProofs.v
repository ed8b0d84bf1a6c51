From Coq Require Import ZArith Bool Lia.
From Verif Require Import Fw FwLemmas Spec SpecLemmas SpecFma Mul MulProofs Flopoco FlopocoLemmas CompareProofs ConvertProofs ValueLemmas AddSingle AddDual AddDualProofs AddDualProofs4 AddDualProofs6 Fma.
Open Scope Z_scope.

Lemma round_to_fit E F s M k c : 0 <= c <= F -> 2 ^ c <= M < 2 ^ (c + 1) -> emin E <= k + c <= emax E ->
  round_to E F s M 1 k = Num s (M * 2 ^ (F - c)) (k - (F - c)).
Proof.
  intros Hc HM HR. assert (Pc : 0 < 2 ^ c) by (apply pow2_pos; lia). assert (Pd : 0 < 2 ^ (F - c)) by (apply pow2_pos; lia).
  assert (EF : 2 ^ F = 2 ^ c * 2 ^ (F - c)) by (rewrite <- pow2_add by lia; f_equal; lia).
  rewrite pow2_S in HM by lia.
  assert (B : 2 ^ F <= M * 2 ^ (F - c) < 2 * 2 ^ F) by (rewrite EF; clear - HM Pd; nia).
  rewrite <- (round_to_val E F ltac:(lia) s M k (F - c)) by lia.
  rewrite round_to_exact by lia. unfold norm_me. rewrite pow2_S by lia. destruct (Z.eqb_spec (M * 2 ^ (F - c)) (2 * 2 ^ F)); [lia|].
  unfold finish. replace (k - (F - c) + F) with (k + c) by lia.
  destruct (Z.ltb_spec (k + c) (emin E)); [lia|]. destruct (Z.ltb_spec (emax E) (k + c)); [lia|]. reflexivity.
Qed.

Lemma decode_num E F x s m e : 1 <= E -> 1 <= F -> wf (E + F + 3) x -> decode E F x = Num s m e ->
  2 ^ F <= m < 2 * 2 ^ F /\ emin E <= e + F <= emax E.
Proof.
  intros HE HF Hx D. destruct (pack_view E F x HE HF Hx) as (a & t & c & f & H & ->). rewrite decode_pack in D by exact H.
  destruct H as (_ & _ & _ & Hc & Hf).
  destruct (a =? 0); [discriminate|]. destruct (a =? 1); [|destruct (a =? 2); discriminate]. injection D as <- <- <-.
  assert (EE : 2 ^ E = 2 * 2 ^ (E - 1)) by (rewrite <- pow2_S by lia; f_equal; lia). unfold emin, emax, bias. lia.
Qed.

Lemma bias_mono E D : 1 <= E <= D -> bias E <= bias D.
Proof. intros H. pose proof (bias_le E D H). unfold bias. lia. Qed.

(** Conversion to a format at least as wide in both directions is exact. *)
Lemma convert_widen D G E F x : 1 <= E <= D -> 1 <= F <= G -> wf (E + F + 3) x ->
  exists r, convert D G E F x = Some r /\ wf (D + G + 3) r /\ decode D G r = scale_v (G - F) (decode E F x).
Proof.
  intros HE HF Hx. destruct (convert_correct D G E F x ltac:(lia) ltac:(lia) ltac:(lia) ltac:(lia) Hx ltac:(lia)) as (r & R1 & R2 & R3).
  exists r. split; [exact R1|]. split; [exact R2|]. rewrite R3. destruct (decode E F x) as [|s|s|s m e] eqn:Dx; try reflexivity.
  destruct (decode_num E F x s m e ltac:(lia) ltac:(lia) Hx Dx) as [A B]. cbn [convert_spec convert_gen scale_v].
  pose proof (bias_mono E D HE). unfold convert_spec, convert_gen. apply round_to_fit; [lia|rewrite pow2_S by lia; exact A|unfold emin, emax in *; lia].
Qed.

Lemma bias_2 E : 1 <= E -> bias (E + 2) = 4 * bias E + 3.
Proof. intros. unfold bias. replace (E + 2 - 1) with (E - 1 + 2) by lia. rewrite pow2_add by lia. change (2 ^ 2) with 4. lia. Qed.

(** The product in the wide format is exact. *)
Lemma fma_mul_exact E FX FY x y dx dy : 1 <= E -> 1 <= FX -> 1 <= FY -> wf (E + 2 + FX + 3) x -> wf (E + 2 + FY + 3) y ->
  decode (E + 2) FX x = dx -> decode (E + 2) FY y = dy ->
  (forall s m e, dx = Num s m e -> 2 ^ FX <= m < 2 * 2 ^ FX /\ emin E <= e + FX <= emax E) ->
  (forall s m e, dy = Num s m e -> 2 ^ FY <= m < 2 * 2 ^ FY /\ emin E <= e + FY <= emax E) ->
  exists r d, mul (E + 2) (FX + FY + 2) (E + 2) FX FY x y = Some r /\ wf (E + 2 + (FX + FY + 2) + 3) r /\ 0 <= d /\
    decode (E + 2) (FX + FY + 2) r = scale_v d (prod_exact dx dy).
Proof.
  intros HE HX HY Wx Wy Dx Dy Nx Ny.
  destruct (mul_exact_char (E + 2) (FX + FY + 2) FX FY x y ltac:(lia) HX HY ltac:(lia) Wx Wy) as (r & R1 & R2 & R3).
  rewrite Dx, Dy in R3.
  assert (G : forall s m e t n f, dx = Num s m e -> dy = Num t n f -> exists d, 0 <= d /\ decode (E + 2) (FX + FY + 2) r = scale_v d (prod_exact dx dy)).
  { intros s m e t n f -> ->. destruct (Nx s m e eq_refl) as [A1 A2], (Ny t n f eq_refl) as [B1 B2].
    assert (PX : 0 < 2 ^ FX) by (apply pow2_pos; lia). assert (PY : 0 < 2 ^ FY) by (apply pow2_pos; lia).
    assert (M1 : 2 ^ FX * 2 ^ FY <= m * n) by (apply Z.mul_le_mono_nonneg; lia).
    assert (M2 : m * n < (2 * 2 ^ FX) * (2 * 2 ^ FY)) by (apply Z.mul_lt_mono_nonneg; lia).
    rewrite <- pow2_add in M1 by lia.
    assert (EQ : (2 * 2 ^ FX) * (2 * 2 ^ FY) = 2 ^ (FX + FY + 2)) by (rewrite !pow2_add by lia; change (2 ^ 2) with 4; ring). rewrite EQ in M2.
    pose proof (bias_2 E HE) as BE. assert (0 <= bias E) by (unfold bias; pose proof (pow2_pos (E - 1)); lia).
    cbn [prod_exact mul_gen no_rounding scale_v] in *. unfold mul_spec, mul_gen in R3.
    assert (C : exists c, FX + FY <= c <= FX + FY + 1 /\ 2 ^ c <= m * n < 2 ^ (c + 1)).
    { destruct (Z_lt_le_dec (m * n) (2 ^ (FX + FY + 1))); [exists (FX + FY)|exists (FX + FY + 1)]; (split; [lia|]); [lia|].
      replace (FX + FY + 1 + 1) with (FX + FY + 2) by lia. lia. }
    destruct C as (c & C1 & C2).
    rewrite (round_to_fit (E + 2) (FX + FY + 2) _ (m * n) (e + f) c) in R3 by (unfold emin, emax in *; lia).
    exists (FX + FY + 2 - c). split; [lia|]. exact R3. }
  destruct dx as [|s|s|s m e], dy as [|t|t|t n f]; try (exists r, 0; split; [exact R1|]; split; [exact R2|]; split; [lia|]; exact R3).
  destruct (G s m e t n f eq_refl eq_refl) as (d & D1 & D2). exists r, d. split; [exact R1|]. split; [exact R2|]. split; assumption.
Qed.

Lemma scale_scale d d' v : 0 <= d -> 0 <= d' -> scale_v d (scale_v d' v) = scale_v (d' + d) v.
Proof. intros H H'. destruct v; cbn; try reflexivity. f_equal; [|lia]. rewrite pow2_add by lia. ring. Qed.

Lemma scale_0 v : scale_v 0 v = v.
Proof. destruct v; cbn; try reflexivity. change (2 ^ 0) with 1. rewrite Z.mul_1_r, Z.sub_0_r. reflexivity. Qed.

(** What fma computes: the exact product plus z, rounded to the wide format, then to the result. *)
Theorem fma_two_roundings wER wFR wEX wFX wEY wFY wEZ wFZ x y z :
  1 <= wER -> 1 <= wFR -> 1 <= wEX -> 1 <= wFX -> 1 <= wEY -> 1 <= wFY -> 1 <= wEZ -> 1 <= wFZ ->
  let E := Z.max (Z.max wEX wEY + 2) (wEZ + 1) in let F := Z.max (wFX + wFY + 2) wFZ in
  dual_ok_width E F -> wER <> E \/ F <= wFR ->
  wf (wEX + wFX + 3) x -> wf (wEY + wFY + 3) y -> wf (wEZ + wFZ + 3) z ->
  exists r, fma wER wFR wEX wFX wEY wFY wEZ wFZ x y z = Some r /\ wf (wER + wFR + 3) r /\
    decode wER wFR r = convert_spec wER wFR (add_spec E F (prod_exact (decode wEX wFX x) (decode wEY wFY y)) (decode wEZ wFZ z)).
Proof.
  intros HER HFR HEX HFX HEY HFY HEZ HFZ E F HD HC Wx Wy Wz. unfold fma.
  assert (E1 : fma_wEXY wEX wEY = Z.max wEX wEY + 2) by (unfold fma_wEXY; destruct (Z.ltb_spec wEY wEX); lia).
  assert (E2 : fma_wEXYZ wEX wEY wEZ = E) by (unfold fma_wEXYZ; rewrite E1; unfold E; destruct (Z.ltb_spec wEZ (Z.max wEX wEY + 2)); lia).
  assert (E3 : fma_wFXYZ wFX wFY wFZ = F) by (unfold fma_wFXYZ, fma_wFXY, ctMax, F; destruct (Z.ltb_spec wFZ (wFX + wFY + 2)); lia).
  rewrite E2, E3, E1. unfold fma_wFXY.
  assert (HE : Z.max wEX wEY + 2 <= E) by (unfold E; lia). assert (HE' : wEZ <= E) by (unfold E; lia).
  assert (HF : wFX + wFY + 2 <= F) by (unfold F; lia). assert (HF' : wFZ <= F) by (unfold F; lia).
  clear E1 E2 E3. clearbody E F. remember (Z.max wEX wEY) as M eqn:EM.
  destruct (convert_widen (M + 2) wFX wEX wFX x ltac:(lia) ltac:(lia) Wx) as (xx & -> & Wxx & Dxx). cbn [bind].
  destruct (convert_widen (M + 2) wFY wEY wFY y ltac:(lia) ltac:(lia) Wy) as (yy & -> & Wyy & Dyy). cbn [bind].
  rewrite Z.sub_diag, scale_0 in Dxx, Dyy.
  destruct (fma_mul_exact M wFX wFY xx yy _ _ ltac:(lia) HFX HFY Wxx Wyy Dxx Dyy) as (xy & d & -> & Wxy & Hd & Dxy).
  { intros s m e K. destruct (decode_num wEX wFX x s m e HEX HFX Wx K). split; [assumption|]. pose proof (bias_mono wEX M ltac:(lia)). unfold emin, emax in *. lia. }
  { intros s m e K. destruct (decode_num wEY wFY y s m e HEY HFY Wy K). split; [assumption|]. pose proof (bias_mono wEY M ltac:(lia)). unfold emin, emax in *. lia. }
  cbn [bind].
  destruct (convert_widen E F (M + 2) (wFX + wFY + 2) xy ltac:(lia) ltac:(lia) Wxy) as (xyxy & -> & Wp & Dp). cbn [bind].
  destruct (convert_widen E F wEZ wFZ z ltac:(lia) ltac:(lia) Wz) as (zz & -> & Wzz & Dzz). cbn [bind].
  rewrite Dxy, scale_scale in Dp by lia.
  destruct (add_dual_same E F xyxy zz HD Wp Wzz) as (r & R1 & R2 & R3). unfold add_fast. rewrite R1. cbn [bind].
  rewrite Dp, Dzz in R3. unfold add_spec in R3. rewrite add_gen_scale2 in R3; [|apply round_to_val; lia|lia|lia| |apply decode_pos; lia].
  2: { destruct (decode wEX wFX x) as [|s|s|s m e] eqn:Ex, (decode wEY wFY y) as [|t|t|t n f] eqn:Ey; cbn; try exact I.
       pose proof (decode_pos wEX wFX x ltac:(lia)) as Q1. pose proof (decode_pos wEY wFY y ltac:(lia)) as Q2. rewrite Ex in Q1. rewrite Ey in Q2. cbn in Q1, Q2. apply Z.mul_pos_pos; assumption. }
  destruct (convert_correct wER wFR E F r ltac:(lia) ltac:(lia) ltac:(lia) ltac:(lia) R2 ltac:(lia)) as (q & Q1 & Q2 & Q3).
  exists q. split; [exact Q1|]. split; [exact Q2|]. rewrite Q3, R3. reflexivity.
Qed.
