From Coq Require Import ZArith Bool Lia List.
From Verif Require Import Fw FwLemmas Spec SpecLemmas Flopoco FlopocoLemmas CompareProofs AddLemmas AddSingleProofs AddSingleProofs2 AddDualProofs Div DivProofs DivProofs2 DivProofs3.
Import ListNotations.
Open Scope Z_scope.

Lemma add_sub_1 W a b : 1 <= W -> 0 <= b < 2 ^ W -> add_sub W 1 a b = fsub W a b.
Proof.
  intros HW Hb. unfold add_sub, add_with_cin. cbn [select to_bool Z.eqb Pos.eqb].
  change (select 1 (fnot W b) b) with (fnot W b).
  rewrite zpad_hi_eq by (try lia; change (2 ^ 1) with 2; lia). rewrite fnot_eq by lia. rewrite !fadd_eq, fsub_eq by lia. rewrite Zplus_mod_idemp_l.
  replace (a + (2 ^ W - 1 - b) + 1) with (a - b + 1 * 2 ^ W) by ring. apply Z.mod_add. apply Z.pow_nonzero; lia.
Qed.

Lemma add_sub_0 W a b : 1 <= W -> add_sub W 0 a b = fadd W a b.
Proof.
  intros HW. unfold add_sub, add_with_cin. change (select 0 (fnot W b) b) with b.
  rewrite zpad_hi_eq by (try lia; change (2 ^ 1) with 2; lia). rewrite !fadd_eq by lia. rewrite Z.add_0_r. apply Z.mod_mod. apply Z.pow_nonzero; lia.
Qed.

Lemma sel_range a b : 0 <= a < 16 -> 0 <= b < 2 -> 0 <= cat 1 a b < 32.
Proof. intros. rewrite cat_eq by (change (2 ^ 1) with 2; lia). change (2 ^ 1) with 2. lia. Qed.

Lemma div_step_v2_eq wF D w : 1 <= wF -> 2 ^ wF <= D < 2 * 2 ^ wF -> div_step_v2 wF D w = div_step wF D w.
Proof.
  intros HF HD. unfold div_step_v2, div_step.
  assert (P0 : 0 < 2 ^ wF) by (apply pow2_pos; lia).
  assert (E1 : 2 ^ (wF + 1) = 2 * 2 ^ wF) by (apply (pow2_shift 1); [reflexivity|lia|lia]).
  assert (E3 : 2 ^ (wF + 3) = 8 * 2 ^ wF) by (apply (pow2_shift 3); [reflexivity|lia|lia]).
  assert (E4 : 2 ^ (wF + 4) = 16 * 2 ^ wF) by (apply (pow2_shift 4); [reflexivity|lia|lia]).
  assert (B1 : 0 <= bits (wF + 2) (wF - 1) w < 16).
  { rewrite bits_eq by lia. replace (wF + 2 - (wF - 1) + 1) with 4 by lia. apply Z.mod_pos_bound. lia. }
  assert (B2 : 0 <= bits (wF - 1) (wF - 1) D < 2) by (rewrite bit_eq by lia; destruct (Z.odd _); cbn; lia).
  pose proof (sel_range _ _ B1 B2) as HS.
  remember (cat 1 (bits (wF + 2) (wF - 1) w) (bits (wF - 1) (wF - 1) D)) as sel eqn:Es. clear Es B1 B2.
  assert (C1 : zpad_hi 3 (wF + 1) D = D) by (apply zpad_hi_eq; lia).
  assert (C2 : cat 1 (cat (wF + 1) (zg 2) D) (zg 1) = 2 * D).
  { rewrite (cat_eq (wF + 1)) by lia. rewrite (cat_eq 1) by (unfold zg; change (2 ^ 1) with 2; lia). unfold zg. change (2 ^ 1) with 2. ring. }
  assert (C3 : fadd (wF + 3) (zpad_hi 2 (wF + 1) D) (cat 1 (cat (wF + 1) (zg 1) D) (zg 1)) = 3 * D).
  { rewrite zpad_hi_eq by lia. rewrite (cat_eq (wF + 1)) by lia. rewrite (cat_eq 1) by (unfold zg; change (2 ^ 1) with 2; lia).
    unfold zg. change (2 ^ 1) with 2. rewrite fadd_eq by lia. rewrite E3. rewrite Z.mod_small; lia. }
  rewrite C3. assert (C4 : zpad_hi 1 (wF + 3) (3 * D) = 3 * D) by (apply zpad_hi_eq; lia).
  rewrite C1, C2, C4. clear C1 C2 C3 C4. change (og 1) with 1. unfold zg.
  remember (zpad_lo 1 (wF + 3) w) as wp eqn:Ew. clear Ew.
  pose proof (add_sub_1 (wF + 4) wp D ltac:(lia) ltac:(lia)) as S1.
  pose proof (add_sub_1 (wF + 4) wp (2 * D) ltac:(lia) ltac:(lia)) as S2.
  pose proof (add_sub_1 (wF + 4) wp (3 * D) ltac:(lia) ltac:(lia)) as S3.
  pose proof (fun b => add_sub_0 (wF + 4) wp b ltac:(lia)) as S0.
  assert (SZ : fadd (wF + 4) wp 0 = fsub (wF + 4) wp 0) by (rewrite fadd_eq, fsub_eq by lia; f_equal; lia).
  assert (CS : exists k : nat, (k < 32)%nat /\ sel = Z.of_nat k) by (exists (Z.to_nat sel); lia).
  destruct CS as (k & Hk & ->). clear HS.
  remember (2 * D) as D2 eqn:ED2. remember (3 * D) as D3 eqn:ED3. clear ED2 ED3.
  do 32 (destruct k as [|k]; [cbn; rewrite ?S1, ?S2, ?S3, ?S0, ?SZ; reflexivity|]). lia.
Qed.

Lemma div_loop_v2_eq wF D n : 1 <= wF -> 2 ^ wF <= D < 2 * 2 ^ wF -> forall w acc,
  div_loop_v2 wF D n w acc = div_loop wF D n w acc.
Proof.
  intros HF HD. induction n as [|n IH]; intros w acc; [reflexivity|]. cbn [div_loop div_loop_v2].
  rewrite div_step_v2_eq by assumption. destruct (div_step wF D w). apply IH.
Qed.

Lemma div_body_v2_eq wE wF X Y : 1 <= wF -> div_body_v2 wE wF X Y = div_body wE wF X Y.
Proof.
  intros HF. unfold div_body_v2, div_body. cbv zeta. rewrite div_loop_v2_eq; [reflexivity|exact HF|].
  assert (0 <= bits (wF - 1) 0 Y < 2 ^ wF) by (rewrite take_low by lia; apply Z.mod_pos_bound; apply pow2_pos; lia).
  rewrite opad_hi_eq by lia. change (2 ^ 1 - 1) with 1. lia.
Qed.

(** Wherever div_v2 is well-typed, div_v1 is, and they return the same bits. *)
Theorem div_v2_agrees wEX wFX wEY wFY x y : 1 <= wFX -> 1 <= wFY ->
  let E := Z.max wEX wEY in let F := Z.max wFX wFY in
  div_v2 E F wEX wFX wEY wFY x y = div_v1 E F wEX wFX wEY wFY x y.
Proof.
  intros HX HY E F. unfold div_v2, div_v1.
  assert (M : forall a b, ctMax a b = Z.max a b) by (intros; unfold ctMax; destruct (Z.ltb_spec b a); lia).
  rewrite !M. fold E F. rewrite !Z.max_id. destruct (promote E F wEX wFX x); [|reflexivity]. cbn [bind].
  destruct (promote E F wEY wFY y); [|reflexivity]. cbn [bind]. destruct (assert_ _); [|reflexivity]. cbn [bind].
  apply div_body_v2_eq. unfold F. lia.
Qed.

Theorem inv_aborts wER wFR wEY wFY y : inv wER wFR wEY wFY y = None.
Proof. unfold inv, inv_v1, inv_v1_lit. destruct (assert_ _); reflexivity. Qed.

Theorem inv_intended wE wF y : 2 <= wE -> 1 <= wF -> wf (wE + wF + 3) y ->
  exists r, inv_v1_lit 4 wE wF wE wF y = Some r /\ wf (wE + wF + 3) r /\
    decode wE wF r = div_spec wE wF (Num false 1 0) (decode wE wF y).
Proof.
  intros HE HF Wy. unfold inv_v1_lit. rewrite !Z.eqb_refl. cbn [andb assert_ bind].
  change (of_int 4 4) with (Some 4). cbn [bind].
  destruct (pack_view wE wF y ltac:(lia) ltac:(lia) Wy) as (b & t & g & h & Hb & ->).
  assert (PE : 0 < 2 ^ (wE - 1)) by (apply pow2_pos; lia). assert (P0 : 0 < 2 ^ wF) by (apply pow2_pos; lia).
  assert (EE : 2 ^ wE = 2 * 2 ^ (wE - 1)) by (rewrite <- pow2_S by lia; f_equal; lia).
  assert (EX : cat wF (cat (wE - 1) 4 (og (wE - 1))) (zg wF) = pack wE wF 1 false (bias wE) 0).
  { rewrite og_eq by lia. rewrite (cat_eq (wE - 1)) by lia. rewrite cat_eq by (unfold zg; lia). unfold zg, pack, bias. cbn [Z.b2z].
    rewrite (pow2_S (wE + wF)) by lia. rewrite (pow2_add wE wF) by lia. rewrite EE. ring. }
  rewrite EX.
  assert (Ha : okf wE wF 1 (bias wE) 0) by (unfold okf, bias; lia).
  destruct (div_body_ok wE wF 1 false (bias wE) 0 b t g h HE Ha Hb) as (r & R1 & R2 & R3).
  exists r. split; [exact R1|]. split; [exact R2|]. rewrite R3.
  rewrite (decode_pack wE wF 1 false) by exact Ha. cbn [Z.eqb Pos.eqb].
  replace (Num false (2 ^ wF + 0) (bias wE - bias wE - wF)) with (scale_v wF (Num false 1 0)) by (cbn [scale_v]; f_equal; lia).
  pose proof (div_gen_scale2 (emin wE) (emax wE) wF wF 0 (Num false 1 0) (decode wE wF (pack wE wF b t g h))) as Q.
  assert (S0 : forall v, scale_v 0 v = v) by (intros []; cbn [scale_v]; [reflexivity..|]; f_equal; [apply Z.mul_1_r|lia]).
  rewrite S0 in Q. unfold div_spec, round_to. rewrite Q; try lia; [reflexivity|cbn; lia|].
  apply ValueLemmas.decode_pos. lia.
Qed.
