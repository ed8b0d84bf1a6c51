From Coq Require Import ZArith Bool Lia.
From Verif Require Import Fw FwLemmas Spec SpecLemmas Flopoco FlopocoLemmas FlopocoProofs CompareProofs MulProofs AddSingle AddLemmas ValueLemmas AddSingleProofs AddSingleProofs2 AddSingleProofs3 AddDual AddDualProofs AddDualProofs2.
Open Scope Z_scope.

Lemma dual_sum_ok wF M (sub : bool) P : 1 <= wF -> 2 ^ wF <= M < 2 * 2 ^ wF -> 0 <= P < 2 ^ (2 * wF + 4) ->
  let q := P / 2 ^ (wF + 1) in let sb := negb (P mod 2 ^ (wF + 1) =? 0) in
  fne (bits wF 0 P) 0 = Z.b2z sb /\ 0 <= q < 8 * 2 ^ wF /\
  dual_sum wF M (Z.b2z sub) P = if sub then (4 * M - q - Z.b2z sb) mod 2 ^ (wF + 4) else 4 * M + q.
Proof.
  intros HF HM HP q sb. unfold dual_sum. replace (bits wF 0 P) with (bits (wF + 1 - 1) 0 P) by (f_equal; lia). rewrite take_low by lia.
  unfold fne. fold sb. split; [reflexivity|].
  assert (E3 : 2 ^ (wF + 3) = 8 * 2 ^ wF) by (apply (pow2_shift 3); [reflexivity|lia|lia]).
  assert (E4 : 2 ^ (wF + 4) = 16 * 2 ^ wF) by (apply (pow2_shift 4); [reflexivity|lia|lia]).
  assert (Hq : 0 <= q < 8 * 2 ^ wF).
  { rewrite <- E3. apply div_pow_lt; try lia. replace (wF + 1 + (wF + 3)) with (2 * wF + 4) by lia. exact HP. }
  split; [exact Hq|]. rewrite bits_eq by lia. replace (2 * wF + 3 - (wF + 1) + 1) with (wF + 3) by lia. fold q.
  rewrite (Z.mod_small q) by lia. rewrite zpad_hi_eq by lia. rewrite (cat_eq 2) by (unfold zg; lia). unfold zg. rewrite Z.add_0_r.
  change (2 ^ 2) with 4. b01 sb.
  assert (HX : fxor (wF + 4) q (select (Z.b2z sub) (og (wF + 4)) 0) = if sub then 2 ^ (wF + 4) - 1 - q else q).
  { rewrite select_b2z. unfold fxor. destruct sub.
    - rewrite og_eq by lia. replace (2 ^ (wF + 4) - 1) with (mask (wF + 4)) at 1 by (rewrite mask_pow; lia).
      change (Z.lxor q (mask (wF + 4))) with (fnot (wF + 4) q). rewrite fnot_eq by lia. apply land_mask_id; lia.
    - rewrite Z.lxor_0_r. apply land_mask_id; lia. }
  rewrite HX. rewrite fnot_b2z, fand_b2z. unfold add_with_cin.
  rewrite zpad_hi_eq by (change (2 ^ 1) with 2; destruct sub, sb; cbn; lia). rewrite !fadd_eq by lia. rewrite Zplus_mod_idemp_l.
  clearbody q sb. destruct sub; cbn [andb].
  - assert (Ec : M * 4 + (2 ^ (wF + 4) - 1 - q) + Z.b2z (negb sb) = 4 * M - q - Z.b2z sb + 1 * 2 ^ (wF + 4)).
    { destruct sb; cbn [negb Z.b2z]; lia. }
    rewrite Ec, Z.mod_add by lia. reflexivity.
  - cbn [Z.b2z]. rewrite Z.add_0_r, Z.mod_small by lia. ring.
Qed.

Lemma close_lz wF G : 1 <= wF -> 0 < G < 2 ^ (wF + 2) ->
  exists c, lzoc (wF + 2) (Z.to_nat (intlog2 (wF + 2))) G = Some (G * 2 ^ c, c) /\ 0 <= c < 2 ^ intlog2 (wF + 2) /\
    2 ^ (wF + 1) <= G * 2 ^ c < 2 ^ (wF + 2) /\ c <= wF + 1 /\ feq c (og (intlog2 (wF + 2))) = Z.b2z false.
Proof.
  intros HF HG. destruct (intlog2_spec (wF + 2) ltac:(lia)) as (I1 & I2 & I3). remember (intlog2 (wF + 2)) as w.
  destruct (lzoc_ok (wF + 2) (Z.to_nat w) G) as (c & L1 & L2 & L3); rewrite ?Z2Nat.id by lia; try lia.
  - pose proof (pow2_le (wF + 2 - 1) (2 ^ w - 1) ltac:(lia)). nia.
  - rewrite Z2Nat.id in L2 by lia. replace (wF + 2 - 1) with (wF + 1) in L3 by lia. exists c.
    assert (Hc : c <= wF + 1).
    { destruct (Z_le_gt_dec c (wF + 1)); [assumption|]. pose proof (pow2_le (wF + 2) c ltac:(lia)). nia. }
    repeat split; try assumption; try lia. rewrite og_eq by lia. unfold feq. rewrite (proj2 (Z.eqb_neq _ _)); [reflexivity|lia].
Qed.

Lemma close_lz0 wF : 1 <= wF ->
  lzoc (wF + 2) (Z.to_nat (intlog2 (wF + 2))) 0 = Some (0, 2 ^ intlog2 (wF + 2) - 1) /\
  feq (2 ^ intlog2 (wF + 2) - 1) (og (intlog2 (wF + 2))) = Z.b2z true.
Proof.
  intros HF. destruct (intlog2_spec (wF + 2) ltac:(lia)) as (I1 & I2 & I3). remember (intlog2 (wF + 2)) as w.
  rewrite lzoc_zero by (rewrite ?Z2Nat.id by lia; lia). rewrite Z2Nat.id by lia. split; [reflexivity|].
  rewrite og_eq by lia. unfold feq. rewrite Z.eqb_refl. reflexivity.
Qed.

(** Difference of the two fractions and its absolute value. *)
Lemma close_abs wF A B : 0 <= wF -> 0 <= A < 2 ^ (wF + 2) -> 0 <= B < 2 ^ (wF + 2) ->
  let x := fsub (wF + 3) A B in let y := fsub (wF + 3) B A in
  bits (wF + 2) (wF + 2) x = Z.b2z (A <? B) /\
  select (fnot 1 (bits (wF + 2) (wF + 2) x)) (bits (wF + 1) 0 x) (bits (wF + 1) 0 y) = Z.abs (A - B).
Proof.
  intros HF HA HB x y. unfold x, y. rewrite !fsub_eq by lia.
  assert (E3 : 2 ^ (wF + 3) = 2 * 2 ^ (wF + 2)) by (rewrite <- pow2_S by lia; f_equal; lia).
  assert (EB : bits (wF + 2) (wF + 2) ((A - B) mod 2 ^ (wF + 3)) = Z.b2z (A <? B)).
  { rewrite bits_eq by lia. replace (wF + 2 - (wF + 2) + 1) with 1 by lia. change (2 ^ 1) with 2.
    destruct (Z.ltb_spec A B).
    - rewrite <- (Z.mod_add (A - B) 1 (2 ^ (wF + 3))) by lia. rewrite (Z.mod_small (A - B + _)) by lia.
      replace (A - B + 1 * 2 ^ (wF + 3)) with (1 * 2 ^ (wF + 2) + (A - B + 2 ^ (wF + 2))) by lia. rewrite join_div by lia. reflexivity.
    - rewrite (Z.mod_small (A - B)) by lia. rewrite Z.div_small by lia. reflexivity. }
  rewrite EB. split; [reflexivity|]. rewrite fnot_b2z, select_b2z.
  replace (wF + 1) with (wF + 2 - 1) by lia. rewrite !take_low by lia. destruct (Z.ltb_spec A B); cbn [negb].
  - rewrite (Z.mod_small (B - A)) by lia. rewrite Z.mod_small; lia.
  - rewrite (Z.mod_small (A - B)) by lia. rewrite Z.mod_small; lia.
Qed.

Lemma dual_close_ok wE wF a s e f b t g h d (cl : bool) :
  okf wE wF a e f -> okf wE wF b g h -> wF <= 2 ^ (wE + 1) + 1 ->
  let D := 2 * (2 ^ wF + f) - (if Z.odd d then 2 ^ wF + h else 2 * (2 ^ wF + h)) in
  exists R0 (rd cz sg : bool), dual_close wE wF (pack wE wF a s e f) (pack wE wF b t g h) d (Z.b2z cl) = Some (R0, Z.b2z rd, Z.b2z cz, Z.b2z sg) /\
    (D = 0 -> cz = true /\ (cl = true -> sg = false)) /\
    (cl = false -> sg = s) /\
    (D <> 0 -> cz = false /\ (cl = true -> sg = xorb s (D <? 0)) /\
       exists c, 0 <= c <= wF + 1 /\ 2 ^ (wF + 1) <= Z.abs D * 2 ^ c < 2 ^ (wF + 2) /\
         (R0 + Z.b2z rd) mod 2 ^ (wE + wF + 2) =
         ((e - c) * 2 ^ wF + (rne_div (Z.abs D * 2 ^ c) 2 - 2 ^ wF)) mod 2 ^ (wE + wF + 2)).
Proof.
  intros HX HY HW D. pose proof HX as (HE & HF & _ & He & Hf). pose proof HY as (_ & _ & _ & _ & Hh). unfold dual_close.
  fold (get_frac wE wF (pack wE wF a s e f)) (get_frac wE wF (pack wE wF b t g h))
    (get_sign wE wF (pack wE wF a s e f)) (get_exp wE wF (pack wE wF a s e f)).
  rewrite !get_frac_pack, get_sign_pack, get_exp_pack by assumption.
  rewrite (cat_eq wF 1 f), (cat_eq wF 1 h) by lia. rewrite !Z.mul_1_l. rewrite !(cat_eq 1) by (unfold zg; change (2 ^ 1) with 2; lia).
  unfold zg at 1 2 3 4 5 6. rewrite !Z.add_0_r. change (2 ^ 1) with 2. rewrite (bit_eq 0 d) by lia. rewrite Z.pow_0_r, Z.div_1_r, select_b2z.
  pose proof (pow2_pos wF ltac:(lia)) as PF. assert (E2 : 2 ^ (wF + 2) = 4 * 2 ^ wF) by (apply (pow2_shift 2); [reflexivity|lia|lia]).
  assert (E1 : 2 ^ (wF + 1) = 2 * 2 ^ wF) by (apply pow2_S; lia).
  remember (if Z.odd d then 2 ^ wF + h else (2 ^ wF + h) * 2) as B eqn:EB.
  assert (HB : 0 <= B < 2 ^ (wF + 2)) by (subst B; destruct (Z.odd d); lia).
  assert (ED : (2 ^ wF + f) * 2 - B = D) by (unfold D; subst B; destruct (Z.odd d); ring).
  destruct (close_abs wF ((2 ^ wF + f) * 2) B ltac:(lia) ltac:(lia) HB) as (A1 & A2). cbv zeta in A1, A2. rewrite A2, A1. rewrite ED.
  assert (EL : ((2 ^ wF + f) * 2 <? B) = (D <? 0)) by (destruct (Z.ltb_spec ((2 ^ wF + f) * 2) B), (Z.ltb_spec D 0); lia).
  rewrite EL. rewrite (fand_b2z cl (D <? 0)), fxor_b2z. change (feq (Z.abs D) 0) with (Z.b2z (Z.abs D =? 0)). rewrite (fand_b2z cl (Z.abs D =? 0)), select_b2z.
  assert (ES : (if cl && (Z.abs D =? 0) then zg 1 else Z.b2z (xorb s (cl && (D <? 0)))) = Z.b2z (if cl && (Z.abs D =? 0) then false else xorb s (cl && (D <? 0)))).
  { destruct (cl && _); reflexivity. }
  rewrite ES. clear ES.
  destruct (intlog2_spec (wF + 2) ltac:(lia)) as (I1 & I2 & I3).
  assert (IW : intlog2 (wF + 2) - 1 <= wE + 1).
  { destruct (Z_le_gt_dec (intlog2 (wF + 2) - 1) (wE + 1)); [assumption|exfalso].
    pose proof (pow2_le (wE + 1 + 1) (intlog2 (wF + 2) - 1) ltac:(lia)) as H. rewrite (pow2_S (wE + 1)) in H by lia. pose proof (pow2_le 2 (wE + 1) ltac:(lia)) as H4. change (2 ^ 2) with 4 in H4. lia. }
  destruct (Z.eq_dec D 0) as [HD|HD].
  - rewrite HD. cbn [Z.abs]. destruct (close_lz0 wF HF) as (L1 & L2). rewrite L1. cbn [bind]. rewrite L2.
    destruct (Z.leb_spec 0 (wE - intlog2 (wF + 2) + 2)); [|lia]. cbn [assert_ bind].
    rewrite !bit_eq by lia. rewrite fand_b2z. do 4 eexists. split; [reflexivity|].
    split; [intros _; split; [reflexivity|intros ->; reflexivity]|]. split; [intros ->; cbn [andb]; apply xorb_false_r|]. intros Hn; lia.
  - destruct (close_lz wF (Z.abs D) HF) as (c & L1 & L2 & L3 & L4 & L5). { unfold D in *; destruct (Z.odd d); lia. }
    rewrite L1. cbn [bind]. rewrite L5. destruct (Z.leb_spec 0 (wE - intlog2 (wF + 2) + 2)); [|lia]. cbn [assert_ bind].
    rewrite !bit_eq by lia. rewrite fand_b2z. do 4 eexists. split; [reflexivity|].
    split; [intros H0; lia|]. split; [intros ->; cbn [andb]; apply xorb_false_r|].
    intros _. split; [reflexivity|]. split; [intros ->; cbn [andb]; destruct (Z.eqb_spec (Z.abs D) 0); [lia|reflexivity]|].
    exists c. split; [lia|]. split; [exact L3|].
    remember (Z.abs D * 2 ^ c) as S. rewrite !zpad_hi_eq by lia. rewrite fsub_eq by lia.
    pose proof (mod_pow_bound (e - c) (wE + 2) ltac:(lia)) as MB.
    replace (wE + 1) with (wE + 2 - 1) by lia. rewrite take_low by lia. rewrite Z.mod_mod by lia.
    rewrite bits_eq by lia. replace (wF - 1 + 1) with wF by lia. change (2 ^ 1) with 2.
    assert (HS2 : 2 ^ wF <= S / 2 < 2 * 2 ^ wF) by (split; [apply Z.div_le_lower_bound|apply Z.div_lt_upper_bound]; lia).
    assert (Hm : (S / 2) mod 2 ^ wF = S / 2 - 2 ^ wF) by (symmetry; apply (Z.mod_unique _ _ 1); lia).
    rewrite Hm, cat_eq by lia.
    assert (ER : rne_div S 2 = S / 2 + Z.b2z (Z.odd (S / 2 ^ 0) && Z.odd (S / 2))).
    { pose proof (rne_bits S 1 ltac:(lia)) as H1. change (2 ^ 1) with 2 in H1. change (1 - 1) with 0 in H1. rewrite H1. rewrite Z.pow_0_r, Z.mod_1_r. cbn [Z.eqb negb orb]. destruct (_ && _); reflexivity. }
    rewrite ER. assert (EW : 2 ^ (wE + wF + 2) = 2 ^ (wE + 2) * 2 ^ wF) by (rewrite <- pow2_add by lia; f_equal; lia).
    rewrite (Z.mod_eq (e - c)) by lia. remember ((e - c) / 2 ^ (wE + 2)) as qq. remember (Z.odd (S / 2 ^ 0) && Z.odd (S / 2)) as rd.
    replace ((e - c - 2 ^ (wE + 2) * qq) * 2 ^ wF + (S / 2 - 2 ^ wF) + Z.b2z rd)
      with ((e - c) * 2 ^ wF + (S / 2 + Z.b2z rd - 2 ^ wF) + (- qq) * 2 ^ (wE + wF + 2)) by (rewrite EW; ring).
    apply Z.mod_add. rewrite EW. nia.
Qed.
