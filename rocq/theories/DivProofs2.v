From Coq Require Import ZArith Bool Lia List.
From Verif Require Import Fw FwLemmas Spec SpecLemmas Flopoco FlopocoLemmas MulProofs AddLemmas AddSingleProofs AddSingleProofs2 AddDualProofs Div DivProofs.
Import ListNotations.
Open Scope Z_scope.

Lemma div_digits_ok wF X D : 1 <= wF -> 2 ^ wF <= X < 2 * 2 ^ wF -> 2 ^ wF <= D < 2 * 2 ^ wF ->
  let n := (wF + 6) / 2 in
  exists qs w0, div_loop wF D (Z.to_nat (n - 1)) (zpad_hi 2 (wF + 1) X) [] = (qs, w0) /\
  div_fR0 n (div_q0 wF w0 :: qs) = 2 * sticky_form (2 ^ (2 * n - 2) * X) (2 * D) /\
  0 <= 2 * sticky_form (2 ^ (2 * n - 2) * X) (2 * D) < 2 ^ (2 * n).
Proof.
  intros HF HX HD n.
  assert (Hn : 3 <= n) by (apply Z.div_le_lower_bound; lia).
  assert (P0 : 0 < 2 ^ wF) by (apply pow2_pos; lia).
  assert (E1 : 2 ^ wF = 2 * 2 ^ (wF - 1)) by (rewrite <- pow2_S by lia; f_equal; lia).
  assert (E3 : 2 ^ (wF + 3) = 8 * 2 ^ wF) by (apply (pow2_shift 3); [reflexivity|lia|lia]).
  assert (E2 : 2 ^ (wF + 1) = 2 * 2 ^ wF) by (apply (pow2_shift 1); [reflexivity|lia|lia]).
  rewrite zpad_hi_eq by lia.
  destruct (div_loop_ok wF D (Z.to_nat (n - 1)) HF HD X []) as (ds & z & EL & Hl & HC & Hz & HI).
  { split; [lia|intros _; lia]. }
  rewrite app_nil_r in EL. rewrite (Z.mod_small X) in EL by lia. exists ds, (z mod 2 ^ (wF + 3)). split; [exact EL|].
  destruct HI as [HI _]. destruct (div_q0_ok wF D z HF (proj2 HD) HI) as [Cq Eq].
  rewrite Z2Nat.id in Hz by lia.
  assert (E4 : 4 ^ (n - 1) = 2 ^ (2 * n - 2)) by (replace (2 * n - 2) with (2 * (n - 1)) by lia; rewrite Z.pow_mul_r by lia; reflexivity).
  rewrite E4 in Hz.
  assert (ES : dval (div_q0 wF (z mod 2 ^ (wF + 3)) :: ds) = 2 * sticky_form (2 ^ (2 * n - 2) * X) (2 * D)).
  { cbn [dval]. rewrite Eq. rewrite <- (sticky_signed _ _ (dval ds) z); [ring|lia|exact Hz|lia]. }
  assert (HB : 0 <= 2 * sticky_form (2 ^ (2 * n - 2) * X) (2 * D) < 2 ^ (2 * n)).
  { assert (PT : 0 < 2 ^ (2 * n - 2)) by (apply pow2_pos; lia).
    pose proof (sticky_pos (2 ^ (2 * n - 2) * X) (2 * D)) as S1.
    pose proof (sticky_lt (2 ^ (2 * n - 2) * X) (2 * D) (2 * n - 1)) as S2.
    replace (2 * n - 1 - 1) with (2 * n - 2) in S2 by lia.
    assert (E5 : 2 ^ (2 * n) = 2 * 2 ^ (2 * n - 1)) by (rewrite <- pow2_S by lia; f_equal; lia).
    split; [enough (0 < sticky_form (2 ^ (2 * n - 2) * X) (2 * D)) by lia; apply S1; [lia|apply Z.mul_pos_pos; lia]|]. rewrite E5.
    enough (sticky_form (2 ^ (2 * n - 2) * X) (2 * D) < 2 ^ (2 * n - 1)) by lia. apply S2; [lia|lia|apply Z.mul_lt_mono_pos_l; lia]. }
  split; [|exact HB].
  rewrite div_fR0_ok.
  - rewrite ES. apply Z.mod_small. exact HB.
  - cbn [length]. rewrite Hl. lia.
  - lia.
  - constructor; assumption.
Qed.

Lemma lor_bits a b x : 0 <= a -> 0 <= b -> for_ 1 (bits a a x) (bits b b x) = Z.b2z (Z.odd (x / 2 ^ a) || Z.odd (x / 2 ^ b)).
Proof. intros. rewrite !bit_eq by lia. apply for_b2z. Qed.

(** fR: the quotient 2^(wF+2) X / D with a sticky bit. *)
Lemma div_fR_ok wF X D : 1 <= wF -> 2 ^ wF <= X < 2 * 2 ^ wF -> 2 ^ wF <= D < 2 * 2 ^ wF ->
  let n := (wF + 6) / 2 in let fR0 := 2 * sticky_form (2 ^ (2 * n - 2) * X) (2 * D) in
  let G := sticky_form (2 ^ (wF + 2) * X) D in
  0 <= fR0 < 2 ^ (2 * n) ->
  (if wF mod 2 =? 1 then checked_cast (4 + wF) (2 * n - 1) (bits (2 * n - 1) 1 fR0)
   else checked_cast (4 + wF) (2 * n - 3 + 1) (cat 1 (bits (2 * n - 1) 3 fR0) (for_ 1 (bits 2 2 fR0) (bits 1 1 fR0)))) = Some G
  /\ 2 ^ (wF + 2) <= G < 2 ^ (wF + 4).
Proof.
  intros HF HX HD n fR0 G HB.
  assert (P0 : 0 < 2 ^ wF) by (apply pow2_pos; lia).
  assert (P2 : 0 < 2 ^ (wF + 2)) by (apply pow2_pos; lia).
  assert (HG : 2 ^ (wF + 2) <= G < 2 ^ (wF + 4)).
  { assert (E1 : 2 ^ (wF + 1) * 2 = 2 ^ (wF + 2)) by (rewrite Z.mul_comm, <- pow2_S by lia; f_equal; lia).
    assert (E2 : 2 ^ (wF + 3) = 2 * 2 ^ (wF + 2)) by (rewrite <- pow2_S by lia; f_equal; lia).
    split.
    - apply sticky_le; [lia|lia|]. replace (wF + 2 - 1) with (wF + 1) by lia. nia.
    - apply sticky_lt; [lia|lia|]. replace (wF + 4 - 1) with (wF + 3) by lia. rewrite E2. nia. }
  split; [|exact HG].
  pose proof (Z.mod_pos_bound wF 2 ltac:(lia)) as M2. pose proof (div_mod_eq wF 2 ltac:(lia)) as D2.
  assert (Hn : n = wF / 2 + 3) by (unfold n; replace (wF + 6) with (wF + 3 * 2) by lia; apply Z.div_add; lia).
  destruct (Z.eqb_spec (wF mod 2) 1) as [O|O].
  - assert (E2n : 2 * n - 1 = 4 + wF) by lia. rewrite E2n.
    assert (EG : bits (4 + wF) 1 fR0 = G).
    { rewrite bits_eq by lia. change (2 ^ 1) with 2. unfold fR0. rewrite (Z.mul_comm 2 (sticky_form _ _)), Z.div_mul by lia.
      replace (2 * n - 2) with (wF + 2 + 1) by lia. rewrite (pow2_S (wF + 2)) by lia.
      replace (2 * 2 ^ (wF + 2) * X) with (2 ^ (wF + 2) * X * 2) by ring. rewrite (Z.mul_comm 2 D), sticky_scale by lia.
      fold G. apply Z.mod_small. replace (4 + wF - 1 + 1) with (wF + 4) by lia. lia. }
    rewrite EG. apply checked_cast_ok; [lia|]. replace (4 + wF) with (wF + 4) by lia. lia.
  - assert (E2n : 2 * n - 3 + 1 = 4 + wF) by lia. rewrite E2n. replace (2 * n - 1) with (wF + 5) by lia.
    assert (EG : cat 1 (bits (wF + 5) 3 fR0) (for_ 1 (bits 2 2 fR0) (bits 1 1 fR0)) = G).
    { rewrite lor_bits by lia. rewrite cat_eq by (try lia; change (2 ^ 1) with 2; destruct (_ || _); cbn; lia).
      change (2 ^ 1) with 2. rewrite bits_eq by lia. replace (wF + 5 - 3 + 1) with (wF + 3) by lia.
      set (S := sticky_form (2 ^ (2 * n - 2) * X) (2 * D)) in fR0.
      assert (F1 : fR0 / 2 = S) by (unfold fR0; rewrite (Z.mul_comm 2 S); apply Z.div_mul; lia).
      assert (F2 : fR0 / 2 ^ 2 = S / 2) by (change (2 ^ 2) with (2 * 2); rewrite <- Z.div_div, F1 by (try lia; reflexivity); reflexivity).
      assert (F3 : fR0 / 2 ^ 3 = S / 4) by (change (2 ^ 3) with (2 * 4); rewrite <- Z.div_div, F1 by (try lia; reflexivity); reflexivity).
      rewrite F1, F2, F3.
      assert (ES : S = sticky_form (2 ^ (wF + 3) * X) D).
      { unfold S. replace (2 * n - 2) with (wF + 3 + 1) by lia. rewrite (pow2_S (wF + 3)) by lia.
        replace (2 * 2 ^ (wF + 3) * X) with (2 ^ (wF + 3) * X * 2) by ring. rewrite (Z.mul_comm 2 D). apply sticky_scale; lia. }
      assert (EG : G = sticky_form (2 ^ (wF + 3) * X) (2 * D)).
      { unfold G. replace (wF + 3) with (wF + 2 + 1) by lia. rewrite (pow2_S (wF + 2)) by lia.
        replace (2 * 2 ^ (wF + 2) * X) with (2 ^ (wF + 2) * X * 2) by ring. rewrite (Z.mul_comm 2 D). symmetry. apply sticky_scale; lia. }
      rewrite EG in HG |- *. rewrite sticky_half by lia. rewrite <- ES.
      rewrite sticky_half, <- ES in HG by lia.
      rewrite (Z.mod_small (S / 4)); [ring|].
      assert (E4 : 2 ^ (wF + 4) = 2 * 2 ^ (wF + 3)) by (rewrite <- pow2_S by lia; f_equal; lia).
      rewrite E4 in HG. destruct (_ || _); cbn [Z.b2z] in HG; lia. }
    rewrite EG. apply checked_cast_ok; [lia|]. replace (4 + wF) with (wF + 4) by lia. lia.
Qed.

Definition div_norm (wF fR : Z) : Z :=
  select (bits (wF + 3) (wF + 3) fR) (cat 1 (bits (wF + 2) 2 fR) (for_ 1 (bits 1 1 fR) (bits 0 0 fR))) (bits (wF + 1) 0 fR).

Lemma div_norm_ok wF A D : 1 <= wF -> 0 < D -> let G := sticky_form A D in
  2 ^ (wF + 2) <= G < 2 ^ (wF + 4) ->
  let t := 2 ^ (wF + 3) <=? G in let B := if t then 2 * D else D in let G' := sticky_form A B in
  bits (wF + 3) (wF + 3) G = Z.b2z t /\ 2 ^ (wF + 2) <= G' < 2 ^ (wF + 3) /\ div_norm wF G = G' - 2 ^ (wF + 2).
Proof.
  intros HF HD G HG t B G'.
  assert (P0 : 0 < 2 ^ wF) by (apply pow2_pos; lia).
  assert (E1 : 2 ^ (wF + 1) = 2 * 2 ^ wF) by (apply (pow2_shift 1); [reflexivity|lia|lia]).
  assert (E2 : 2 ^ (wF + 2) = 4 * 2 ^ wF) by (apply (pow2_shift 2); [reflexivity|lia|lia]).
  assert (E3 : 2 ^ (wF + 3) = 8 * 2 ^ wF) by (apply (pow2_shift 3); [reflexivity|lia|lia]).
  assert (E4 : 2 ^ (wF + 4) = 16 * 2 ^ wF) by (apply (pow2_shift 4); [reflexivity|lia|lia]).
  assert (ET : bits (wF + 3) (wF + 3) G = Z.b2z t).
  { rewrite bit_eq by lia. rewrite E3. unfold t. rewrite E3. rewrite E2, E4 in HG. destruct (Z.leb_spec (8 * 2 ^ wF) G).
    - replace (G / (8 * 2 ^ wF)) with 1 by (apply (Z.div_unique _ _ _ (G - 8 * 2 ^ wF)); lia). reflexivity.
    - rewrite Z.div_small by lia. reflexivity. }
  split; [exact ET|]. unfold div_norm. rewrite ET, select_b2z.
  destruct t eqn:Et; unfold t in Et; unfold B in G'.
  - apply Z.leb_le in Et. rewrite lor_bits by lia. change (2 ^ 1) with 2. change (2 ^ 0) with 1. rewrite Z.div_1_r.
    assert (EG : G' = 2 * (G / 4) + Z.b2z (Z.odd (G / 2) || Z.odd G)) by (apply sticky_half; exact HD).
    rewrite cat_eq by (try lia; change (2 ^ 1) with 2; destruct (_ || _); cbn; lia). change (2 ^ 1) with 2.
    rewrite bits_eq by lia. replace (wF + 2 - 2 + 1) with (wF + 1) by lia. change (2 ^ 2) with 4.
    remember (Z.odd (G / 2) || Z.odd G) as o eqn:Eo. clear Eo ET. pose proof (div_mod_eq G 4 ltac:(lia)) as DG. pose proof (Z.mod_pos_bound G 4 ltac:(lia)) as MG.
    remember (G / 4) as g eqn:Eg. remember (G mod 4) as r eqn:Er. clear Eg Er.
    assert (Hb : 0 <= Z.b2z o <= 1) by (destruct o; cbn; lia).
    assert (Hg : 2 * 2 ^ wF <= g < 4 * 2 ^ wF) by lia.
    assert (Em : g mod 2 ^ (wF + 1) = g - 2 ^ (wF + 1)) by (symmetry; apply (Z.mod_unique _ _ 1); lia).
    rewrite Em. lia.
  - apply Z.leb_gt in Et. subst G'. fold G. split; [lia|]. replace (wF + 1) with (wF + 2 - 1) by lia. rewrite take_low by lia.
    symmetry. apply (Z.mod_unique _ _ 1); lia.
Qed.

Lemma div_round_ok wF A B : 1 <= wF -> 0 < B -> let G := sticky_form A B in
  2 ^ (wF + 2) <= G < 2 ^ (wF + 3) -> let R := G - 2 ^ (wF + 2) in
  exists c : bool, fand (bits 1 1 R) (for_ 1 (bits 2 2 R) (bits 0 0 R)) = Z.b2z c /\
  bits (wF + 1) 2 R = G / 4 - 2 ^ wF /\ 0 <= G / 4 - 2 ^ wF < 2 ^ wF /\ G / 4 + Z.b2z c = rne_div A (2 * B).
Proof.
  intros HF HB G HG R.
  assert (P0 : 0 < 2 ^ wF) by (apply pow2_pos; lia).
  assert (E1 : 2 ^ wF = 2 * 2 ^ (wF - 1)) by (rewrite <- pow2_S by lia; f_equal; lia).
  assert (E2 : 2 ^ (wF + 2) = 4 * 2 ^ wF) by (apply (pow2_shift 2); [reflexivity|lia|lia]).
  assert (E3 : 2 ^ (wF + 3) = 8 * 2 ^ wF) by (apply (pow2_shift 3); [reflexivity|lia|lia]).
  rewrite E2, E3 in HG. unfold R. rewrite E2.
  exists (Z.odd (G / 2) && (Z.odd (G / 4) || Z.odd G)).
  assert (D2 : (G - 4 * 2 ^ wF) / 4 = G / 4 - 2 ^ wF) by (replace (G - 4 * 2 ^ wF) with (G + (- 2 ^ wF) * 4) by ring; rewrite Z.div_add by lia; lia).
  assert (D1 : (G - 4 * 2 ^ wF) / 2 = G / 2 - 2 * 2 ^ wF) by (replace (G - 4 * 2 ^ wF) with (G + (- 2 * 2 ^ wF) * 2) by ring; rewrite Z.div_add by lia; lia).
  assert (HG4 : 0 <= G / 4 - 2 ^ wF < 2 ^ wF).
  { pose proof (div_mod_eq G 4 ltac:(lia)); pose proof (Z.mod_pos_bound G 4 ltac:(lia)); lia. }
  split; [|split; [|split]].
  - rewrite lor_bits by lia. rewrite bit_eq by lia. rewrite fand_b2z. change (2 ^ 1) with 2. change (2 ^ 2) with 4. change (2 ^ 0) with 1.
    rewrite Z.div_1_r, D1, D2. rewrite !Z.odd_sub. rewrite !Z.odd_mul. rewrite E1, Z.odd_mul. cbn [Z.odd andb]. rewrite !xorb_false_r. reflexivity.
  - rewrite bits_eq by lia. change (2 ^ 2) with 4. rewrite D2. apply Z.mod_small. replace (wF + 1 - 2 + 1) with wF by lia. lia.
  - exact HG4.
  - rewrite <- (sticky_rne A B 2) by (lia || reflexivity). fold G. change (2 * 2) with (2 ^ 2). rewrite rne_bits by lia.
    change (2 ^ (2 - 1)) with 2. change (2 ^ 2) with 4. f_equal. rewrite odd_mod2.
    destruct (Z.odd (G / 2)), (Z.odd (G / 4)), (Z.odd G); reflexivity.
Qed.

(** Normalisation, rounding, exponent: expfracR is the rounded quotient's code. *)
Lemma div_code_ok wE wF ex ey X D : 2 <= wE -> 1 <= wF -> 2 ^ wF <= X < 2 * 2 ^ wF -> 2 ^ wF <= D < 2 * 2 ^ wF ->
  0 <= ex < 2 ^ wE -> 0 <= ey < 2 ^ wE ->
  let G := sticky_form (2 ^ (wF + 2) * X) D in 2 ^ (wF + 2) <= G < 2 ^ (wF + 4) ->
  exists t m, 0 <= t <= 1 /\ 2 ^ wF <= m <= 2 ^ (wF + 1) /\
  let Xe := ex - ey + 2 ^ (wE - 1) - 2 + t in
  (fadd (wE + wF + 2) (cat wF (fadd (wE + 2) (fsub (wE + 2) ex ey) (cat 1 (cat (wE - 2) (zg 3) (og (wE - 2))) (bits (wF + 3) (wF + 3) G)))
      (bits (wF + 1) 2 (div_norm wF G)))
    (cat 1 (zg (wE + wF + 1)) (fand (bits 1 1 (div_norm wF G)) (for_ 1 (bits 2 2 (div_norm wF G)) (bits 0 0 (div_norm wF G))))))
    = (Xe * 2 ^ wF + (m - 2 ^ wF)) mod 2 ^ (wE + wF + 2) /\
  forall E F s k, F = wF -> k = ex - ey -> round_to E F s X D k = finish (emin E) (emax E) F s (norm_me F m (Xe - (2 ^ (wE - 1) - 1) - F)).
Proof.
  intros HE HF HX HD Hx Hy G HG.
  assert (P0 : 0 < 2 ^ wF) by (apply pow2_pos; lia).
  assert (PE : 0 < 2 ^ (wE - 2)) by (apply pow2_pos; lia).
  assert (EE : 2 ^ (wE - 1) = 2 * 2 ^ (wE - 2)) by (rewrite <- pow2_S by lia; f_equal; lia).
  destruct (div_norm_ok wF (2 ^ (wF + 2) * X) D HF ltac:(lia) HG) as (Et & HG' & EN).
  fold G in Et, HG', EN.
  remember (2 ^ (wF + 3) <=? G) as t eqn:Ett. remember (if t then 2 * D else D) as B eqn:EB.
  assert (HB : 0 < B) by (subst B; destruct t; lia).
  destruct (div_round_ok wF _ B HF HB HG') as (c & Ec & Ef & Hf & Em).
  remember (rne_div (2 ^ (wF + 2) * X) (2 * B)) as m eqn:Emm.
  exists (Z.b2z t), m.
  assert (Ht : 0 <= Z.b2z t <= 1) by (destruct t; cbn; lia). split; [exact Ht|].
  assert (E1 : 2 ^ (wF + 1) = 2 * 2 ^ wF) by (apply (pow2_shift 1); [reflexivity|lia|lia]).
  assert (E2 : 2 ^ (wF + 2) = 4 * 2 ^ wF) by (apply (pow2_shift 2); [reflexivity|lia|lia]).
  assert (Hm : 2 ^ wF <= m <= 2 ^ (wF + 1)) by (destruct c; cbn [Z.b2z] in Em; lia).
  split; [exact Hm|]. intros Xe. split.
  - rewrite EN, Ec, Ef, Et.
    rewrite (cat_eq (wE - 2)) by (try lia; rewrite og_eq by lia; lia).
    rewrite og_eq by lia. unfold zg.
    rewrite (cat_eq 1 (0 * 2 ^ (wE - 2) + (2 ^ (wE - 2) - 1))) by (change (2 ^ 1) with 2; lia).
    rewrite (cat_eq 1 0) by (change (2 ^ 1) with 2; destruct c; cbn; lia).
    change (2 ^ 1) with 2. rewrite fsub_eq, (fadd_eq (wE + 2)) by lia. rewrite mod_add_2 by (apply Z.pow_nonzero; lia).
    rewrite cat_eq by lia. rewrite fadd_eq by lia.
    rewrite mul_scale_mod by lia. replace (wE + 2 + wF) with (wE + wF + 2) by lia.
    rewrite <- !Z.add_assoc. rewrite mod_add_2 by (apply Z.pow_nonzero; lia). f_equal. unfold Xe. rewrite EE. lia.
  - intros E F s k -> ->. unfold round_to. rewrite Emm.
    apply round_range_char; [lia|lia|lia|lia| |].
    + replace (ex - ey - (Xe - (2 ^ (wE - 1) - 1) - wF)) with (wF + 1 - Z.b2z t) by (unfold Xe; lia).
      unfold num2, den2. rewrite (Z.max_r 0 (wF + 1 - Z.b2z t)) by lia. rewrite (Z.max_l 0 (- (wF + 1 - Z.b2z t))) by lia. change (2 ^ 0) with 1.
      subst B. destruct t; cbn [Z.b2z].
      * replace (wF + 1 - 1) with wF by lia. rewrite E2. ring.
      * replace (wF + 1 - 0) with (wF + 1) by lia. rewrite E1, E2. ring.
    + clear Em Emm Ec Ef. pose proof (sticky_le (2 ^ (wF + 2) * X) B (wF + 2) HB ltac:(lia)) as L.
      pose proof (sticky_le (2 ^ (wF + 2) * X) B (wF + 3) HB ltac:(lia)) as U.
      replace (wF + 2 - 1) with (wF + 1) in L by lia. replace (wF + 3 - 1) with (wF + 2) in U by lia.
      destruct L as [L _]. destruct U as [_ U]. specialize (L (proj1 HG')).
      assert (NU : ~ 2 ^ (wF + 2) * B <= 2 ^ (wF + 2) * X) by (intro Q; apply U in Q; lia).
      rewrite E1, E2 in *. lia.
Qed.
