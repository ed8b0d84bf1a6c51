(** fp_flopoco_inv_nr.hpp, inv_direct: the table of reciprocals is the correctly rounded reciprocal when the input
    fraction is at most one bit longer than the output's. *)
From Coq Require Import ZArith Bool Lia QArith.
From Verif Require Import Fw FwLemmas Spec SpecLemmas SpecFix SpecInv Flopoco FlopocoLemmas AddLemmas InvNr InvNrProofs InvNrProofs2 InvNrProofs3.
Local Open Scope Z_scope.

Lemma inv_direct_pack E F w fl s ey f : 2 <= E -> 1 <= F <= 50 -> 1 <= w <= 30 -> w <= F + 1 -> okf E w fl ey f ->
  exists R, R = dbl_round (dbl_quot (2 ^ w) (2 ^ w + f)) (F + 1) /\ good_frac (F + 1) w R (2 ^ w + f) /\ 0 <= R mod 2 ^ F < 2 ^ F /\
    inv_direct E F E w (pack E w fl s ey f) = Some (recip_form E F w fl s ey f R).
Proof.
  intros HE HF Hw HwF O. assert (O' := O). destruct O' as (_ & _ & Hfl & He & Hf).
  destruct (direct_entry_ok w (F + 1) f ltac:(lia) ltac:(lia) Hf) as [R [T [ER G]]]. exists R. split; [exact ER|]. split; [exact G|]. split; [apply mod_pow_bound; lia|].
  pose proof (direct_one w F f R ltac:(lia) ltac:(lia) Hf ER) as ONE.
  unfold inv_direct. rewrite Z.eqb_refl. cbn [assert_ bind]. cbv zeta. rewrite get_flags_pack, get_sign_pack, get_exp_pack, get_frac_pack by assumption.
  rewrite opad_hi_eq by lia. change (2 ^ 1 - 1) with 1. replace (1 * 2 ^ w + f) with (2 ^ w + f) by lia. replace (- F - 1) with (- (F + 1)) by lia.
  rewrite direct_table_ok by lia. rewrite T. cbn [bind].
  destruct G as [G1 _]. replace (F + 1 - 1) with F in G1 by lia. pose proof (pow2_pos F ltac:(lia)) as PF. assert (P1 := pow2_S F ltac:(lia)). assert (P2 : 2 ^ (F + 2) = 4 * 2 ^ F) by (rewrite pow2_add by lia; change (2 ^ 2) with 4; lia).
  rewrite take_lsbs_ok by lia. cbn [bind]. assert (PE : 4 <= 2 ^ E) by (change 4 with (2 ^ 2); apply pow2_le; lia).
  rewrite !of_int_ok by lia. cbn [bind]. unfold feq, zg. rewrite ONE, to_bool_b2z. rewrite exp_field by lia. rewrite og_eq by lia. f_equal. unfold recip_form. apply mk_pack; [lia|lia|apply mod_pow_bound; lia|apply mod_pow_bound; lia].
Qed.
Lemma direct_op E F w : 2 <= E -> 1 <= F <= 50 -> 1 <= w <= 30 -> w <= F + 1 -> recip_op inv_direct E F w.
Proof. intros HE HF Hw HwF fl s ey f O. destruct (inv_direct_pack E F w fl s ey f HE HF Hw HwF O) as [R [_ H]]. exists R. exact H. Qed.

Lemma odd_factor n q A : 0 <= n -> (2 * q + 1) * A = 2 ^ n -> A = 2 ^ n \/ A = - 2 ^ n.
Proof.
  intros Hn. revert A. pattern n. apply natlike_ind; [| |exact Hn].
  - intros A H. change (2 ^ 0) with 1 in *. assert (D : (A | 1)) by (exists (2 * q + 1); lia). apply Z.divide_1_r in D. lia.
  - intros m Hm IH A H. rewrite Z.pow_succ_r in * by lia. pose proof (Z.div_mod A 2 ltac:(lia)) as DM. pose proof (Z.mod_pos_bound A 2 ltac:(lia)).
    assert (A mod 2 = 0). { assert (A mod 2 = 0 \/ A mod 2 = 1) as [X|X] by lia; [exact X|]. exfalso. rewrite X in DM. remember (A / 2) as a. nia. }
    destruct (IH (A / 2)) as [X|X]; [nia|lia|lia].
Qed.
(** Rounding the rounded quotient is rounding the quotient: no quotient is close enough to a midpoint. *)
Lemma direct_nearest w r A R : 1 <= w -> 1 <= r -> w + r <= 52 -> 2 ^ w <= A < 2 ^ (w + 1) -> R = dbl_round (dbl_quot (2 ^ w) A) r -> R = rne_div (2 ^ (w + r)) A.
Proof.
  intros Hw Hr Hwr HA ER. destruct (direct_err w r A _ R Hw ltac:(lia) HA eq_refl ER) as [_ B]. pose proof (pow2_pos w ltac:(lia)) as PW. pose proof (pow2_pos r ltac:(lia)) as PR.
  symmetry. apply rne_div_near; [lia|]. replace (w + r) with (r + w) by lia.
  (* K(2|d| - A) <= 2^r A < 2^(r+w+1) <= 2^53 = K *)
  assert (L : 2 ^ r * A < 2 ^ 53). { apply Z.lt_le_trans with (2 ^ r * 2 ^ (w + 1)); [apply Z.mul_lt_mono_pos_l; lia|]. rewrite <- pow2_add by lia. apply pow2_le. lia. }
  assert (NE : 2 * (R * A - 2 ^ (r + w)) <> A /\ 2 * (R * A - 2 ^ (r + w)) <> - A).
  { (* (2R -+ 1) A = 2^(r+w+1): an odd divisor of a power of two is 1 *)
    assert (BIG : 2 ^ (w + 1) <= 2 ^ (r + w + 1)) by (apply pow2_le; lia). assert (PB := pow2_pos (r + w + 1) ltac:(lia)).
    split; intros H; [pose proof (odd_factor (r + w + 1) (R - 1) A ltac:(lia) ltac:(rewrite (pow2_S (r + w)) by lia; lia))|pose proof (odd_factor (r + w + 1) R A ltac:(lia) ltac:(rewrite (pow2_S (r + w)) by lia; lia))]; lia. }
  change (2 ^ 54) with (2 * 2 ^ 53) in B. remember (2 ^ 53) as K. remember (2 ^ (r + w)) as P. remember (2 ^ r * A) as Q. assert (0 < K) by (subst K; reflexivity).
  remember (R * A - P) as d. assert (K * (2 * d - A) < K) by nia. assert (K * (- 2 * d - A) < K) by nia. assert (2 * d - A < 1) by nia. assert (- 2 * d - A < 1) by nia. lia.
Qed.

(** The correctly rounded reciprocal in the same terms. *)
Lemma recip_round E F w t ey f : 2 <= E -> 1 <= F -> 1 <= w -> 0 <= f < 2 ^ w ->
  round_to E F t 1 (2 ^ w + f) (0 - (ey - bias E - w)) = finish (emin E) (emax E) F t (norm_me F (rne_div (2 ^ (w + (F + 1))) (2 ^ w + f)) (2 ^ E - 3 - ey - bias E - F)).
Proof.
  intros HE HF Hw Hf. pose proof (pow2_pos w ltac:(lia)) as PW. pose proof (pow2_pos F ltac:(lia)) as PF. pose proof (pow2_S F ltac:(lia)) as PF1. pose proof (bias_twice E ltac:(lia)) as B2. unfold round_to.
  destruct (Z.eq_dec f 0) as [->|N].
  - rewrite Z.add_0_r. rewrite (round_range_char _ _ F t 1 (2 ^ w) _ (2 ^ E - 3 - ey - bias E - F + 1) (2 ^ F * 2 ^ w) (2 ^ w)); try lia.
    + rewrite rne_div_exact by lia. replace (2 ^ (w + (F + 1))) with (2 ^ (F + 1) * 2 ^ w) by (rewrite <- pow2_add by lia; f_equal; lia). rewrite rne_div_exact by lia. unfold norm_me. rewrite Z.eqb_refl. replace (2 ^ F =? 2 ^ (F + 1)) with false by lia. reflexivity.
    + unfold den2, num2. replace (0 - (ey - bias E - w) - (2 ^ E - 3 - ey - bias E - F + 1)) with (w + F) by lia. rewrite Z.max_l, Z.max_r by lia. rewrite pow2_add by lia. change (2 ^ 0) with 1. ring.
  - apply round_range_char; try lia.
    + unfold den2, num2. replace (0 - (ey - bias E - w) - (2 ^ E - 3 - ey - bias E - F)) with (w + (F + 1)) by lia. rewrite Z.max_l, Z.max_r by lia. change (2 ^ 0) with 1. ring.
    + rewrite pow2_add by lia. nia.
Qed.
Lemma direct_correct E F w y : 2 <= E -> 1 <= F -> 1 <= w <= 30 -> w <= F + 1 -> w + F <= 51 -> wf (E + w + 3) y ->
  (forall s m e, decode E w y = Num s m e -> e + w = emax E - 1 -> m = 2 ^ w) ->
  exists r, inv_direct E F E w y = Some r /\ wf (E + F + 3) r /\ decode E F r = div_spec E F (Num false 1 0) (decode E w y).
Proof.
  intros HE HF Hw HwF HwF2 Hy NW. destruct (pack_view E w y ltac:(lia) ltac:(lia) Hy) as [fl [t [ey [f [O ->]]]]]. assert (O' := O). destruct O' as (_ & _ & Hfl & Hey & Hf).
  destruct (inv_direct_pack E F w fl t ey f HE ltac:(lia) Hw HwF O) as [R [ER [G [Rm EQ]]]]. rewrite EQ. unfold recip_form. eexists. split; [reflexivity|].
  pose proof (mod_pow_bound (2 ^ E - 3 - ey + Z.b2z (R =? 2 ^ (F + 1))) E ltac:(lia)) as Hc. remember ((2 ^ E - 3 - ey + Z.b2z (R =? 2 ^ (F + 1))) mod 2 ^ E) as c.
  assert (OR : okf E F (inv_flags fl (Z.b2z (ey =? 2 ^ E - 1))) c (R mod 2 ^ F)) by (pose proof (inv_flags_range fl (Z.b2z (ey =? 2 ^ E - 1)) Hfl); repeat split; lia).
  split; [apply pack_wf; exact OR|]. rewrite (decode_pack E F) by exact OR. rewrite decode_pack in * by assumption. unfold inv_flags. rewrite to_bool_b2z.
  apply flags_cases in Hfl. destruct Hfl as [->|[->|[->| ->]]]; cbn [Z.eqb Pos.eqb] in *; unfold div_spec, div_gen; rewrite ?xorb_false_l; try reflexivity.
  specialize (NW t (2 ^ w + f) (ey - bias E - w) eq_refl). unfold emax in NW. pose proof (bias_twice E ltac:(lia)) as B2.
  assert (DN : R = rne_div (2 ^ (w + (F + 1))) (2 ^ w + f)) by (apply direct_nearest; try lia; rewrite pow2_S by lia; lia).
  rewrite recip_round by lia. rewrite <- DN. destruct G as [G1 G2]. replace (F + 1 - 1) with F in G1 by lia. pose proof (pow2_pos F ltac:(lia)) as PF. pose proof (pow2_S F ltac:(lia)) as PF1. pose proof (pow2_pos w ltac:(lia)) as PW.
  assert (ONE := direct_one w F f R ltac:(lia) ltac:(lia) Hf ER).
  rewrite finish_norm by lia. cbv zeta. remember ((2 ^ E - 3 - ey) * 2 ^ F + (R - 2 ^ F)) as T.
  destruct (ey =? 2 ^ E - 1) eqn:E1; cbn [Z.b2z Z.eqb Pos.eqb].
  { replace (T <? 0) with true; [reflexivity|]. symmetry. apply Z.ltb_lt. nia. }
  assert (NW2 : ey = 2 ^ E - 2 -> R = 2 ^ (F + 1)). { intros A. assert (f = 0) by lia. subst f. symmetry in ONE. apply Z.eqb_eq in ONE. exact ONE. }
  assert (C : 0 <= 2 ^ E - 3 - ey + Z.b2z (R =? 2 ^ (F + 1)) < 2 ^ E) by (destruct (R =? 2 ^ (F + 1)) eqn:Q; cbn [Z.b2z]; lia). rewrite Z.mod_small in Heqc by exact C.
  assert (TE : T = c * 2 ^ F + R mod 2 ^ F).
  { destruct (R =? 2 ^ (F + 1)) eqn:Q; cbn [Z.b2z] in Heqc.
    - apply Z.eqb_eq in Q. rewrite HeqT, Heqc, Q, PF1. rewrite Z.mod_mul by lia. ring.
    - apply Z.eqb_neq in Q. assert (R / 2 ^ F = 1) by (symmetry; apply (Z.div_unique R (2 ^ F) 1 (R - 2 ^ F)); lia). pose proof (div_mod_eq R (2 ^ F) PF). rewrite HeqT, Heqc. nia. }
  rewrite pow2_add by lia. replace (T <? 0) with false by (symmetry; apply Z.ltb_ge; nia). replace (T <? 2 ^ E * 2 ^ F) with true by (symmetry; apply Z.ltb_lt; nia).
  rewrite TE. rewrite join_div, join_mod by lia. reflexivity.
Qed.
(** A longer input fraction: the least fraction above 1 gives one half of the nearest result. *)
Lemma direct_long E F w : 2 <= E -> 1 <= F -> F + 2 <= w <= 30 -> w + F <= 51 ->
  exists y r, wf (E + w + 3) y /\ decode E w y = Num false (2 ^ w + 1) (- w) /\ inv_direct E F E w y = Some r /\
    decode E F r = Num false (2 ^ F) (- F - 1) /\ div_spec E F (Num false 1 0) (decode E w y) = Num false (2 ^ F) (- F).
Proof.
  intros HE HF Hw HwF. pose proof (bias_twice E ltac:(lia)) as B2. assert (PE : 4 <= 2 ^ E) by (change 4 with (2 ^ 2); apply pow2_le; lia).
  pose proof (pow2_pos F ltac:(lia)) as PF. assert (P1 := pow2_S F ltac:(lia)). assert (P2 : 2 ^ (F + 2) = 4 * 2 ^ F) by (rewrite pow2_add by lia; change (2 ^ 2) with 4; lia).
  assert (PW : 2 ^ (F + 2) <= 2 ^ w) by (apply pow2_le; lia). assert (O : okf E w 1 (bias E) 1) by (repeat split; lia).
  assert (HA : 2 ^ w <= 2 ^ w + 1 < 2 ^ (w + 1)) by (rewrite pow2_S by lia; lia).
  destruct (direct_entry_ok w (F + 1) 1 ltac:(lia) ltac:(lia) ltac:(lia)) as [R [T [ER G]]].
  assert (DN : R = rne_div (2 ^ (w + (F + 1))) (2 ^ w + 1)) by (apply direct_nearest; lia).
  assert (RV : rne_div (2 ^ (w + (F + 1))) (2 ^ w + 1) = 2 ^ (F + 1)) by (apply rne_div_near; [lia|]; rewrite (pow2_add w) by lia; nia). rewrite RV in DN.
  exists (pack E w 1 false (bias E) 1), (pack E F 1 false (bias E - 1) 0). rewrite (decode_pack E w) by assumption. cbn [Z.eqb Pos.eqb].
  split; [apply pack_wf; exact O|]. split; [f_equal; lia|]. split; [|split].
  - unfold inv_direct. rewrite Z.eqb_refl. cbn [assert_ bind]. cbv zeta. rewrite get_flags_pack, get_sign_pack, get_exp_pack, get_frac_pack by assumption.
    rewrite opad_hi_eq by lia. change (2 ^ 1 - 1) with 1. replace (1 * 2 ^ w + 1) with (2 ^ w + 1) by lia. replace (- F - 1) with (- (F + 1)) by lia.
    rewrite direct_table_ok by lia. rewrite T. cbn [bind]. rewrite take_lsbs_ok by lia. cbn [bind]. rewrite !of_int_ok by lia. cbn [bind]. unfold feq, zg. cbn [Z.eqb Pos.eqb to_bool Z.b2z].
    rewrite DN, P1, Z.mod_mul by lia. rewrite !fsub_eq by lia. rewrite og_eq by lia. replace (inv_flags 1 (Z.b2z (bias E =? 2 ^ E - 1))) with 1 by (replace (bias E =? 2 ^ E - 1) with false by lia; reflexivity).
    rewrite (Z.mod_small (2 ^ E - 1 - 2)) by lia. rewrite Z.mod_small by lia. f_equal. replace (2 ^ E - 1 - 2 - bias E) with (bias E - 1) by lia. apply (mk_pack E F 1 false); lia.
  - rewrite decode_pack by (repeat split; lia). cbn [Z.eqb Pos.eqb]. f_equal; lia.
  - unfold div_spec, div_gen. cbn [xorb]. rewrite recip_round by lia. rewrite RV. unfold norm_me. rewrite Z.eqb_refl. unfold finish, emin, emax.
    replace (_ <? - bias E) with false by lia. replace (bias E + 1 <? _) with false by lia. f_equal. lia.
Qed.
(** ** The rounding helper *)
Lemma round_frac_err wR wX x : 1 <= wR -> wR + 2 <= wX -> 0 <= x < 2 ^ wX ->
  exists r o, round_frac wR wX x = Some (r, o) /\ 0 <= r < 2 ^ wR /\ 0 <= o <= 1 /\
    - (3 * 2 ^ (wX - wR)) <= 4 * ((o * 2 ^ wR + r) * 2 ^ (wX - wR) - x) <= 2 * 2 ^ (wX - wR).
Proof.
  intros H1 H2 H3. rewrite round_frac2 by assumption. remember (wX - wR) as D. pose proof (rf_up_bounds D x ltac:(lia)) as [U1 [U2 _]].
  pose proof (pow2_pos wR ltac:(lia)) as PR. pose proof (pow2_pos D ltac:(lia)) as PD. pose proof (div_mod_eq x (2 ^ D) PD) as DM. pose proof (Z.mod_pos_bound x (2 ^ D) PD).
  assert (Q : 0 <= x / 2 ^ D < 2 ^ wR) by (apply div_pow_lt; [lia|lia|]; replace (D + wR) with wX by lia; exact H3 || (replace (wR + D) with wX by lia; exact H3)).
  remember (x / 2 ^ D + Z.b2z (rf_up D x)) as v. assert (V : 0 <= v <= 2 ^ wR) by (destruct (rf_up D x); cbn [Z.b2z] in Heqv; lia).
  exists (v mod 2 ^ wR), (v / 2 ^ wR). split; [reflexivity|]. split; [apply mod_pow_bound; lia|]. pose proof (div_mod_eq v (2 ^ wR) PR) as VM.
  split. { split; [apply Z.div_pos; lia|]. apply Z.lt_succ_r. apply Z.div_lt_upper_bound; lia. }
  replace (v / 2 ^ wR * 2 ^ wR + v mod 2 ^ wR) with v by lia. destruct (rf_up D x); cbn [Z.b2z] in Heqv; [specialize (U1 eq_refl)|specialize (U2 eq_refl)]; subst v; nia.
Qed.
Lemma round_frac_right wR wX x : 1 <= wR -> wR + 2 <= wX -> 0 <= x < 2 ^ wX -> (x / 2 ^ (wX - wR - 2)) mod 2 = 0 \/ Z.odd (x / 2 ^ (wX - wR)) = true ->
  exists r o, round_frac wR wX x = Some (r, o) /\ o * 2 ^ wR + r = rne_div x (2 ^ (wX - wR)).
Proof.
  intros H1 H2 H3 H4. rewrite round_frac2 by assumption. remember (wX - wR) as D. eexists _, _. split; [reflexivity|].
  pose proof (pow2_pos wR ltac:(lia)) as PR. pose proof (pow2_pos D ltac:(lia)) as PD. rewrite Z.mul_comm, <- div_mod_eq by lia.
  unfold rne_div, rf_up. cbv zeta. pose proof (pow2_S (D - 1) ltac:(lia)) as P1. replace (D - 1 + 1) with D in P1 by lia. pose proof (pow2_S (D - 2) ltac:(lia)) as P2. replace (D - 2 + 1) with (D - 1) in P2 by lia.
  pose proof (Z.mod_pos_bound x (2 ^ D) PD) as HM. remember (x mod 2 ^ D) as r. remember (x / 2 ^ D) as q. rewrite <- Z.negb_odd.
  destruct (2 * r <? 2 ^ D) eqn:A. { replace (2 ^ (D - 1) <=? r) with false by lia. cbn [andb Z.b2z]. lia. }
  replace (2 ^ (D - 1) <=? r) with true by lia. cbn [andb]. destruct (Z.odd q) eqn:OQ; cbn [orb negb Z.b2z]. { destruct (2 ^ D <? 2 * r); reflexivity. }
  destruct H4 as [H4|H4]; [|discriminate].
  assert (RM : r mod 2 ^ (D - 2) = r - 2 ^ (D - 1)).
  { assert (B : (r / 2 ^ (D - 2)) mod 2 = 0). { rewrite <- H4. subst r. replace (2 ^ D) with (2 ^ (D - 2) * 2 ^ 2) by (rewrite <- pow2_add by lia; f_equal; lia). rewrite Z.rem_mul_r by lia.
      replace (x mod 2 ^ (D - 2) + 2 ^ (D - 2) * ((x / 2 ^ (D - 2)) mod 2 ^ 2)) with ((x / 2 ^ (D - 2)) mod 2 ^ 2 * 2 ^ (D - 2) + x mod 2 ^ (D - 2)) by ring. pose proof (mod_pow_bound x (D - 2) ltac:(lia)). rewrite join_div by lia. change (2 ^ 2) with (2 * 2). rewrite Z.rem_mul_r by lia. rewrite Z.mul_comm, Z.mod_add, Z.mod_mod by lia. reflexivity. }
    pose proof (pow2_pos (D - 2) ltac:(lia)) as PP. pose proof (div_mod_eq r (2 ^ (D - 2)) PP) as E1. pose proof (Z.mod_pos_bound r (2 ^ (D - 2)) PP) as E2.
    pose proof (Z.div_mod (r / 2 ^ (D - 2)) 2 ltac:(lia)) as E3. rewrite B in E3. remember (r / 2 ^ (D - 2)) as z. remember (z / 2) as zz. assert (zz = 1) by nia. nia. }
  rewrite RM. destruct (2 ^ D <? 2 * r) eqn:C; [replace (r - 2 ^ (D - 1) =? 0) with false by lia|replace (r - 2 ^ (D - 1) =? 0) with true by lia]; cbn [negb Z.b2z]; lia.
Qed.
Lemma round_frac_wrong wR wX : 1 <= wR -> wR + 2 <= wX -> exists x r o, 0 <= x < 2 ^ wX /\ round_frac wR wX x = Some (r, o) /\ o * 2 ^ wR + r <> rne_div x (2 ^ (wX - wR)).
Proof.
  intros H1 H2. remember (wX - wR) as D. pose proof (pow2_S (D - 1) ltac:(lia)) as P1. replace (D - 1 + 1) with D in P1 by lia. pose proof (pow2_S (D - 2) ltac:(lia)) as P2. replace (D - 2 + 1) with (D - 1) in P2 by lia. pose proof (pow2_pos (D - 2) ltac:(lia)) as PP.
  assert (PX : 2 ^ D <= 2 ^ wX) by (apply pow2_le; lia). exists (3 * 2 ^ (D - 2)). pose proof (pow2_pos wR ltac:(lia)) as PR.
  rewrite round_frac2 by lia. eexists _, _. split; [lia|]. split; [reflexivity|]. rewrite <- HeqD. rewrite Z.mul_comm, <- div_mod_eq by lia. unfold rf_up. cbv zeta.
  rewrite Z.div_small, (Z.mod_small (3 * 2 ^ (D - 2)) (2 ^ D)) by lia. rewrite Z.mod_mul by lia. cbn [Z.odd orb negb Z.eqb]. rewrite andb_false_r. cbn [Z.b2z].
  unfold rne_div. rewrite Z.div_small, (Z.mod_small (3 * 2 ^ (D - 2)) (2 ^ D)) by lia. cbv zeta. replace (_ <? 2 ^ D) with false by lia. replace (2 ^ D <? _) with true by lia. lia.
Qed.
(** ** Both functions *)
Lemma newton_narrow E F w y : w <= 7 \/ F <= 6 -> inv_table_newton E F E w y = None.
Proof.
  intros H. unfold inv_table_newton. rewrite Z.eqb_refl. cbn [assert_ bind]. cbv zeta. unfold table_newton. destruct (-7 <=? - w) eqn:A; [reflexivity|]. replace (-7 <=? - F - 1) with true by lia. reflexivity.
Qed.
Lemma newton_special E F w y : 2 <= E -> 7 <= F <= 62 -> 8 <= w -> index_bits (F + 1) <= w -> wf (E + w + 3) y ->
  exists r, inv_table_newton E F E w y = Some r /\ wf (E + F + 3) r /\
    match decode E w y with
    | NaN => decode E F r = NaN
    | Inf s => decode E F r = Zero s
    | Zero s => decode E F r = Inf s
    | Num s m e => (e + w = emax E -> decode E F r = Zero s)
    end.
Proof. intros A B C D. exact (recip_special _ E F w y A ltac:(lia) ltac:(lia) (newton_op E F w A B C D)). Qed.
Lemma newton_wraps E F w y s m e : 2 <= E -> 7 <= F <= 62 -> 8 <= w -> index_bits (F + 1) <= w -> wf (E + w + 3) y -> decode E w y = Num s m e ->
  e + w = emax E - 1 -> 2 ^ w + 2 ^ (w - 1) <= m ->
  exists r m' e', inv_table_newton E F E w y = Some r /\ decode E F r = Num s m' e' /\ e' + F = emax E.
Proof. intros A B C D. exact (recip_wraps _ E F w y s m e A ltac:(lia) ltac:(lia) (newton_op E F w A B C D)). Qed.
Lemma newton_faithful E F w y s m e : 2 <= E -> 7 <= F <= 62 -> 8 <= w -> index_bits (F + 1) <= w -> wf (E + w + 3) y -> decode E w y = Num s m e ->
  e + w <= emax E - 2 \/ (e + w = emax E - 1 /\ m = 2 ^ w) ->
  exists r m' e', inv_table_newton E F E w y = Some r /\ wf (E + F + 3) r /\ decode E F r = Num s m' e' /\
    faithful E F (/ qval (decode E w y)) (qval (decode E F r)).
Proof. intros A B C D. exact (recip_faithful _ E F w y s m e A ltac:(lia) ltac:(lia) (newton_op E F w A B C D)). Qed.
Lemma direct_special E F w y : 2 <= E -> 1 <= F <= 50 -> 1 <= w <= 30 -> w <= F + 1 -> wf (E + w + 3) y ->
  exists r, inv_direct E F E w y = Some r /\ wf (E + F + 3) r /\
    match decode E w y with
    | NaN => decode E F r = NaN
    | Inf s => decode E F r = Zero s
    | Zero s => decode E F r = Inf s
    | Num s m e => (e + w = emax E -> decode E F r = Zero s)
    end.
Proof. intros A B C D. exact (recip_special _ E F w y A ltac:(lia) ltac:(lia) (direct_op E F w A B C D)). Qed.
Lemma direct_wraps E F w y s m e : 2 <= E -> 1 <= F <= 50 -> 1 <= w <= 30 -> w <= F + 1 -> wf (E + w + 3) y -> decode E w y = Num s m e ->
  e + w = emax E - 1 -> 2 ^ w + 2 ^ (w - 1) <= m ->
  exists r m' e', inv_direct E F E w y = Some r /\ decode E F r = Num s m' e' /\ e' + F = emax E.
Proof. intros A B C D. exact (recip_wraps _ E F w y s m e A ltac:(lia) ltac:(lia) (direct_op E F w A B C D)). Qed.
Lemma direct_faithful E F w y s m e : 2 <= E -> 1 <= F <= 50 -> 1 <= w <= 30 -> w <= F + 1 -> wf (E + w + 3) y -> decode E w y = Num s m e ->
  e + w <= emax E - 2 \/ (e + w = emax E - 1 /\ m = 2 ^ w) ->
  exists r m' e', inv_direct E F E w y = Some r /\ wf (E + F + 3) r /\ decode E F r = Num s m' e' /\
    faithful E F (/ qval (decode E w y)) (qval (decode E F r)).
Proof. intros A B C D. exact (recip_faithful _ E F w y s m e A ltac:(lia) ltac:(lia) (direct_op E F w A B C D)). Qed.
