(** The flags of roundPack in every rounding mode. Follows FlagProofs1.v. *)
From Coq Require Import ZArith Bool Lia Reals Lra.
From Flocq Require Import Core.
From Verif Require Import Fw FwLemmas Spec SpecLemmas ValueLemmas Spec754 Spec754Mode Sf754Lemmas SpecFlocq SpecReal SpecFlocq754Mode SoftFloat SoftFloatMode SpecSfMode SfProofs1 SfmProofs1 SfmProofs2 SoftFloatFlags SpecFlags FlagProofs1 SoftFloatFlagsMode SpecFlagsMode.
Open Scope Z_scope.

Definition fl3m (md : rmode) (E F : Z) (x : R) (fl : Z) : Prop :=
  (fl = 0 /\ ~ overflowsm md E F x /\ ~ underflowsm md E F x) \/
  (fl = 2 /\ ~ overflowsm md E F x /\ underflowsm md E F x) \/
  (fl = 5 /\ overflowsm md E F x /\ ~ underflowsm md E F x).
Definition okfm (md : rmode) (E F : Z) (o : option (Z * Z)) (x : R) : Prop := exists r fl, o = Some (r, fl) /\ fl3m md E F x fl.

Local Existing Instance rnd_of_valid.
Ltac pick := lazymatch goal with
  | |- okfm _ _ _ (if ?c then Some (?x, ?f) else Some (?y, ?f)) _ => exists (if c then x else y), f; split; [destruct c; reflexivity|]
  | _ => eexists _, _; split; [reflexivity|] end.

Lemma mode_inc_m md E (s : bool) :
  (if negb (enum_of md =? softfloat_round_near_even) && negb (enum_of md =? softfloat_round_near_maxMag) then
      if enum_of md =? (if s then softfloat_round_min else softfloat_round_max) then 2 ^ (E - 1) - 1 else 0
    else 2 ^ (E - 1 - 1)) = rinc md s (E - 1).
Proof. destruct md, s; reflexivity. Qed.

(** Rounding with a known exponent. *)
Lemma round_Vm md fexp s n d k t : 0 < n -> 0 < d -> 0 <= t -> cexp radix2 fexp (V s n d k) = k + t ->
  round radix2 fexp (rnd_of md) (V s n d k) = V s (rnd_div md s n (d * 2 ^ t)) 1 (k + t).
Proof.
  intros Hn Hd Ht Hc. pose proof (pow2_pos t Ht) as Pt. unfold round, scaled_mantissa, F2R. cbn [Fnum Fexp]. rewrite Hc.
  replace (V s n d k * bpow radix2 (- (k + t)))%R with (sgnR s (IZR n / IZR (d * 2 ^ t))).
  2: { unfold V. rewrite mult_IZR, pow_bpow by lia. replace (- (k + t)) with (- k + - t) by lia. rewrite bpow_plus, !bpow_opp.
    assert (IZR d <> 0%R) by (apply IZR_neq; lia). pose proof (bpow_gt_0 radix2 k). pose proof (bpow_gt_0 radix2 t).
    destruct s; cbn [sgnR]; field; repeat split; lra. }
  pose proof (rnd_of_div md s n (d * 2 ^ t) ltac:(lia) ltac:(apply Z.mul_pos_pos; lia)) as R. rewrite R.
  unfold V. destruct s; cbn [sgnR sgn]; [rewrite opp_IZR|]; field.
Qed.

Lemma rnd_exact md s n d : 0 <= n -> 0 < d -> (rnd_div md s n d * d = n <-> n mod d = 0).
Proof.
  intros Hn Hd. split.
  - intros H. rewrite <- H. apply Z.mod_mul. lia.
  - intros H. assert (n = n / d * d) by (pose proof (Z.div_mod n d ltac:(lia)); lia). remember (n / d) as c.
    assert (rnd_div md s n d = c) by (assert (c <= rnd_div md s n d <= c) by (apply rnd_div_bounds; lia); lia). nia.
Qed.

Section Pack.
Context (md : rmode) (odd : bool).
Context (E F U C W : Z).
Context (HW : W = E + F + 1) (HE : 3 <= E <= 15) (HF : 1 <= F) (HU : W <= U) (HC : 16 <= C).
Context (Hpow : exists w, 0 <= w /\ W = 2 ^ w).

(** A number of the format raises nothing. *)
Lemma fl3_exact_m s m q : 0 <= m < 2 ^ (F + 1) -> 1 - bias E - F <= q <= bias E - F -> fl3m md E F (V s m 1 q) 0.
Proof.
  intros Hm Hq. left. split; [reflexivity|].
  assert (Hp1 : Prec_gt_0 (F + 1)) by (unfold Prec_gt_0; lia).
  assert (G : generic_format radix2 (FLT_exp (1 - bias E - F) (F + 1)) (V s m 1 q)).
  { apply generic_format_FLT. exists (Float radix2 (sgn s m) q).
    - unfold V, F2R. cbn [Fnum Fexp]. destruct s; cbn [sgn sgnR]; rewrite ?opp_IZR; field.
    - cbn [Fnum]. change (Zpower radix2 (F + 1)) with (2 ^ (F + 1)). destruct s; cbn [sgn]; lia.
    - cbn [Fexp]. lia. }
  unfold overflowsm, underflowsm, rounded_unboundedm, rounded_formatm.
  rewrite !round_generic; [|typeclasses eauto|exact G|typeclasses eauto|apply (generic_format_FLX_FLT _ _ _ _ G)].
  split; [|intros [_ H]; now apply H].
  rewrite Rabs_V by lia. apply Rlt_not_le. apply Rlt_le_trans with (bpow radix2 (F + 1) * bpow radix2 q)%R.
  - apply Rmult_lt_compat_r; [apply bpow_gt_0|]. rewrite <- pow_bpow by lia. unfold Rdiv. rewrite Rinv_1, Rmult_1_r. apply IZR_lt. lia.
  - rewrite <- bpow_plus. apply bpow_le. lia.
Qed.

Lemma roundPackFM_gen s exp sig n d : 0 < n -> 0 < d -> - 2 ^ 15 <= exp < 2 ^ 15 ->
  jam (2 * sig) (2 ^ (E - 2)) = jam (2 * n) (d * 2 ^ (E - 2)) -> 2 ^ (W - 2) <= sig < 2 ^ (W - 1) ->
  okfm md E F (roundPackFM (enum_of md) odd E F U C s exp sig) (V s n d (exp + 1 - bias E - (W - 2))).
Proof.
  intros Hn Hd He Hsig Hb. destruct (sf_EB E ltac:(lia)) as [EB B3].
  pose proof (pow2_pos F ltac:(lia)) as PF.
  pose proof (pow2_pos (E - 1) ltac:(lia)) as PG. pose proof (pow2_pos (E - 1 - 1) ltac:(lia)) as Ph.
  assert (H16 : 2 ^ 16 <= 2 ^ C) by (apply pow2_le; lia).
  assert (HE15 : 2 ^ E <= 2 ^ 15) by (apply pow2_le; lia).
  change (2 ^ 16) with 65536 in H16. change (2 ^ 15) with 32768 in *.
  pose proof (pow2_pos (E - 2) ltac:(lia)) as P2. pose proof (pow2_pos (W - 2) ltac:(lia)) as PW2.
  assert (HdE : 0 < d * 2 ^ (E - 2)) by (apply Z.mul_pos_pos; lia).
  assert (W1 : 2 ^ (W - 1) = 2 ^ (F + 2) * 2 ^ (E - 2)) by (rewrite <- pow2_add by lia; f_equal; lia).
  assert (W2 : 2 ^ (W - 2) = 2 ^ (F + 1) * 2 ^ (E - 2)) by (rewrite <- pow2_add by lia; f_equal; lia).
  assert (Hlo : 2 ^ (W - 2) * d <= n).
  { assert (2 ^ (F + 2) * (d * 2 ^ (E - 2)) <= 2 * n).
    { apply jam_ge_inv; try lia. { apply even_pow2. lia. }
      rewrite <- Hsig. apply jam_ge; try lia. rewrite <- W1. replace (W - 1) with (W - 2 + 1) by lia. rewrite pow2_S by lia. lia. }
    rewrite W2. replace (F + 2) with (F + 1 + 1) in H by lia. rewrite (pow2_S (F + 1)) in H by lia. lia. }
  assert (Hhi : n < 2 ^ (W - 1) * d).
  { assert (2 * n < 2 ^ (F + 3) * (d * 2 ^ (E - 2))).
    { apply jam_lt_inv; try lia. rewrite <- Hsig. apply jam_lt; try lia. { apply even_pow2. lia. }
      replace (F + 3) with (F + 2 + 1) by lia. rewrite pow2_S by lia. lia. }
    rewrite W1. replace (F + 3) with (F + 2 + 1) in H by lia. rewrite pow2_S in H by lia. lia. }
  remember (exp + 1 - bias E - (W - 2)) as k eqn:Ek. remember (V s n d k) as x eqn:Ex.
  (* the magnitude of the exact result *)
  assert (Hmag : Raux.mag radix2 x = W - 1 + k :> Z).
  { apply Raux.mag_unique. rewrite Ex, Rabs_V by lia.
    assert (PD : (0 < IZR d)%R) by (apply IZR_lt; lia).
    assert (L : (bpow radix2 (W - 2) <= IZR n / IZR d)%R).
    { rewrite <- pow_bpow by lia. apply (Rmult_le_reg_r (IZR d)); [exact PD|]. unfold Rdiv. rewrite Rmult_assoc, Rinv_l, Rmult_1_r by lra. rewrite <- mult_IZR. apply IZR_le. exact Hlo. }
    assert (H : (IZR n / IZR d < bpow radix2 (W - 1))%R).
    { rewrite <- pow_bpow by lia. apply (Rmult_lt_reg_r (IZR d)); [exact PD|]. unfold Rdiv. rewrite Rmult_assoc, Rinv_l, Rmult_1_r by lra. rewrite <- mult_IZR. apply IZR_lt. exact Hhi. }
    split.
    - replace (W - 1 + k - 1) with (W - 2 + k) by lia. rewrite bpow_plus. apply Rmult_le_compat_r; [apply bpow_ge_0|exact L].
    - rewrite bpow_plus. apply Rmult_lt_compat_r; [apply bpow_gt_0|exact H]. }
  (* with an unbounded exponent *)
  remember (rnd_div md s sig (2 ^ (E - 1))) as m eqn:Em.
  assert (HM : rnd_div md s n (d * 2 ^ (E - 1)) = m).
  { rewrite Em. replace (2 ^ (E - 1)) with (2 ^ (E - 2) * 2 ^ 1) by (rewrite <- pow2_add by lia; f_equal; lia).
    symmetry. apply rnd_div_near; try assumption; lia. }
  assert (HP : Rabs (rounded_unboundedm md F x) = (IZR m * bpow radix2 (exp + 1 - bias E - F))%R).
  { unfold rounded_unboundedm. rewrite Ex, (round_Vm md _ s n d k (E - 1)); try lia.
    - rewrite HM. rewrite Rabs_V; [|subst m; apply (rnd_div_bounds md s sig (2 ^ (E - 1)) 0 (sig / 2 ^ (E - 1) + 1)); pose proof (Z.div_mod sig (2 ^ (E - 1))); pose proof (Z.mod_pos_bound sig (2 ^ (E - 1))); lia|lia].
      replace (k + (E - 1)) with (exp + 1 - bias E - F) by lia. field.
    - rewrite <- Ex. unfold cexp. rewrite Hmag. unfold FLX_exp. lia. }
  assert (WT : 2 ^ (W - 1) = 2 ^ (F + 1) * 2 ^ (E - 1)) by (rewrite <- pow2_add by lia; f_equal; lia).
  assert (WT2 : 2 ^ (W - 2) = 2 ^ F * 2 ^ (E - 1)) by (rewrite <- pow2_add by lia; f_equal; lia).
  assert (Hmb : 2 ^ F <= m <= 2 ^ (F + 1)) by (subst m; apply rnd_div_bounds; lia).
  destruct (rnd_top md s (E - 1) sig (F + 1) ltac:(lia) ltac:(lia) ltac:(lia)) as [T1 T2]. rewrite <- WT, <- Em in T1, T2.
  assert (HUP : 2 * 2 ^ (W - 1) <= 2 ^ U) by (rewrite <- pow2_S by lia; apply pow2_le; lia).
  assert (HWU : 2 * 2 ^ (W - 1) <= 2 ^ W) by (rewrite <- pow2_S by lia; apply pow2_le; lia).
  assert (Hhalf : 2 ^ (E - 1) <= 2 ^ (W - 1)) by (apply pow2_le; lia).
  assert (EH : 2 ^ (E - 1) = 2 * 2 ^ (E - 1 - 1)) by (rewrite <- pow2_S by lia; f_equal; lia).
  pose proof (rinc_bounds md s (E - 1) ltac:(lia)) as RB.
  assert (EU : uw U (sig + rinc md s (E - 1)) = sig + rinc md s (E - 1)) by (unfold uw; rewrite Z.mod_small; lia).
  (* bounds on the rounded magnitude *)
  assert (LB : forall j, j <= F -> (bpow radix2 (j + (exp + 1 - bias E - F)) <= Rabs (rounded_unboundedm md F x))%R).
  { intros j Hj. rewrite HP, bpow_plus. apply Rmult_le_compat_r; [apply bpow_ge_0|]. apply Rle_trans with (bpow radix2 F); [apply bpow_le; exact Hj|]. rewrite <- pow_bpow by lia. apply IZR_le. lia. }
  assert (UB : (Rabs (rounded_unboundedm md F x) <= bpow radix2 (F + 1 + (exp + 1 - bias E - F)))%R).
  { rewrite HP, bpow_plus. apply Rmult_le_compat_r; [apply bpow_ge_0|]. rewrite <- pow_bpow by lia. apply IZR_le. lia. }
  assert (UBs : m < 2 ^ (F + 1) -> (Rabs (rounded_unboundedm md F x) < bpow radix2 (F + 1 + (exp + 1 - bias E - F)))%R).
  { intros Hm. rewrite HP, bpow_plus. apply Rmult_lt_compat_r; [apply bpow_gt_0|]. rewrite <- pow_bpow by lia. apply IZR_lt. lia. }
  assert (TOP : m = 2 ^ (F + 1) -> Rabs (rounded_unboundedm md F x) = bpow radix2 (F + 1 + (exp + 1 - bias E - F))).
  { intros Hm. rewrite HP, bpow_plus, Hm, pow_bpow by lia. reflexivity. }
  assert (NT : 0 <= exp -> ~ underflowsm md E F x).
  { intros Hexp [H _]. specialize (LB F ltac:(lia)). apply (Rlt_not_le _ _ H). refine (Rle_trans _ _ _ _ LB). apply bpow_le. lia. }
  assert (NO : exp < 2 ^ E - 1 - 2 \/ exp = 2 ^ E - 1 - 2 /\ m < 2 ^ (F + 1) -> ~ overflowsm md E F x).
  { intros [Hx|[Hx Hm]] H; unfold overflowsm in H.
    - apply (Rlt_not_le (bpow radix2 (bias E + 1)) (Rabs (rounded_unboundedm md F x))); [|exact H]. apply Rle_lt_trans with (1 := UB). apply bpow_lt. lia.
    - apply (Rlt_not_le (bpow radix2 (bias E + 1)) (Rabs (rounded_unboundedm md F x))); [|exact H]. apply Rlt_le_trans with (1 := UBs Hm). apply bpow_le. lia. }
  unfold roundPackFM. cbv zeta. rewrite mode_inc_m, <- HW.
  destruct (Z.leb_spec (2 ^ E - 1 - 2) (exp mod 2 ^ C)) as [Hbig|Hsmall].
  - destruct (Z.ltb_spec exp 0) as [Hneg|Hpos].
    + pick. rewrite (shiftRightJam_eq E F W) by (assumption || lia). rewrite EU.
      assert (NOv : ~ overflowsm md E F x) by (apply NO; left; lia).
      (* exactness in the format *)
      assert (HX : rounded_formatm md E F x = x <-> Z.land (jam sig (2 ^ (- exp))) (2 ^ (E - 1) - 1) = 0).
      { rewrite land_low by lia. rewrite <- mod0_jam by (try apply pow2_pos; lia).
        replace (2 ^ (- exp) * 2 ^ (E - 1)) with (2 ^ (E - 2) * 2 ^ (- exp + 1)) by (rewrite <- !pow2_add by lia; f_equal; lia).
        rewrite (mod0_near n d sig (2 ^ (E - 2)) (- exp + 1)) by (assumption || lia).
        replace (d * 2 ^ (E - 2) * 2 ^ (- exp + 1)) with (d * 2 ^ (E - 1 - exp)) by (rewrite <- Z.mul_assoc, <- pow2_add by lia; do 2 f_equal; lia).
        pose proof (pow2_pos (E - 1 - exp) ltac:(lia)) as Pt. assert (HD : 0 < d * 2 ^ (E - 1 - exp)) by (apply Z.mul_pos_pos; lia).
        rewrite <- (rnd_exact md s) by lia. unfold rounded_formatm.
        rewrite Ex, (round_Vm md _ s n d k (E - 1 - exp)); try lia.
        2: { rewrite <- Ex. unfold cexp. rewrite Hmag. unfold FLT_exp. lia. }
        remember (rnd_div md s n (d * 2 ^ (E - 1 - exp))) as c eqn:Ec.
        assert (XX : V s n d k = sgnR s (IZR n / IZR (d * 2 ^ (E - 1 - exp)) * bpow radix2 (k + (E - 1 - exp)))).
        { unfold V. f_equal. rewrite mult_IZR, pow_bpow, bpow_plus by lia. assert (IZR d <> 0)%R by (apply IZR_neq; lia). pose proof (bpow_gt_0 radix2 (E - 1 - exp)). field. split; lra. }
        rewrite XX. assert (PDD : (0 < IZR (d * 2 ^ (E - 1 - exp)))%R) by (apply IZR_lt; lia).
        pose proof (bpow_gt_0 radix2 (k + (E - 1 - exp))) as PB. unfold V. split.
        - intros H. assert (H2 : (IZR c / 1 * bpow radix2 (k + (E - 1 - exp)) = IZR n / IZR (d * 2 ^ (E - 1 - exp)) * bpow radix2 (k + (E - 1 - exp)))%R) by (destruct s; cbn [sgnR] in H; lra).
          apply Rmult_eq_reg_r in H2; [|lra]. apply eq_IZR. rewrite mult_IZR.
          replace (IZR c) with (IZR n / IZR (d * 2 ^ (E - 1 - exp)))%R by lra. field. lra.
        - intros H. do 2 f_equal. rewrite <- H, mult_IZR. field. lra. }
      (* tininess *)
      assert (HT : (Rabs (rounded_unboundedm md F x) < bpow radix2 (1 - bias E))%R <-> (exp <? -1) || (sig + rinc md s (E - 1) <? 2 ^ (W - 1)) = true).
      { rewrite orb_true_iff, Z.ltb_lt, Z.ltb_lt. split.
        - intros H. destruct (Z_lt_ge_dec exp (-1)) as [L|L]; [left; exact L|right].
          destruct (Z_lt_ge_dec (sig + rinc md s (E - 1)) (2 ^ (W - 1))) as [|G]; [assumption|exfalso].
          specialize (T1 ltac:(lia)). rewrite (TOP T1) in H. apply (Rlt_not_le _ _ H). apply bpow_le. lia.
        - intros [L|L].
          + apply Rle_lt_trans with (1 := UB). apply bpow_lt. lia.
          + specialize (T2 L). apply Rlt_le_trans with (1 := UBs T2). apply bpow_le. lia. }
      destruct ((exp <? -1) || (sig + rinc md s (E - 1) <? 2 ^ (W - 1))) eqn:Q1; cbn [andb].
      * destruct (Z.eqb_spec (Z.land (jam sig (2 ^ (- exp))) (2 ^ (E - 1) - 1)) 0) as [R0|R0]; cbn [negb].
        -- left. split; [reflexivity|]. split; [exact NOv|]. intros [_ H]. apply H. apply HX, R0.
        -- right. left. split; [reflexivity|]. split; [exact NOv|]. split; [apply HT; reflexivity|]. intros H. apply R0, HX, H.
      * left. split; [reflexivity|]. split; [exact NOv|]. intros [H _]. apply HT in H. discriminate.
    + rewrite Z.mod_small in Hbig by lia. rewrite EU.
      destruct ((2 ^ E - 1 - 2 <? exp) || (2 ^ (W - 1) <=? sig + rinc md s (E - 1))) eqn:Hov.
      * pick. right. right. split; [reflexivity|]. split; [|apply NT; exact Hpos].
        apply orb_true_iff in Hov. unfold overflowsm. destruct Hov as [Hov|Hov].
        -- apply Z.ltb_lt in Hov. refine (Rle_trans _ _ _ _ (LB F ltac:(lia))). apply bpow_le. lia.
        -- apply Z.leb_le in Hov. rewrite (TOP (T1 Hov)). apply bpow_le. lia.
      * apply orb_false_iff in Hov. destruct Hov as [Ho1 Ho2]. apply Z.ltb_ge in Ho1. apply Z.leb_gt in Ho2.
        pick. left. split; [reflexivity|]. split; [|apply NT; exact Hpos]. apply NO. right. split; [lia|]. exact (T2 Ho2).
  - assert (Hexp : 0 <= exp).
    { destruct (Z_lt_ge_dec exp 0) as [Hneg|]; [exfalso|lia].
      assert (exp mod 2 ^ C = exp + 2 ^ C) by (symmetry; apply (Z.mod_unique _ _ (-1)); lia). lia. }
    rewrite Z.mod_small in Hsmall by lia. pick. left. split; [reflexivity|]. split; [apply NO; left; exact Hsmall|apply NT; exact Hexp].
Qed.

Lemma roundPackFM_ok s exp sig n d sd : 0 < n -> 0 < d -> 0 <= sd <= E - 3 -> - 2 ^ 15 <= exp < 2 ^ 15 ->
  sig = jam n d * 2 ^ sd -> 2 ^ (W - 2) <= sig < 2 ^ (W - 1) ->
  okfm md E F (roundPackFM (enum_of md) odd E F U C s exp sig) (V s n d (exp + 1 - bias E - (W - 2) + sd)).
Proof.
  intros Hn Hd Hsd He Hsig Hb. pose proof (pow2_pos sd ltac:(lia)) as PS.
  assert (Hn' : 0 < n * 2 ^ sd) by (apply Z.mul_pos_pos; lia).
  destruct (roundPackFM_gen s exp sig (n * 2 ^ sd) d Hn' Hd He) as (r & fl & R1 & R2); [|assumption|].
  - pose proof (jam_nonneg n d ltac:(lia) Hd) as Jn.
    replace (2 ^ (E - 2)) with (2 ^ (E - 3 - sd) * (2 * 2 ^ sd))
      by (rewrite <- pow2_S, <- pow2_add by lia; f_equal; lia).
    pose proof (pow2_pos (E - 3 - sd) ltac:(lia)).
    replace (2 * sig) with (jam n d * (2 * 2 ^ sd)) by lia. rewrite jam_scale by lia.
    replace (2 * (n * 2 ^ sd)) with (n * (2 * 2 ^ sd)) by ring.
    rewrite (Z.mul_assoc d), jam_scale by (try apply Z.mul_pos_pos; lia). apply jam_jam; lia.
  - exists r, fl. split; [exact R1|].
    rewrite (V_same s n d _ (n * 2 ^ sd) d (exp + 1 - bias E - (W - 2))); try lia; [exact R2|].
    replace (exp + 1 - bias E - (W - 2)) with (exp + 1 - bias E - (W - 2) + sd - sd) at 2 by lia. apply samev_num. lia.
Qed.
End Pack.
