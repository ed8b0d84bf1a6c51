(** The flags of the two formats in every rounding mode, and the sum's missing underflow. Follows FlagProofs5.v. *)
From Coq Require Import ZArith Bool Lia Reals Lra.
From Flocq Require Import Core Plus_error.
From Verif Require Import Spec Spec754 Spec754Mode Fw FwLemmas SpecLemmas SpecFlocq SpecReal SpecFlocq754Mode SoftFloat SfProofs6 SfProofs8 SfProofs9 SfProofs10 SoftFloatMode SpecSfMode SoftFloatFlags SpecFlags SoftFloatFlagsMode SpecFlagsMode FlagProofs5 FlagmProofs1 FlagmProofs2 FlagmProofs3 FlagmProofs4.
Open Scope Z_scope.
Local Existing Instance rnd_of_valid.

Lemma add_no_underflow_m md E F W a b : W = E + F + 1 -> 4 <= E <= 15 -> 1 <= F -> W <= 64 -> 0 <= a < 2 ^ W -> 0 <= b < 2 ^ W ->
  ~ underflowsm md E F (value E F a + value E F b).
Proof.
  intros HW HE HF H64 Ha Hb [U1 U2]. apply U2. unfold rounded_formatm, rounded_unboundedm in *.
  assert (PP : Prec_gt_0 (F + 1)) by (red; lia).
  apply round_generic; [typeclasses eauto|]. apply FLT_format_plus_small; [exact PP|apply (value_fmt E F W); assumption|apply (value_fmt E F W); assumption|].
  replace (F + 1 + (1 - bias E - F)) with (2 - bias E) by lia.
  destruct (Rle_or_lt (bpow radix2 (1 - bias E)) (Rabs (value E F a + value E F b))) as [L|L].
  - exfalso. apply (Rlt_not_le _ _ U1). apply abs_round_ge_generic; [typeclasses eauto|typeclasses eauto| |exact L].
    apply generic_format_bpow. unfold FLX_exp. lia.
  - apply Rlt_le. eapply Rlt_trans; [exact L|]. apply bpow_lt. lia.
Qed.
Lemma f32_addFM_ok md odd U a b : 32 <= U -> 0 <= a < 2 ^ 32 -> 0 <= b < 2 ^ 32 ->
  okopm md 8 23 (f32_addFM (enum_of md) odd U a b) (add_invalid 8 23 a b) False (finite 8 23 a /\ finite 8 23 b) (value 8 23 a + value 8 23 b).
Proof. intros HU Ha Hb. apply (sf_addFM_ok md odd 8 23 U 32 32); try assumption; try lia. exact pow32. Qed.
Lemma f32_mulFM_ok md odd U a b : 32 <= U -> 0 <= a < 2 ^ 32 -> 0 <= b < 2 ^ 32 ->
  okopm md 8 23 (f32_mulFM (enum_of md) odd U a b) (mul_invalid 8 23 a b) False (finite 8 23 a /\ finite 8 23 b) (value 8 23 a * value 8 23 b).
Proof. intros HU Ha Hb. apply (sf_mulFM_ok md odd 8 23 U 32 32); try assumption; try lia; [exact pow32|]. intros. apply (f32_mulsig_ok U); assumption. Qed.
Lemma f32_divFM_ok md odd U a b : 32 <= U -> 0 <= a < 2 ^ 32 -> 0 <= b < 2 ^ 32 ->
  okopm md 8 23 (f32_divFM (enum_of md) odd U a b) (div_invalid 8 23 a b) (div_by_zero 8 23 a b) (finite 8 23 a /\ finite 8 23 b /\ value 8 23 b <> 0%R) (value 8 23 a / value 8 23 b).
Proof. intros HU Ha Hb. apply (sf_divFM_ok md odd 8 23 U 32 32); try assumption; try lia; [exact pow32|]. intros. apply (f32_divsig_ok U); assumption. Qed.
Lemma f64_addFM_ok md odd a b : 0 <= a < 2 ^ 64 -> 0 <= b < 2 ^ 64 ->
  okopm md 11 52 (f64_addFM (enum_of md) odd a b) (add_invalid 11 52 a b) False (finite 11 52 a /\ finite 11 52 b) (value 11 52 a + value 11 52 b).
Proof. intros Ha Hb. apply (sf_addFM_ok md odd 11 52 64 16 64); try assumption; try lia. exact pow64. Qed.
Lemma f64_mulFM_ok md odd a b : 0 <= a < 2 ^ 64 -> 0 <= b < 2 ^ 64 ->
  okopm md 11 52 (f64_mulFM (enum_of md) odd a b) (mul_invalid 11 52 a b) False (finite 11 52 a /\ finite 11 52 b) (value 11 52 a * value 11 52 b).
Proof. intros Ha Hb. apply (sf_mulFM_ok md odd 11 52 64 16 64); try assumption; try lia; [exact pow64|]. intros. apply f64_mulsig_ok; assumption. Qed.
Lemma f64_divFM_ok md odd a b : 0 <= a < 2 ^ 64 -> 0 <= b < 2 ^ 64 ->
  okopm md 11 52 (f64_divFM (enum_of md) odd a b) (div_invalid 11 52 a b) (div_by_zero 11 52 a b) (finite 11 52 a /\ finite 11 52 b /\ value 11 52 b <> 0%R) (value 11 52 a / value 11 52 b).
Proof. intros Ha Hb. apply (sf_divFM_ok md odd 11 52 64 16 64); try assumption; try lia; [exact pow64|]. intros. apply f64_divsig_ok; assumption. Qed.

Lemma okopm_word md E F o p inv dz ex x : okopm md E F o inv dz ex x -> option_map fst o = p ->
  exists r fl, o = Some (r, fl) /\ p = Some r /\ signalsm md E F inv dz ex x fl.
Proof. intros (r & fl & -> & S & _) <-. exists r, fl. split; [reflexivity|]. split; [reflexivity|exact S]. Qed.
Lemma okopm_inexact md E F o inv dz ex x r fl : okopm md E F o inv dz ex x -> o = Some (r, fl) ->
  (raised fl softfloat_flag_inexact <-> raised fl softfloat_flag_overflow).
Proof. intros (r' & fl' & -> & _ & I) Q. injection Q as -> ->. exact I. Qed.
