(** The flags of the comparisons, of the two formats, and the sum's missing underflow. *)
From Coq Require Import ZArith Bool Lia Reals Lra.
From Flocq Require Import Core Plus_error.
From Verif Require Import Spec Spec754 Fw FwLemmas SpecLemmas ValueLemmas Sf754Lemmas SpecFlocq SpecReal SpecFlocq754Mode SoftFloat SfProofs1 SfProofs2 SfProofs3 SfProofs4 SfProofs5 SfProofs6 SfProofs8 SfProofs9 SfProofs10 SoftFloatFlags SpecFlags FlagProofs1 FlagProofs2 FlagProofs3 FlagProofs4.
Open Scope Z_scope.

Section Cmp.
Context (E F W : Z).
Context (HW : W = E + F + 1) (HE : 4 <= E <= 15) (HF : 1 <= F) (H64 : W <= 64).

Lemma isNaN_iff a : 0 <= a < 2 ^ W -> isNaNUI E F a = true <-> decode754 E F a = NaN.
Proof.
  intros Ha. rewrite HW in Ha. destruct (word_split E F ltac:(lia) HF a Ha) as (s & e & f & -> & He & Hf).
  rewrite isNaNUI_word by (assumption || lia).
  destruct (word_class E F HE HF s e f He Hf) as [(H1 & H2 & D)|[(H1 & H2 & D & _)|[(H1 & _ & _ & D & _)|(H1 & _ & (m & q & D) & _)]]]; rewrite D.
  - subst e. rewrite Z.eqb_refl. replace (f =? 0) with false by (symmetry; apply Z.eqb_neq; exact H2). split; reflexivity.
  - subst f. rewrite andb_false_r. split; discriminate.
  - replace (e =? 2 ^ E - 1) with false by (symmetry; apply Z.eqb_neq; lia). split; discriminate.
  - replace (e =? 2 ^ E - 1) with false by (symmetry; apply Z.eqb_neq; lia). split; discriminate.
Qed.
Lemma isSig_iff a : 0 <= a < 2 ^ W -> isSigNaNUI E F a = true <-> signalling E F a.
Proof.
  intros Ha. rewrite HW in Ha. destruct (word_split E F ltac:(lia) HF a Ha) as (s & e & f & -> & He & Hf). apply (isSig_word E F W); assumption.
Qed.
Lemma sig_nan a : 0 <= a < 2 ^ W -> signalling E F a -> decode754 E F a = NaN.
Proof.
  intros Ha S. rewrite HW in Ha. destruct (word_split E F ltac:(lia) HF a Ha) as (s & e & f & -> & He & Hf).
  apply (signalling_word E F HE HF) in S; [|assumption|assumption]. destruct S as [-> S]. destruct (sf_EB E ltac:(lia)) as [EB B3]. apply decode_nan_word; lia.
Qed.
Lemma sf_eq_flags_ok a b : 0 <= a < 2 ^ W -> 0 <= b < 2 ^ W ->
  (raised (sf_eq_flags E F a b) softfloat_flag_invalid <-> signalling E F a \/ signalling E F b) /\
  (forall i, 0 <= i -> Z.testbit (sf_eq_flags E F a b) i = true -> i = 4).
Proof.
  intros Ha Hb. pose proof (isNaN_iff a Ha) as NA. pose proof (isNaN_iff b Hb) as NB. pose proof (isSig_iff a Ha) as SA. pose proof (isSig_iff b Hb) as SB.
  pose proof (sig_nan a Ha) as XA. pose proof (sig_nan b Hb) as XB. unfold sf_eq_flags.
  split.
  - destruct (isSigNaNUI E F a), (isSigNaNUI E F b), (isNaNUI E F a), (isNaNUI E F b); cbn [orb]; unfold raised; cbn; intuition congruence.
  - assert (T : forall x i, 0 <= i -> (x = 0 \/ x = 16) -> Z.testbit x i = true -> i = 4).
    { intros x i Hi [->| ->]; [rewrite Z.bits_0; discriminate|]. change 16 with (2 ^ 4). rewrite Z.pow2_bits_eqb by lia. intros Q. apply Z.eqb_eq in Q. lia. }
    intros i Hi. apply T; [exact Hi|]. destruct (isNaNUI E F a || isNaNUI E F b), (isSigNaNUI E F a || isSigNaNUI E F b); (left; reflexivity) || (right; reflexivity).
Qed.
Lemma sf_lt_flags_ok a b : 0 <= a < 2 ^ W -> 0 <= b < 2 ^ W ->
  (raised (sf_lt_flags E F a b) softfloat_flag_invalid <-> decode754 E F a = NaN \/ decode754 E F b = NaN) /\
  (forall i, 0 <= i -> Z.testbit (sf_lt_flags E F a b) i = true -> i = 4).
Proof.
  intros Ha Hb. pose proof (isNaN_iff a Ha) as NA. pose proof (isNaN_iff b Hb) as NB. unfold sf_lt_flags. split.
  - destruct (isNaNUI E F a), (isNaNUI E F b); cbn [orb]; unfold raised; cbn; intuition congruence.
  - intros i Hi. destruct (isNaNUI E F a || isNaNUI E F b); [|rewrite Z.bits_0; discriminate].
    change softfloat_flag_invalid with (2 ^ 4). rewrite Z.pow2_bits_eqb by lia. intros Q. apply Z.eqb_eq in Q. lia.
Qed.

(** A finite value of the format, and why a sum of two never loses bits when it is tiny. *)
Lemma value_fmt a : 0 <= a < 2 ^ W -> generic_format radix2 (FLT_exp (1 - bias E - F) (F + 1)) (value E F a).
Proof.
  intros Ha. rewrite HW in Ha. destruct (word_split E F ltac:(lia) HF a Ha) as (s & e & f & -> & He & Hf).
  unfold value. destruct (word_class E F HE HF s e f He Hf) as [(H1 & H2 & D)|[(H1 & H2 & D & _)|[(H1 & _ & _ & D & _)|(H1 & _ & (m & q & D) & _)]]].
  1-3: rewrite D; apply generic_format_0.
  clear D. assert (He2 : 0 <= e < 2 ^ E - 1) by lia. rewrite decode_fin by lia. unfold fin_val. destruct (_ =? 0) eqn:Q; [apply generic_format_0|].
  rewrite rv_sgn. assert (G : generic_format radix2 (FLT_exp (1 - bias E - F) (F + 1))
    (IZR (if e =? 0 then f else 2 ^ F + f) * bpow radix2 ((if e =? 0 then 1 else e) - bias E - F))).
  { apply generic_format_FLT. exists (Float radix2 (if e =? 0 then f else 2 ^ F + f) ((if e =? 0 then 1 else e) - bias E - F)); cbn [Fnum Fexp].
    - reflexivity.
    - change (Zpower radix2 (F + 1)) with (2 ^ (F + 1)). replace (2 ^ (F + 1)) with (2 * 2 ^ F) by (rewrite pow2_add by lia; lia). destruct (e =? 0); rewrite Z.abs_eq; lia.
    - destruct (Z.eqb_spec e 0); lia. }
  destruct s; cbn [sgnR]; [apply generic_format_opp|]; exact G.
Qed.
Lemma add_no_underflow a b : 0 <= a < 2 ^ W -> 0 <= b < 2 ^ W -> ~ underflows E F (value E F a + value E F b).
Proof.
  intros Ha Hb [U1 U2]. apply U2. unfold rounded_format, rounded_unbounded in *.
  assert (PP : Prec_gt_0 (F + 1)) by (red; lia).
  apply round_generic; [typeclasses eauto|]. apply FLT_format_plus_small; [exact PP|apply value_fmt; exact Ha|apply value_fmt; exact Hb|].
  replace (F + 1 + (1 - bias E - F)) with (2 - bias E) by lia.
  destruct (Rle_or_lt (bpow radix2 (1 - bias E)) (Rabs (value E F a + value E F b))) as [L|L].
  - exfalso. apply (Rlt_not_le _ _ U1). apply abs_round_ge_generic; [typeclasses eauto|typeclasses eauto| |exact L].
    apply generic_format_bpow. unfold FLX_exp. lia.
  - apply Rlt_le. eapply Rlt_trans; [exact L|]. apply bpow_lt. lia.
Qed.
End Cmp.

Lemma f32_addF_ok U a b : 32 <= U -> 0 <= a < 2 ^ 32 -> 0 <= b < 2 ^ 32 ->
  okop 8 23 (f32_addF U a b) (add_invalid 8 23 a b) False (finite 8 23 a /\ finite 8 23 b) (value 8 23 a + value 8 23 b).
Proof. intros HU Ha Hb. apply (sf_addF_ok 8 23 U 32 32); try assumption; try lia. exact pow32. Qed.
Lemma f64_addF_ok a b : 0 <= a < 2 ^ 64 -> 0 <= b < 2 ^ 64 ->
  okop 11 52 (f64_addF a b) (add_invalid 11 52 a b) False (finite 11 52 a /\ finite 11 52 b) (value 11 52 a + value 11 52 b).
Proof. intros Ha Hb. apply (sf_addF_ok 11 52 64 16 64); try assumption; try lia. exact pow64. Qed.
Lemma f32_mulF_ok U a b : 32 <= U -> 0 <= a < 2 ^ 32 -> 0 <= b < 2 ^ 32 ->
  okop 8 23 (f32_mulF U a b) (mul_invalid 8 23 a b) False (finite 8 23 a /\ finite 8 23 b) (value 8 23 a * value 8 23 b).
Proof. intros HU Ha Hb. apply (sf_mulF_ok 8 23 U 32 32); try assumption; try lia; [exact pow32|]. intros. apply (f32_mulsig_ok U); assumption. Qed.
Lemma f64_mulF_ok a b : 0 <= a < 2 ^ 64 -> 0 <= b < 2 ^ 64 ->
  okop 11 52 (f64_mulF a b) (mul_invalid 11 52 a b) False (finite 11 52 a /\ finite 11 52 b) (value 11 52 a * value 11 52 b).
Proof. intros Ha Hb. apply (sf_mulF_ok 11 52 64 16 64); try assumption; try lia; [exact pow64|]. intros. apply f64_mulsig_ok; assumption. Qed.
Lemma f32_divF_ok U a b : 32 <= U -> 0 <= a < 2 ^ 32 -> 0 <= b < 2 ^ 32 ->
  okop 8 23 (f32_divF U a b) (div_invalid 8 23 a b) (div_by_zero 8 23 a b) (finite 8 23 a /\ finite 8 23 b /\ value 8 23 b <> 0%R) (value 8 23 a / value 8 23 b).
Proof. intros HU Ha Hb. apply (sf_divF_ok 8 23 U 32 32); try assumption; try lia; [exact pow32|]. intros. apply (f32_divsig_ok U); assumption. Qed.
Lemma f64_divF_ok a b : 0 <= a < 2 ^ 64 -> 0 <= b < 2 ^ 64 ->
  okop 11 52 (f64_divF a b) (div_invalid 11 52 a b) (div_by_zero 11 52 a b) (finite 11 52 a /\ finite 11 52 b /\ value 11 52 b <> 0%R) (value 11 52 a / value 11 52 b).
Proof. intros Ha Hb. apply (sf_divF_ok 11 52 64 16 64); try assumption; try lia; [exact pow64|]. intros. apply f64_divsig_ok; assumption. Qed.

(** From a computation with flags to the computation alone. *)
Lemma okop_word E F o p inv dz ex x : okop E F o inv dz ex x -> option_map fst o = p ->
  exists r fl, o = Some (r, fl) /\ p = Some r /\ signals E F inv dz ex x fl.
Proof. intros (r & fl & -> & S & _) <-. exists r, fl. split; [reflexivity|]. split; [reflexivity|exact S]. Qed.
Lemma okop_inexact E F o inv dz ex x r fl : okop E F o inv dz ex x -> o = Some (r, fl) ->
  (raised fl softfloat_flag_inexact <-> raised fl softfloat_flag_overflow).
Proof. intros (r' & fl' & -> & _ & I) Q. injection Q as -> ->. exact I. Qed.
