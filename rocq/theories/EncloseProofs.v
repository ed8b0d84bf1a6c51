(** Directed roundings enclose the exact result; proofs for C91. *)
From Coq Require Import ZArith Bool Lia Reals Lra.
From Flocq Require Import Core Round_odd.
From Verif Require Import Fw FwLemmas Spec SpecLemmas Spec754 Spec754Mode SpecFlocq SpecReal SpecFlocq754 SpecFlocq754Mode SpecSfMode SpecSf754 SpecEnclose SfReal1.
Open Scope Z_scope.

Section Enc.
Context (E F : Z) (HE : 4 <= E <= 15) (HF : 1 <= F).
Notation W := (E + F + 1).
Notation lo := (1 - bias E - F).
Notation fexp := (FLT_exp lo (F + 1)).
Notation big := (bpow radix2 (bias E + 1)).
Notation lmax := (IZR (2 ^ (F + 1) - 1) * bpow radix2 (bias E - F))%R.
Notation dec := (decode754 E F).
Notation DN := (round radix2 fexp Zfloor).
Notation UP := (round radix2 fexp Zceil).
Notation gf := (generic_format radix2 fexp).

Lemma VE : Valid_exp fexp.
Proof. apply FLT_exp_valid. unfold Prec_gt_0. lia. Qed.
Lemma DNx x : (DN x <= x)%R.
Proof. pose proof VE as V. destruct (round_DN_pt radix2 fexp x) as (_ & H & _). exact H. Qed.
Lemma UPx x : (x <= UP x)%R.
Proof. pose proof VE as V. destruct (round_UP_pt radix2 fexp x) as (_ & H & _). exact H. Qed.
Lemma lmax_lt : (0 < lmax < big)%R.
Proof.
  pose proof (pow2_pos F ltac:(lia)). assert (2 ^ (F + 1) = 2 * 2 ^ F) by (rewrite Z.pow_add_r by lia; lia).
  split; [apply Rmult_lt_0_compat; [apply IZR_lt; lia|apply bpow_gt_0]|].
  replace (bias E + 1) with (F + 1 + (bias E - F)) by lia. rewrite bpow_plus. apply Rmult_lt_compat_r; [apply bpow_gt_0|].
  rewrite <- pow_bpow by lia. apply IZR_lt. lia.
Qed.
Lemma below_big y : gf y -> (y < big)%R -> (y <= lmax)%R.
Proof.
  intros G H. pose proof VE as V. pose proof (bias_pos E HE) as B.
  assert (FB : gf big). { apply generic_format_bpow. unfold FLT_exp. lia. }
  pose proof (pred_ge_gt radix2 fexp y big G FB H) as P. rewrite pred_bpow in P.
  replace (fexp (bias E + 1)) with (bias E - F) in P by (unfold FLT_exp; lia).
  replace lmax with (big - bpow radix2 (bias E - F))%R; [exact P|].
  rewrite minus_IZR. rewrite Rmult_minus_distr_r, Rmult_1_l. f_equal.
  rewrite (pow_bpow (F + 1)) by lia. rewrite <- bpow_plus. f_equal. lia.
Qed.
Lemma rv_large s : rv (Num s (2 ^ (F + 1) - 1) (bias E - F)) = sgnR s lmax.
Proof. rewrite rv_sgn. reflexivity. Qed.

(** Rounding downward. *)
Lemma min_le x v : rounded754m Min E F x v -> at_most v x.
Proof.
  intros (S & O & N). cbn [rnd_of] in *. pose proof VE as V. pose proof lmax_lt as L.
  destruct (Rlt_or_le (Rabs (DN x)) big) as [H|H].
  - destruct (N H) as [K1 K2]. assert (DN x <= x)%R by apply DNx. destruct v; cbn [is_value at_most] in *; try contradiction; lra.
  - specialize (O H). assert (NZ : x <> 0%R). { intros ->. rewrite round_0 in H by typeclasses eauto. rewrite Rabs_R0 in H. pose proof (bpow_gt_0 radix2 (bias E + 1)). lra. }
    specialize (S NZ). remember (vsign v) as s eqn:Hs. rewrite O. destruct s; cbn [overflow754 at_most]; [reflexivity|].
    rewrite rv_large. cbn [sgnR]. assert (0 <= x)%R by (apply Rnot_lt_le; intros C; apply S in C; discriminate).
    assert (0 <= DN x)%R by (apply round_ge_generic; [typeclasses eauto|typeclasses eauto|apply generic_format_0|assumption]).
    rewrite Rabs_pos_eq in H by assumption. assert (DN x <= x)%R by apply DNx. lra.
Qed.
Lemma min_tight x v y : rounded754m Min E F x v -> gf y -> (Rabs y < big)%R -> (y <= x)%R -> at_least v y.
Proof.
  intros (S & O & N) G Y YX. cbn [rnd_of] in *. pose proof VE as V. pose proof lmax_lt as L. apply Rabs_def2 in Y.
  assert (YD : (y <= DN x)%R) by (apply round_ge_generic; [typeclasses eauto|typeclasses eauto|assumption|assumption]).
  destruct (Rlt_or_le (Rabs (DN x)) big) as [H|H].
  - destruct (N H) as [K1 K2]. destruct v; cbn [is_value at_least] in *; try contradiction; lra.
  - specialize (O H). assert (NZ : x <> 0%R). { intros ->. rewrite round_0 in H by typeclasses eauto. rewrite Rabs_R0 in H. pose proof (bpow_gt_0 radix2 (bias E + 1)). lra. }
    specialize (S NZ). remember (vsign v) as s eqn:Hs. rewrite O. destruct s; cbn [overflow754 at_least].
    + assert (x < 0)%R by (apply S; reflexivity).
      assert (DN x <= 0)%R by (apply round_le_generic; [typeclasses eauto|typeclasses eauto|apply generic_format_0|lra]).
      rewrite Rabs_left1 in H by assumption. lra.
    + rewrite rv_large. cbn [sgnR]. apply below_big; [assumption|lra].
Qed.

(** Rounding upward is rounding downward of the opposite. *)
Definition negv (v : fval) : fval := match v with NaN => NaN | Inf s => Inf (negb s) | Zero s => Zero (negb s) | Num s m e => Num (negb s) m e end.
Lemma rv_negv v : rv (negv v) = (- rv v)%R.
Proof. destruct v as [| | |[] m e]; cbn [negv negb rv]; rewrite ?rv_sgn; cbn [sgnR]; lra. Qed.
Lemma max_neg x v : v <> NaN -> rounded754m Max E F x v -> rounded754m Min E F (- x) (negv v).
Proof.
  intros NN (S & O & N). cbn [rnd_of] in *. unfold rounded754m. cbn [rnd_of]. rewrite round_DN_opp, Rabs_Ropp.
  assert (VS : vsign (negv v) = negb (vsign v)) by (destruct v; [contradiction|reflexivity..]). rewrite VS. split; [|split].
  - intros NZ. assert (x <> 0%R) as NX by (intros ->; apply NZ; lra). specialize (S NX). destruct (vsign v); cbn [negb].
    + assert (x < 0)%R by (apply S; reflexivity). split; [discriminate|lra].
    + assert (~ (x < 0)%R) by (intros C; apply S in C; discriminate). split; [intros _; lra|reflexivity].
  - intros H. specialize (O H). remember (vsign v) as s eqn:Hs. rewrite O. destruct s; reflexivity.
  - intros H. destruct (N H) as [K1 K2]. rewrite rv_negv, K2. split; [destruct v; exact K1|reflexivity].
Qed.
Lemma at_most_neg v x : at_most (negv v) (- x) <-> at_least v x.
Proof.
  pose proof (rv_negv v) as R. destruct v as [|s|s|s m e]; cbn [negv at_most at_least] in *; [tauto|destruct s; cbn; split; congruence|..]; cbn [negv rv] in *; split; lra.
Qed.
Lemma at_least_neg v x : at_least (negv v) (- x) <-> at_most v x.
Proof.
  pose proof (rv_negv v) as R. destruct v as [|s|s|s m e]; cbn [negv at_most at_least] in *; [tauto|destruct s; cbn; split; congruence|..]; cbn [negv rv] in *; split; lra.
Qed.
Lemma max_ge x v : v <> NaN -> rounded754m Max E F x v -> at_least v x.
Proof. intros NN H. apply at_most_neg, min_le, max_neg; assumption. Qed.
Lemma max_tight x v y : v <> NaN -> rounded754m Max E F x v -> gf y -> (Rabs y < big)%R -> (x <= y)%R -> at_most v y.
Proof.
  intros NN H G Y XY. apply at_least_neg, (min_tight (- x)); [apply max_neg; assumption|apply generic_format_opp; exact G|now rewrite Rabs_Ropp|lra].
Qed.

(** Every mode picks one of the two neighbours. *)
Lemma any_mode md x : round radix2 fexp (rnd_of md) x = DN x \/ round radix2 fexp (rnd_of md) x = UP x.
Proof. pose proof VE. pose proof (rnd_of_valid md). apply round_DN_or_UP; typeclasses eauto. Qed.
Lemma num_same v w : is_value v -> is_value w -> rv v = rv w -> same_value v w.
Proof. destruct v, w; cbn [is_value same_value]; intros; try contradiction; assumption. Qed.
Lemma modes_pos md x v l h : (0 < x)%R -> rounded754m md E F x v -> rounded754m Min E F x l -> rounded754m Max E F x h -> same_value v l \/ same_value v h.
Proof.
  intros P (S & O & N) (Sl & Ol & Nl) (Sh & Oh & Nh). cbn [rnd_of] in *. pose proof VE as V. pose proof lmax_lt as L.
  assert (NZ : x <> 0%R) by lra. specialize (S NZ). specialize (Sl NZ). specialize (Sh NZ).
  assert (Es : vsign v = false) by (apply not_true_is_false; intros C; apply S in C; lra).
  assert (El : vsign l = false) by (apply not_true_is_false; intros C; apply Sl in C; lra).
  assert (Eh : vsign h = false) by (apply not_true_is_false; intros C; apply Sh in C; lra).
  rewrite Es in O. rewrite El in Ol. rewrite Eh in Oh. cbn [overflow754] in Ol, Oh.
  assert (D0 : (0 <= DN x)%R) by (apply round_ge_generic; [typeclasses eauto|typeclasses eauto|apply generic_format_0|lra]).
  assert (DX : (DN x <= x)%R) by apply DNx. assert (XU : (x <= UP x)%R) by apply UPx.
  rewrite (Rabs_pos_eq (DN x)) in * by lra. rewrite (Rabs_pos_eq (UP x)) in * by lra.
  pose proof (any_mode md x) as A. remember (round radix2 fexp (rnd_of md) x) as r eqn:Hr.
  assert (R0 : (0 <= r)%R) by (destruct A as [-> | ->]; lra). rewrite (Rabs_pos_eq r) in * by assumption.
  destruct (Rlt_or_le r big) as [H|H].
  - destruct (N H) as [K1 K2]. destruct A as [A|A].
    + left. rewrite A in *. destruct (Nl H) as [J1 J2]. apply num_same; congruence.
    + right. rewrite A in *. destruct (Nh H) as [J1 J2]. apply num_same; congruence.
  - assert (UB : (big <= UP x)%R) by (destruct A as [A|A]; lra). specialize (Oh UB). specialize (O H).
    (* the low end is the largest number, whether or not it overflowed *)
    assert (LL : is_value l /\ rv l = lmax).
    { destruct (Rlt_or_le (DN x) big) as [D|D].
      - destruct (Nl D) as [J1 J2]. split; [exact J1|]. rewrite J2. apply Rle_antisym.
        + apply below_big; [apply generic_format_round; typeclasses eauto|exact D].
        + apply round_ge_generic; [typeclasses eauto|typeclasses eauto| |].
          * apply generic_format_FLT. exists (Float radix2 (2 ^ (F + 1) - 1) (bias E - F)); [reflexivity| |cbn [Fexp]; pose proof (bias_pos E HE); lia].
            cbn [Fnum]. change (Zpower radix2 (F + 1)) with (2 ^ (F + 1)). pose proof (pow2_pos (F + 1) ltac:(lia)). lia.
          * apply Rnot_lt_le. intros C. assert (UP x <= lmax)%R; [|lra]. apply round_le_generic; [typeclasses eauto|typeclasses eauto| |lra].
            apply generic_format_FLT. exists (Float radix2 (2 ^ (F + 1) - 1) (bias E - F)); [reflexivity| |cbn [Fexp]; pose proof (bias_pos E HE); lia].
            cbn [Fnum]. change (Zpower radix2 (F + 1)) with (2 ^ (F + 1)). pose proof (pow2_pos (F + 1) ltac:(lia)). lia.
      - rewrite (Ol D). split; [exact I|]. rewrite rv_large. reflexivity. }
    destruct (overflow_shape md E F false) as [T|T]; rewrite T in O; rewrite O.
    + right. rewrite Oh. reflexivity.
    + left. apply num_same; [exact I|apply LL|]. rewrite rv_large. symmetry. apply LL.
Qed.

Definition oppm (md : rmode) : rmode := match md with Min => Max | Max => Min | m => m end.
Lemma round_oppm md x : round radix2 fexp (rnd_of (oppm md)) (- x) = (- round radix2 fexp (rnd_of md) x)%R.
Proof.
  pose proof VE as V. destruct md; cbn [oppm rnd_of].
  - apply round_NE_opp. 
  - apply round_ZR_opp.
  - apply round_UP_opp.
  - apply round_DN_opp.
  - apply round_NA_opp.
  - apply round_odd_opp.
Qed.
Lemma neg_mode md x v : v <> NaN -> rounded754m md E F x v -> rounded754m (oppm md) E F (- x) (negv v).
Proof.
  intros NN (S & O & N). unfold rounded754m. rewrite round_oppm, Rabs_Ropp.
  assert (VS : vsign (negv v) = negb (vsign v)) by (destruct v; [contradiction|reflexivity..]). rewrite VS. split; [|split].
  - intros NZ. assert (x <> 0%R) as NX by (intros ->; apply NZ; lra). specialize (S NX). destruct (vsign v); cbn [negb].
    + assert (x < 0)%R by (apply S; reflexivity). split; [discriminate|lra].
    + assert (~ (x < 0)%R) by (intros C; apply S in C; discriminate). split; [intros _; lra|reflexivity].
  - intros H. specialize (O H). remember (vsign v) as s eqn:Hs. rewrite O. destruct md, s; reflexivity.
  - intros H. destruct (N H) as [K1 K2]. rewrite rv_negv, K2. split; [destruct v; exact K1|reflexivity].
Qed.
Lemma same_neg v w : same_value (negv v) (negv w) -> same_value v w.
Proof.
  pose proof (rv_negv v) as A. pose proof (rv_negv w) as B. destruct v, w; cbn [negv same_value]; try tauto; cbn [negv] in A, B; try (rewrite A, B; lra).
  intros H. destruct neg, neg0; cbn in H; congruence.
Qed.
Lemma modes md x v l h : v <> NaN -> l <> NaN -> h <> NaN -> rounded754m md E F x v -> rounded754m Min E F x l -> rounded754m Max E F x h -> same_value v l \/ same_value v h.
Proof.
  intros NV NL NH V L H. destruct (Rtotal_order x 0) as [X|[X|X]].
  - destruct (modes_pos (oppm md) (- x) (negv v) (negv h) (negv l)) as [K|K]; [lra|apply neg_mode; assumption|apply (neg_mode Max); assumption|apply (neg_mode Min); assumption| |].
    + right. apply same_neg, K.
    + left. apply same_neg, K.
  - left. subst x. pose proof (bpow_gt_0 radix2 (bias E + 1)) as PB. pose proof VE as VV.
    destruct V as (_ & _ & V), L as (_ & _ & L). pose proof (rnd_of_valid md). rewrite round_0 in V by typeclasses eauto. rewrite round_0 in L by typeclasses eauto. rewrite Rabs_R0 in V, L.
    destruct (V PB) as [V1 V2], (L PB) as [L1 L2]. apply num_same; congruence.
  - apply (modes_pos md x); assumption.
Qed.

(** Assembling the statement about an operation. *)
Lemma enclose odd op x : (forall md, supported md odd -> exists r, op (enum_of md) = Some r /\ 0 <= r < 2 ^ W /\ dec r <> NaN /\ rounded754m md E F x (dec r)) ->
  encloses E F odd op x.
Proof.
  intros H. destruct (H Min) as (l & L1 & L2 & LN & L3); [discriminate|]. destruct (H Max) as (h & H1 & H2 & HN & H3); [discriminate|].
  exists l, h. split; [exact L1|]. split; [exact H1|]. split; [exact L2|]. split; [exact H2|]. split.
  - split; [apply min_le; exact L3|]. split; [apply max_ge; assumption|]. intros w Hw Fw. destruct (word_num E F HE HF w Hw Fw) as [G B]. split; intros C.
    + apply (min_tight x); assumption.
    + apply (max_tight x); assumption.
  - intros md S. destruct (H md S) as (r & R1 & R2 & RN & R3). exists r. split; [exact R1|]. apply (modes md x); assumption.
Qed.
Lemma rounded_not_nan md x v : rounded754m md E F x v -> v <> NaN.
Proof.
  intros (_ & O & N) ->. destruct (Rlt_or_le (Rabs (round radix2 fexp (rnd_of md) x)) big) as [H|H].
  - destruct (N H) as [[] _].
  - specialize (O H). destruct (overflow_shape md E F (vsign NaN)) as [T|T]; rewrite T in O; discriminate.
Qed.
End Enc.
