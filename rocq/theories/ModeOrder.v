(** Order and exact results in every rounding mode. *)
From Coq Require Import ZArith Bool Lia Reals Lra.
From Flocq Require Import Core.
From Verif Require Import Fw FwLemmas Spec SpecLemmas Spec754 Spec754Mode SpecFlocq SpecReal SpecFlocq754 SpecFlocq754Mode SpecSf754 Sf754Lemmas OrderProofs SpecEnclose SfReal1 SfReal2 SfReal3 SfReal4 EncloseProofs.
Open Scope Z_scope.
Local Existing Instance rnd_of_valid.

Section Ord.
Context (E F : Z) (HE : 4 <= E <= 15) (HF : 1 <= F).
Notation W := (E + F + 1).
Notation lo := (1 - bias E - F).
Notation fexp := (FLT_exp lo (F + 1)).
Notation big := (bpow radix2 (bias E + 1)).
Notation lmax := (IZR (2 ^ (F + 1) - 1) * bpow radix2 (bias E - F))%R.
Notation dec := (decode754 E F).
Notation rl x := (rv (decode754 E F x)).
Notation gf := (generic_format radix2 fexp).
Local Instance VEo : Valid_exp fexp.
Proof. apply VE; assumption. Qed.

Lemma le_of_real v w : number v -> number w -> (rv v <= rv w)%R -> le754 v w = true.
Proof. intros Hv Hw L. unfold le754. rewrite cmp754_real by assumption. destruct (Rcompare_spec (rv v) (rv w)); try reflexivity. lra. Qed.
Lemma nn_value v : nn v -> is_value v -> number v.
Proof. destruct v; cbn; tauto. Qed.
Lemma large_num s : number (Num s (2 ^ (F + 1) - 1) (bias E - F)).
Proof. cbn [number]. pose proof (pow2_pos F ltac:(lia)). rewrite Z.pow_add_r by lia. lia. Qed.
Lemma round_lt md x : (Rabs (round radix2 fexp (rnd_of md) x) < big)%R -> (- lmax <= round radix2 fexp (rnd_of md) x <= lmax)%R.
Proof.
  intros H. assert (G : gf (round radix2 fexp (rnd_of md) x)) by (apply generic_format_round; typeclasses eauto). apply Rabs_lt_inv in H. split.
  - assert (K : (- round radix2 fexp (rnd_of md) x <= lmax)%R) by (apply below_big; [exact HE|exact HF|apply generic_format_opp; exact G|lra]). lra.
  - apply below_big; try assumption. lra.
Qed.

(** A greater number is not rounded to a smaller one. *)
Lemma rm_mono md x y v w : nn v -> nn w -> (x <= y)%R -> rounded754m md E F x v -> rounded754m md E F y w -> le754 v w = true.
Proof.
  intros Nv Nw L (Sx & Ox & Vx) (Sy & Oy & Vy).
  pose proof (round_le radix2 fexp (rnd_of md) x y L) as LR. pose proof (round_lt md x) as Bx. pose proof (round_lt md y) as By.
  pose proof (round_0 radix2 fexp (rnd_of md)) as R0. pose proof (bpow_gt_0 radix2 (bias E + 1)) as B0. pose proof (lmax_lt E F HF) as LM.
  assert (PX : (0 <= x)%R -> (0 <= round radix2 fexp (rnd_of md) x)%R) by (intros H; rewrite <- R0; apply round_le; [typeclasses eauto|typeclasses eauto|exact H]).
  assert (NX : (x <= 0)%R -> (round radix2 fexp (rnd_of md) x <= 0)%R) by (intros H; rewrite <- R0; apply round_le; [typeclasses eauto|typeclasses eauto|exact H]).
  assert (NY : (y <= 0)%R -> (round radix2 fexp (rnd_of md) y <= 0)%R) by (intros H; rewrite <- R0; apply round_le; [typeclasses eauto|typeclasses eauto|exact H]).
  set (rx := round radix2 fexp (rnd_of md) x) in *. set (ry := round radix2 fexp (rnd_of md) y) in *.
  assert (X0 : (big <= Rabs rx)%R -> x <> 0%R) by (intros H ->; unfold rx in H; rewrite R0, Rabs_R0 in H; lra).
  assert (Y0 : (big <= Rabs ry)%R -> y <> 0%R) by (intros H ->; unfold ry in H; rewrite R0, Rabs_R0 in H; lra).
  clearbody rx ry.
  destruct (Rlt_or_le (Rabs rx) big) as [Cx|Cx], (Rlt_or_le (Rabs ry) big) as [Cy|Cy].
  - destruct (Vx Cx) as [Ix Qx], (Vy Cy) as [Iy Qy]. apply le_of_real; [now apply nn_value|now apply nn_value|]. rewrite Qx, Qy. exact LR.
  - destruct (Vx Cx) as [Ix Qx]. specialize (Oy Cy). specialize (Sy (Y0 Cy)). specialize (Bx Cx).
    assert (T : vsign w = false).
    { destruct (vsign w); [exfalso|reflexivity]. assert (Yn : (y < 0)%R) by (apply Sy; reflexivity). specialize (NY ltac:(lra)). rewrite Rabs_left1 in Cy by exact NY. lra. }
    rewrite T in Oy. destruct (overflow_shape md E F false) as [S|S]; rewrite S in Oy; rewrite Oy.
    + apply le_pinf. exact Nv.
    + apply le_of_real; [now apply nn_value|apply large_num|]. rewrite Qx, rv_large. cbn [sgnR]. lra.
  - destruct (Vy Cy) as [Iy Qy]. specialize (Ox Cx). specialize (Sx (X0 Cx)). specialize (By Cy).
    assert (T : vsign v = true).
    { destruct (vsign v); [reflexivity|exfalso]. assert (Xp : (0 <= x)%R) by (destruct (Rlt_or_le x 0) as [K|K]; [apply Sx in K; discriminate|exact K]).
      specialize (PX Xp). rewrite Rabs_pos_eq in Cx by exact PX. lra. }
    rewrite T in Ox. destruct (overflow_shape md E F true) as [S|S]; rewrite S in Ox; rewrite Ox.
    + apply le_ninf. exact Nw.
    + apply le_of_real; [apply large_num|now apply nn_value|]. rewrite Qy, rv_large. cbn [sgnR]. lra.
  - specialize (Ox Cx). specialize (Oy Cy). specialize (Sx (X0 Cx)). specialize (Sy (Y0 Cy)).
    destruct (vsign v), (vsign w).
    + rewrite Ox, Oy. apply le754_refl. rewrite <- Ox. exact Nv.
    + destruct (overflow_shape md E F true) as [S|S]; rewrite S in Ox; rewrite Ox; [apply le_ninf; exact Nw|].
      destruct (overflow_shape md E F false) as [S'|S']; rewrite S' in Oy; rewrite Oy; [apply le_pinf; exact (large_num true)|].
      apply le_of_real; [apply large_num|apply large_num|]. rewrite !rv_large. cbn [sgnR]. lra.
    + exfalso. assert (Yn : (y < 0)%R) by (apply Sy; reflexivity). assert (Xn : (x < 0)%R) by lra. apply Sx in Xn. discriminate.
    + rewrite Ox, Oy. apply le754_refl. rewrite <- Ox. exact Nv.
Qed.

Definition rword (md : rmode) (o : option Z) (x : R) : Prop := exists r, o = Some r /\ 0 <= r < 2 ^ W /\ rounded754m md E F x (dec r).
Lemma rword_order (le : Z -> Z -> bool) md o p x y :
  (forall a b, okw E F a -> okw E F b -> le a b = le754 (dec a) (dec b)) -> rword md o x -> rword md p y ->
  exists r s, o = Some r /\ p = Some s /\ ((x <= y)%R -> le r s = true) /\ ((y <= x)%R -> le s r = true).
Proof.
  intros HL (r & -> & Hr & R1) (s & -> & Hs & R2). exists r, s. split; [reflexivity|]. split; [reflexivity|].
  assert (N1 : nn (dec r)) by (apply dec_nn; [exact HF|lia|apply (rounded_not_nan E F md x); exact R1]).
  assert (N2 : nn (dec s)) by (apply dec_nn; [exact HF|lia|apply (rounded_not_nan E F md y); exact R2]).
  split; intros L; (rewrite HL; [|assumption|assumption]).
  - apply (rm_mono md x y); assumption.
  - apply (rm_mono md y x); assumption.
Qed.
Lemma rword_exact md o x w : 0 <= w < 2 ^ W -> finite_v (dec w) -> x = rl w -> rword md o x ->
  exists r, o = Some r /\ 0 <= r < 2 ^ W /\ finite_v (dec r) /\ rl r = rl w /\ (rl w <> 0%R -> r = w).
Proof.
  intros Hw Fw -> (r & -> & Hr & _ & _ & V). exists r. split; [reflexivity|]. split; [exact Hr|].
  destruct (word_num E F HE HF w Hw Fw) as [G B].
  assert (Q : round radix2 fexp (rnd_of md) (rl w) = rl w) by (apply round_generic; [typeclasses eauto|exact G]).
  rewrite Q in V. destruct (V B) as [I1 Q1]. split; [exact I1|]. split; [exact Q1|]. intros NZ. apply (word_eq E F HE HF); try assumption. rewrite Q1. exact NZ.
Qed.
(** The comparison of finite words is that of their numbers. *)
Lemma le_words a b : okw E F a -> okw E F b -> finite_v (dec a) -> finite_v (dec b) -> le754 (dec a) (dec b) = true -> (rl a <= rl b)%R.
Proof. intros Ha Hb Fa Fb. apply le_num; apply decode754_number; try assumption; unfold okw in *; lia. Qed.
Lemma lt_words a b : okw E F a -> okw E F b -> finite_v (dec a) -> finite_v (dec b) -> lt754 (dec a) (dec b) = true -> (rl a < rl b)%R.
Proof.
  intros Ha Hb Fa Fb. unfold lt754. rewrite cmp754_real by (apply decode754_number; try assumption; unfold okw in *; lia).
  destruct (Rcompare_spec (rl a) (rl b)); intros; try discriminate; assumption.
Qed.
End Ord.
