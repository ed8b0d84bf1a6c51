(** Rounding in the IEEE interchange formats: order, exactness, uniqueness of words; proofs for C77. *)
From Coq Require Import ZArith Bool Lia Reals Lra.
From Flocq Require Import Core Sterbenz Pff2Flocq.
From Verif Require Import Fw FwLemmas Spec SpecLemmas Spec754 SpecFlocq SpecReal SpecFlocq754 SpecSf754 Sf754Lemmas SfProofs2 SfProofs7 OrderProofs ExactProofs2 ErrFreeProofs.
Open Scope Z_scope.

Section Sf.
Context (E F : Z) (HE : 4 <= E <= 15) (HF : 1 <= F).
Notation W := (E + F + 1).
Notation lo := (1 - bias E - F).
Notation hi := (bias E + 1).
Notation dec := (decode754 E F).
Notation rl x := (rv (decode754 E F x)).
Notation rd := (rt lo F).

Definition nn (v : fval) : Prop := match v with Num _ m _ => 0 < m | NaN => False | _ => True end.
Lemma dec_nn x : 0 <= x -> dec x <> NaN -> nn (dec x).
Proof.
  intros Hx N. destruct (dec x) as [|s|s|s m e] eqn:D; [exfalso; apply N; reflexivity|exact I|exact I|].
  pose proof (decode754_number E F HF x Hx) as H. rewrite D in H. exact (H I).
Qed.
Lemma PRF : Prec_gt_0 (F + 1).
Proof. unfold Prec_gt_0. lia. Qed.
Lemma bias_pos : 7 <= bias E.
Proof. unfold bias. pose proof (pow2_le 3 (E - 1) ltac:(lia)). lia. Qed.
Lemma valid_lo : Valid_exp (FLT_exp lo (F + 1)).
Proof. apply FLT_exp_valid. exact PRF. Qed.
Lemma rd_le x y : (x <= y)%R -> (rd x <= rd y)%R.
Proof. apply round_le; [exact valid_lo|apply valid_rnd_N]. Qed.
Lemma rd_0 : rd 0 = 0%R.
Proof. apply round_0, valid_rnd_N. Qed.
Lemma rd_pos x : (0 <= x)%R -> (0 <= rd x)%R.
Proof. intros H. rewrite <- rd_0. apply rd_le. exact H. Qed.
Lemma rd_neg x : (x <= 0)%R -> (rd x <= 0)%R.
Proof. intros H. rewrite <- rd_0 at 1. apply rd_le. exact H. Qed.

Lemma r754_mono x y v w : nn v -> nn w -> (x <= y)%R -> rounded754 E F x v -> rounded754 E F y w -> le754 v w = true.
Proof.
  intros Nv Nw L Rv Rw. unfold rounded754 in Rv, Rw. cbv zeta in Rv, Rw. pose proof (rd_le x y L) as LR. pose proof (bpow_gt_0 radix2 hi) as H0.
  destruct v as [|s|s|s m e]; [contradiction| | |].
  - destruct s.
    + destruct w as [|[]|[]|t n f]; try contradiction; try reflexivity.
    + destruct Rv as [Sx Bx]. assert (X0 : (0 <= x)%R) by (destruct (Rlt_or_le x 0) as [K | K]; [apply Sx in K; discriminate|exact K]). pose proof (rd_pos x X0) as RX. rewrite Rabs_pos_eq in Bx by exact RX.
      destruct w as [|t|t|t n f]; [contradiction| |exfalso; lra|].
      * destruct t; [|reflexivity]. exfalso. destruct Rw as [Sy _]. assert (y < 0)%R by (apply Sy; reflexivity). lra.
      * exfalso. destruct Rw as [_ [_ [_ By]]]. rewrite Rabs_pos_eq in By by lra. lra.
  - destruct Rv as [_ Zx]. destruct w as [|t|t|t n f]; [contradiction| |reflexivity|].
    + destruct t; [|reflexivity]. exfalso. destruct Rw as [Sy By]. assert (y < 0)%R by (apply Sy; reflexivity). pose proof (rd_neg y ltac:(lra)) as RY. rewrite Rabs_left1 in By by exact RY. lra.
    + destruct Rw as [_ [V _]]. unfold le754. rewrite cmp754_real by assumption. destruct (Rcompare_spec (rv (Zero s)) (rv (Num t n f))) as [K | K | K]; try reflexivity. exfalso. change (rv (Zero s)) with 0%R in K. rewrite V in K. lra.
  - destruct Rv as [_ [V [_ Bx]]]. destruct w as [|t|t|t n f]; [contradiction| | |].
    + destruct t; [|reflexivity]. exfalso. destruct Rw as [Sy By]. assert (y < 0)%R by (apply Sy; reflexivity). pose proof (rd_neg y ltac:(lra)) as RY. rewrite Rabs_left1 in By by exact RY. rewrite (Rabs_left1 (rd x)) in Bx by lra. lra.
    + destruct Rw as [_ Zy]. unfold le754. rewrite cmp754_real by assumption. destruct (Rcompare_spec (rv (Num s m e)) (rv (Zero t))) as [K | K | K]; try reflexivity. exfalso. change (rv (Zero t)) with 0%R in K. rewrite V in K. lra.
    + destruct Rw as [_ [V' _]]. unfold le754. rewrite cmp754_real by assumption. destruct (Rcompare_spec (rv (Num s m e)) (rv (Num t n f))) as [K | K | K]; try reflexivity. exfalso. rewrite V, V' in K. lra.
Qed.

(** A word's number belongs to the format and to its range. *)
Lemma word_num x : 0 <= x < 2 ^ W -> finite_v (dec x) -> flt lo F (rl x) /\ (Rabs (rl x) < bpow radix2 hi)%R.
Proof.
  intros Hx Fx. destruct (word_split E F ltac:(lia) HF x Hx) as (s & e & f & -> & He & Hf). rewrite decode_word in * by lia. pose proof (pow2_pos F ltac:(lia)) as PF. pose proof (pow2_pos E ltac:(lia)) as PE.
  assert (BE : 2 ^ E = 2 * bias E + 2). { unfold bias. replace E with (E - 1 + 1) at 1 by lia. rewrite (Z.pow_add_r 2 (E - 1) 1) by lia. lia. }
  assert (G : forall m q, 0 <= m < 2 ^ (F + 1) -> lo <= q -> q + F <= bias E -> flt lo F (rv (Num s m q)) /\ (Rabs (rv (Num s m q)) < bpow radix2 hi)%R).
  { intros m q M Q1 Q2. assert (X : flt lo F (IZR m * bpow radix2 q)). { apply generic_format_FLT. exists (Float radix2 m q); [reflexivity| |exact Q1]. cbn [Fnum]. change (Zpower radix2 (F + 1)) with (2 ^ (F + 1)). lia. }
    assert (Y : (0 <= IZR m * bpow radix2 q < bpow radix2 hi)%R). { split; [apply Rmult_le_pos; [apply IZR_le; lia|apply bpow_ge_0]|]. apply Rlt_le_trans with (bpow radix2 (F + 1 + q)); [|apply bpow_le; lia]. rewrite (bpow_plus radix2 (F + 1) q). apply Rmult_lt_compat_r; [apply bpow_gt_0|]. rewrite <- pow_bpow by lia. apply IZR_lt. lia. }
    rewrite rv_sgn. destruct s; cbn [sgnR]; rewrite ?Rabs_Ropp, Rabs_pos_eq by lra; split; try lra; [apply generic_format_opp|]; exact X. }
  rewrite (Z.pow_add_r 2 F 1) in G by lia.
  destruct (Z.eqb_spec e (2 ^ E - 1)); [destruct (f =? 0); contradiction|]. pose proof bias_pos as BP. destruct (Z.eqb_spec e 0).
  - destruct (Z.eqb_spec f 0); [|apply G; lia]. cbn [rv]. rewrite Rabs_R0. split; [apply generic_format_0|apply bpow_gt_0].
  - apply G; lia.
Qed.
Lemma r754_fits x v : flt lo F x -> (Rabs x < bpow radix2 hi)%R -> rounded754 E F x v -> finite_v v /\ rv v = x.
Proof.
  intros G B R. unfold rounded754 in R. cbv zeta in R. rewrite round_generic in R; [|apply valid_rnd_N|exact G]. destruct v as [|t|t|t n f]; [contradiction|exfalso; lra| |]; (split; [exact I|]); [symmetry; apply R|apply R].
Qed.
Lemma r754_range x v : rounded754 E F x v -> (Rabs (rd x) < bpow radix2 hi)%R -> finite_v v /\ rv v = rd x.
Proof. intros R B. unfold rounded754 in R. cbv zeta in R. destruct v as [|t|t|t n f]; [contradiction|exfalso; lra| |]; (split; [exact I|]); [symmetry; apply R|apply R]. Qed.
(** Equal numbers have equal words, except for the two zeros. *)
Lemma word_eq x y : 0 <= x < 2 ^ W -> 0 <= y < 2 ^ W -> finite_v (dec x) -> finite_v (dec y) -> rl x = rl y -> rl x <> 0%R -> x = y.
Proof.
  intros Hx Hy Fx Fy Q N. pose proof (cmp754_real _ _ (decode754_number E F HF x ltac:(lia) Fx) (decode754_number E F HF y ltac:(lia) Fy)) as C. rewrite Rcompare_Eq in C by exact Q.
  destruct (word_split E F ltac:(lia) HF x Hx) as (s & e & f & -> & He & Hf). destruct (word_split E F ltac:(lia) HF y Hy) as (t & e' & g & -> & He' & Hg).
  assert (K : forall s e f, 0 <= e < 2 ^ E -> 0 <= f < 2 ^ F -> finite_v (dec (word E F s e f)) -> e = 2 ^ E - 1 -> f = 0). { clear - HE HF. intros s e f He Hf FX Q. rewrite decode_word in FX by lia. rewrite Q, Z.eqb_refl in FX. destruct (f =? 0); contradiction. }
  assert (Z0 : e * 2 ^ F + f <> 0). { intros Z0. apply N. assert (e = 0 /\ f = 0) as [-> ->] by nia. rewrite decode_word by lia. destruct (Z.eqb_spec 0 (2 ^ E - 1)) as [K1 | K1]; [pose proof (pow2_le 2 E ltac:(lia)); lia|reflexivity]. }
  rewrite cmp_words in C by (try assumption; try lia; eapply K; eassumption). apply (f_equal (fun o => match o with Some c => c | None => Lt end)) in C. apply Z.compare_eq in C.
  pose proof (word_body E F ltac:(lia) HF s e f He Hf). pose proof (word_body E F ltac:(lia) HF t e' g He' Hg). unfold word. destruct s, t; cbn [sgn] in C; cbn [Z.b2z]; lia.
Qed.
Lemma flip_word s e f : 0 <= e < 2 ^ E -> 0 <= f < 2 ^ F -> flip W (word E F s e f) = word E F (negb s) e f.
Proof.
  intros He Hf. unfold flip, word. replace (W - 1) with (E + F) by lia. pose proof (word_body E F ltac:(lia) HF s e f He Hf) as B. set (b := e * 2 ^ F + f) in *. clearbody b.
  assert (X : Z.lxor b (2 ^ (E + F)) = 1 * 2 ^ (E + F) + b). { rewrite <- Z.add_nocarry_lxor; [lia|]. apply Z.bits_inj'. intros i Hi. rewrite Z.land_spec, Z.bits_0, Z.pow2_bits_eqb by lia. destruct (Z.eqb_spec (E + F) i) as [<- | N]; [|apply andb_false_r]. rewrite Z.bits_above_log2; [reflexivity|lia|]. destruct (Z.eq_dec b 0) as [-> | NZ]; [cbn; lia|apply Z.log2_lt_pow2; lia]. }
  destruct s; cbn [Z.b2z negb].
  - rewrite <- X. rewrite Z.lxor_assoc, Z.lxor_nilpotent, Z.lxor_0_r. lia.
  - rewrite Z.mul_0_l, Z.add_0_l. exact X.
Qed.
Lemma flip_ok x : 0 <= x < 2 ^ W -> 0 <= flip W x < 2 ^ W /\ (finite_v (dec x) -> finite_v (dec (flip W x))) /\ rl (flip W x) = (- rl x)%R.
Proof.
  intros Hx. destruct (word_split E F ltac:(lia) HF x Hx) as (s & e & f & -> & He & Hf). rewrite flip_word by assumption. split; [apply word_wf; lia|]. rewrite !decode_word by lia.
  destruct (e =? 2 ^ E - 1); [destruct (f =? 0); cbn; split; try tauto; ring|]. destruct (e =? 0); [destruct (f =? 0); [cbn; split; [tauto|ring]|]|]; (split; [tauto|]); rewrite !rv_sgn; destruct s; cbn [negb sgnR]; ring.
Qed.
End Sf.
