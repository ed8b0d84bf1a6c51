(** The four-term reference in double arithmetic: rounding three times to a double and then down rounds the exact sum down. *)
From Coq Require Import ZArith List Bool Lia.
From Verif Require Import Fw FwLemmas Spec SpecLemmas ValueLemmas SpecDot SpecDbl SpecMpfr Flopoco FlopocoLemmas FlopocoProofs MpfrLib Mpfr MpfrProofs MpfrProofs2 Dbl DblProofs DblProofs2 DblProofs3 Dot DotProofs DotProofs2 DotProofs5 RefDot SpecRefDot RefDotProofs RefDotProofs2 RefDotProofs4 RefDotProofs5.
Open Scope Z_scope.

Section Split.
Variable b : Z.
Hypothesis Hb : 0 <= b.
Definition lo (t : Z) : Z := t * 2 ^ b.
Definition hi (t u : Z) : Z := t * 2 ^ b + u * 2 ^ (b - 2).
Definition okt (t u : Z) : Prop := 0 <= t /\ 0 <= u /\ ((u = 0 /\ t <= 2 ^ 53) \/ (2 <= b /\ 4 * t + u <= 2 ^ 53)).
Lemma lo_fits t u : okt t u -> fits (lo t).
Proof. intros (Ht & Hu & K). exists t, b. unfold lo. pose proof (pow2_pos 53 ltac:(lia)). split; [lia|]. split; [exact Hb|reflexivity]. Qed.
Lemma hi_fits t u : okt t u -> fits (hi t u).
Proof.
  intros (Ht & Hu & [[-> K]|[B K]]); unfold hi.
  - exists t, b. rewrite Z.mul_0_l, Z.add_0_r. split; [lia|]. auto.
  - exists (4 * t + u), (b - 2). split; [lia|]. split; [lia|]. replace (2 ^ b) with (4 * 2 ^ (b - 2)); [ring|]. change 4 with (2 ^ 2). rewrite <- pow2_add by lia. f_equal. lia.
Qed.
(** v is the sum of terms whose parts at or above 2^b add up to t 2^b; u terms are smaller. *)
Definition part (v : fval) (t u : Z) : Prop := exists N, dnum v N /\ lo t <= N <= hi t u.
Lemma part_add v w t u t' u' : part v t u -> part w t' u' -> okt (t + t') (u + u') -> hi (t + t') (u + u') < 2 ^ 2098 -> part (dbl_add v w) (t + t') (u + u').
Proof.
  intros (N & Dv & HN) (M & Dw & HM) O H. destruct (add_between v w N M (lo (t + t')) (hi (t + t') (u + u')) Dv Dw (lo_fits _ _ O) (hi_fits _ _ O)) as (r & D & B); [|exact H|exists r; auto].
  clear - HN HM. unfold lo, hi in *. lia.
Qed.
(** One product. *)
Lemma part_term v P y : 0 <= y -> 0 < P < 2 ^ 12 -> dnum v (P * 2 ^ y) -> (b <= y \/ y <= b - 14) ->
  exists t u, part v t u /\ 0 <= t /\ (b <= y -> u = 0 /\ t = P * 2 ^ (y - b) /\ hi t u = P * 2 ^ y) /\ (y <= b - 14 -> t = 0 /\ u = 1 /\ 2 <= b) /\ lo t <= P * 2 ^ y <= hi t u.
Proof.
  intros Hy HP D [K|K].
  - assert (Q : P * 2 ^ (y - b) * 2 ^ b = P * 2 ^ y) by (rewrite <- Z.mul_assoc, <- pow2_add by lia; f_equal; f_equal; lia). pose proof (pow2_pos (y - b) ltac:(lia)).
    exists (P * 2 ^ (y - b)), 0. unfold part, lo, hi. rewrite Z.mul_0_l, Z.add_0_r, Q. split; [exists (P * 2 ^ y); split; [exact D|lia]|]. split; [nia|]. split; [auto|]. split; [lia|lia].
  - assert (Q : P * 2 ^ y <= 2 ^ (b - 2)). { replace (b - 2) with (12 + (b - 14)) by lia. rewrite pow2_add by lia. assert (2 ^ y <= 2 ^ (b - 14)) by (apply Z.pow_le_mono_r; lia). pose proof (pow2_pos y Hy). apply (Z.le_trans _ (2 ^ 12 * 2 ^ y)); [apply Z.mul_le_mono_nonneg_r; lia|apply Z.mul_le_mono_nonneg_l; lia]. }
    pose proof (pow2_pos y Hy). exists 0, 1. unfold part, lo, hi. rewrite Z.mul_0_l, Z.add_0_l, Z.mul_1_l. split; [exists (P * 2 ^ y); split; [exact D|nia]|]. split; [lia|]. split; [lia|]. split; [lia|nia].
Qed.
End Split.

Lemma rndd_close E F t b N k : 1 <= F -> 0 <= b -> 2 ^ F <= t -> t * 2 ^ b <= N < (t + 1) * 2 ^ b -> rndd E F (N, k) = rndd E F (t * 2 ^ b, k).
Proof.
  intros HF Hb Ht HN. pose proof (pow2_pos F ltac:(lia)) as PF. pose proof (pow2_pos b Hb) as Pb. assert (HT : 0 < t) by lia. pose proof (Z.log2_spec t HT) as [L1 L2]. rewrite <- Z.add_1_r in L2. pose proof (Z.log2_nonneg t).
  assert (FL : F <= Z.log2 t) by (rewrite <- (Z.log2_pow2 F) by lia; apply Z.log2_le_mono; exact Ht).
  assert (LN : forall M, t * 2 ^ b <= M < (t + 1) * 2 ^ b -> Z.log2 M = Z.log2 t + b).
  { intros M HM. apply Z.log2_unique; [lia|]. rewrite <- Z.add_1_r. replace (Z.log2 t + b + 1) with (Z.log2 t + 1 + b) by lia. rewrite !(pow2_add _ b) by lia. split; [apply (Z.le_trans _ (t * 2 ^ b)); [apply Z.mul_le_mono_nonneg_r; lia|lia]|]. apply (Z.lt_le_trans _ ((t + 1) * 2 ^ b)); [lia|apply Z.mul_le_mono_nonneg_r; lia]. }
  assert (DV : forall M, t * 2 ^ b <= M < (t + 1) * 2 ^ b -> M / 2 ^ (Z.log2 t + b - F) = t / 2 ^ (Z.log2 t - F)).
  { intros M HM. replace (Z.log2 t + b - F) with (b + (Z.log2 t - F)) by lia. rewrite pow2_add by lia. rewrite <- Z.div_div by (try apply pow2_pos; try apply Z.pow_nonzero; lia). f_equal. symmetry. apply (Z.div_unique M (2 ^ b) t (M - t * 2 ^ b)); [left; nia|lia]. }
  assert (HN0 : t * 2 ^ b <= t * 2 ^ b < (t + 1) * 2 ^ b) by nia. assert (0 < t * 2 ^ b) by nia.
  rewrite (rndd_at E F N k) by (rewrite ?(LN N HN); lia). rewrite (rndd_at E F (t * 2 ^ b) k) by (rewrite ?(LN _ HN0); lia). rewrite (LN N HN), (LN _ HN0), (DV N HN), (DV _ HN0). reflexivity.
Qed.
Lemma down_dnum E F v N : ok_ef E F -> dnum v N -> rounds_to E F (fl_of_mpfr E F (F + 1) true (mpfr_set (F + 1) RNDD v)) (rndd E F (N, -1074)).
Proof.
  intros HO (m & e & -> & Hm & He & ->). cbn [mpfr_set]. replace (rndd E F (m * 2 ^ (e + 1074), -1074)) with (rndd E F (m, e)); [apply down_num; assumption|].
  destruct HO as [_ HF]. pose proof (pow2_pos (e + 1074) ltac:(lia)). apply (rndd_same E F m e _ _ (-1074)); [lia|exact Hm|nia|lia|lia|]. replace (e - -1074) with (e + 1074) by lia. rewrite Z.sub_diag. lia.
Qed.
(** Each product: exact, or infinite if it overflows. *)
Lemma prod_dnum P x : 0 < P < 2 ^ 12 -> -1074 <= x -> Z.log2 P + x <= 1023 -> dnum (dbl_round false P x) (P * 2 ^ (x + 1074)).
Proof.
  intros HP Hx HL. assert (2 ^ 12 <= 2 ^ 53) by (apply Z.pow_le_mono_r; lia). destruct (dbl_num P x ltac:(lia) Hx HL) as (j & Hj & E).
  rewrite E. destruct (dbl_exact false P x ltac:(lia) Hx HL) as [J R]. cbv zeta in J, R. rewrite E in R. injection R as R1 R2. exists (P * 2 ^ j), (x - j). split; [reflexivity|]. pose proof (pow2_pos j Hj). split; [nia|]. split; [lia|].
  rewrite <- Z.mul_assoc, <- pow2_add by lia. f_equal. f_equal. lia.
Qed.
Lemma prod_least P x : 0 < P < 2 ^ 12 -> -1074 <= x -> atleast (dbl_round false P x) (P * 2 ^ (x + 1074)).
Proof.
  intros HP Hx. destruct (Z.le_gt_cases (Z.log2 P + x) 1023) as [H|H]; [right; eexists; split; [apply prod_dnum; assumption|lia]|left; apply dbl_over; lia].
Qed.

Definition dsum (P0 x0 P1 x1 P2 x2 P3 x3 : Z) : fval :=
  dbl_add (dbl_add (dbl_add (dbl_round false P0 x0) (dbl_round false P1 x1)) (dbl_round false P2 x2)) (dbl_round false P3 x3).
Lemma atleast_weaken v L M : atleast v L -> M <= L -> atleast v M.
Proof. intros [->|(N & D & H)] K; [left; reflexivity|right; exists N; split; [exact D|lia]]. Qed.
Lemma dsum_big P0 x0 P1 x1 P2 x2 P3 x3 c : 0 < P0 < 2 ^ 12 -> 0 < P1 < 2 ^ 12 -> 0 < P2 < 2 ^ 12 -> 0 < P3 < 2 ^ 12 -> -1074 <= x0 -> -1074 <= x1 -> -1074 <= x2 -> -1074 <= x3 -> 0 <= c ->
  2 ^ c <= P0 * 2 ^ (x0 + 1074) \/ 2 ^ c <= P1 * 2 ^ (x1 + 1074) \/ 2 ^ c <= P2 * 2 ^ (x2 + 1074) \/ 2 ^ c <= P3 * 2 ^ (x3 + 1074) -> atleast (dsum P0 x0 P1 x1 P2 x2 P3 x3) (2 ^ c).
Proof.
  intros H0 H1 H2 H3 X0 X1 X2 X3 Hc K. pose proof (pow_fits c Hc) as HC. pose proof (prod_least P0 x0 H0 X0) as A0. pose proof (prod_least P1 x1 H1 X1) as A1. pose proof (prod_least P2 x2 H2 X2) as A2. pose proof (prod_least P3 x3 H3 X3) as A3. unfold dsum.
  assert (Z0 : fits 0) by (exists 0, 0; lia). assert (T : forall v L, atleast v L -> 0 <= L -> atleast v 0) by (intros v L HL HH; exact (atleast_weaken v L 0 HL HH)).
  assert (G : forall P x, 0 < P < 2 ^ 12 -> -1074 <= x -> 0 <= P * 2 ^ (x + 1074)) by (intros P x HP Hx; pose proof (pow2_pos (x + 1074) ltac:(lia)); nia).
  pose proof (G _ _ H0 X0). pose proof (G _ _ H1 X1). pose proof (G _ _ H2 X2). pose proof (G _ _ H3 X3).
  destruct K as [K|[K|[K|K]]].
  - eapply add_least; [exact HC| |exact A3|left; reflexivity]. eapply add_least; [exact HC| |exact A2|left; reflexivity]. eapply add_least; [exact HC|exact A0|exact A1|left; exact K].
  - eapply add_least; [exact HC| |exact A3|left; reflexivity]. eapply add_least; [exact HC| |exact A2|left; reflexivity]. eapply add_least; [exact HC|exact A0|exact A1|right; exact K].
  - eapply add_least; [exact HC| |exact A3|left; reflexivity]. eapply add_least; [exact HC| |exact A2|right; exact K]. eapply add_least; [exact Z0|exact A0|exact A1|left; assumption].
  - eapply add_least; [exact HC| |exact A3|right; exact K]. eapply add_least; [exact Z0| |exact A2|right; assumption]. eapply add_least; [exact Z0|exact A0|exact A1|left; assumption].
Qed.
