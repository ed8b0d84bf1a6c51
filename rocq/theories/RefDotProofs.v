(** The reference functions of the dot products against the specification. *)
From Coq Require Import ZArith List Bool Lia.
From Verif Require Import Fw FwLemmas Spec SpecLemmas SpecDot SpecDbl SpecMpfr Flopoco FlopocoLemmas FlopocoProofs MpfrLib Mpfr MpfrProofs MpfrProofs2 Dbl DblProofs DblProofs2 DblProofs3 Dot DotProofs DotProofs2 DotProofs5 RefDot.
Open Scope Z_scope.

Lemma mag_1 V : 0 < V -> mag V 1 = Z.log2 V.
Proof. apply mag_int'. Qed.
(** Rounding down and then packing is the specification's rounding down. *)
Lemma down_num E F V k : ok_ef E F -> 0 < V -> rounds_to E F (fl_of_mpfr E F (F + 1) true (mp_round (F + 1) RNDD false V 1 k)) (rndd E F (V, k)).
Proof.
  intros [HE HF] HV. unfold rndd, trunc_range, trunc_pos. unfold mp_round. rewrite mag_1 by exact HV. replace (F + 1 - 1) with F by lia. cbv zeta. cbn [mp_away].
  assert (R : 2 ^ F <= num2 V (- (Z.log2 V - F)) / den2 1 (- (Z.log2 V - F)) < 2 ^ (F + 1)).
  { pose proof (Z.log2_spec V HV) as L. rewrite <- Z.add_1_r in L. pose proof (Z.log2_nonneg V) as L0. remember (Z.log2 V) as c eqn:Ec. clear Ec. unfold num2, den2. rewrite Z.opp_involutive, Z.mul_1_l.
    destruct (Z_le_gt_dec F c) as [G|G].
    - rewrite (Z.max_l 0 (- (c - F))), (Z.max_r 0 (c - F)) by lia. rewrite Z.pow_0_r, Z.mul_1_r. pose proof (pow2_pos (c - F) ltac:(lia)). replace c with (F + (c - F)) in L by lia. rewrite (pow2_add F) in L by lia. replace (F + (c - F) + 1) with ((F + 1) + (c - F)) in L by lia. rewrite (pow2_add (F + 1)) in L by lia.
      split; [apply Z.div_le_lower_bound; lia|apply Z.div_lt_upper_bound; lia].
    - rewrite (Z.max_r 0 (- (c - F))), (Z.max_l 0 (c - F)) by lia. rewrite Z.pow_0_r, Z.div_1_r. pose proof (pow2_pos (- (c - F)) ltac:(lia)). replace F with (c + - (c - F)) at 1 by lia. rewrite (pow2_add c) by lia.
      replace (F + 1) with ((c + 1) + - (c - F)) by lia. rewrite (pow2_add (c + 1)) by lia. clear - L H. nia. }
  remember (num2 V (- (Z.log2 V - F)) / den2 1 (- (Z.log2 V - F))) as m eqn:Em. replace (m =? 2 ^ (F + 1)) with false by lia. cbv iota.
  destruct (mp_ranges E HE) as [Lo Hi]. unfold mp_emin, mp_emax.
  destruct (2 ^ 30 - 1 <? Z.log2 V - F + k + (F + 1)) eqn:Q1.
  - destruct (fl_num E F false (2 ^ (F + 1) - 1) (2 ^ 30 - 1 - (F + 1)) ltac:(lia) HF) as (r & A & B & C); [replace (2 ^ (F + 1)) with (2 * 2 ^ F) by (rewrite pow2_add by lia; lia); pose proof (pow2_pos F ltac:(lia)); lia|].
    exists r. split; [exact A|]. split; [exact B|]. rewrite C. unfold finish. replace (2 ^ 30 - 1 - (F + 1) + F <? emin E) with false by lia. replace (emax E <? 2 ^ 30 - 1 - (F + 1) + F) with true by lia.
    replace (Z.log2 V - F + k + F <? emin E) with false by lia. replace (emax E <? Z.log2 V - F + k + F) with true by lia. reflexivity.
  - destruct (Z.log2 V - F + k + (F + 1) <? - (2 ^ 30 - 1)) eqn:Q2.
    + unfold finish. replace (Z.log2 V - F + k + F <? emin E) with true by lia. apply sp_zero. split; assumption.
    + destruct (fl_num E F false m (Z.log2 V - F + k) ltac:(lia) HF R) as (r & A & B & C). exists r. split; [exact A|]. split; [exact B|]. exact C.
Qed.
(** Equal numbers round equally. *)
Lemma rndd_same E F m e n f K : 0 <= F -> 0 < m -> 0 < n -> K <= e -> K <= f -> m * 2 ^ (e - K) = n * 2 ^ (f - K) -> rndd E F (m, e) = rndd E F (n, f).
Proof.
  intros HF Hm Hn He Hf Q. replace e with (K + (e - K)) by lia. replace f with (K + (f - K)) by lia.
  rewrite <- (rndd_scale E F m K (e - K)) by lia. rewrite <- (rndd_scale E F n K (f - K)) by lia. rewrite Q. reflexivity.
Qed.
(** A sum of two numbers m 2^e as a number, at any common exponent. *)
Lemma rndd_dadd E F p a q b K V : 0 <= F -> 0 < p -> 0 < q -> K <= a -> K <= b -> V = p * 2 ^ (a - K) + q * 2 ^ (b - K) -> rndd E F (dadd (p, a) (q, b)) = rndd E F (V, K).
Proof.
  intros HF Hp Hq Ha Hb ->. destruct (dadd_scale p a q b K ltac:(lia) ltac:(lia)) as (m & e & D & He & Hm). rewrite D.
  pose proof (pow2_pos (a - K) ltac:(lia)) as Pa. pose proof (pow2_pos (b - K) ltac:(lia)) as Pb. pose proof (pow2_pos (e - K) ltac:(lia)) as Pe.
  assert (0 < p * 2 ^ (a - K) + q * 2 ^ (b - K)) by (clear - Pa Pb Hp Hq; nia). assert (0 < m) by (apply (Z.mul_pos_cancel_r m (2 ^ (e - K)) Pe); rewrite Hm; exact H). apply (rndd_same E F m e _ K K); try lia. rewrite Z.sub_diag, Z.pow_0_r, Z.mul_1_r. exact Hm.
Qed.
Lemma dot_num E F x : 1 <= E -> 1 <= F -> wf (E + F + 3) x -> pos_normal (decode E F x) -> exists m e, decode E F x = Num false m e /\ 2 ^ F <= m < 2 ^ (F + 1) /\ emin E <= e + F <= emax E.
Proof.
  intros HE HF Hx (m & e & D). exists m, e. split; [exact D|]. destruct (pack_view E F x HE HF Hx) as (fl & s & ey & f & O & ->). rewrite decode_pack in D by exact O.
  destruct (fl =? 0); [discriminate|]. destruct (fl =? 1); [|destruct (fl =? 2); discriminate]. injection D as _ <- <-. unfold okf in O. unfold emin, emax. rewrite (bias_small E HE) in O. rewrite pow2_add by lia. lia.
Qed.
Lemma check_ok E F x : 1 <= E -> 1 <= F -> wf (E + F + 3) x -> pos_normal (decode E F x) -> dot_check E F x = Some tt.
Proof. intros HE HF Hx Hp. destruct (dot_check_cases E F x HE HF Hx) as [[_ A]|[A _]]; [exact A|contradiction]. Qed.
Lemma check_bad E F x : 1 <= E -> 1 <= F -> wf (E + F + 3) x -> ~ pos_normal (decode E F x) -> dot_check E F x = None.
Proof. intros HE HF Hx Hp. destruct (dot_check_cases E F x HE HF Hx) as [[A _]|[_ A]]; [contradiction|exact A]. Qed.

(** ** The MPFR reference of the two-term product *)
Lemma prod_bounds F m n : 0 <= F -> 2 ^ F <= m < 2 ^ (F + 1) -> 2 ^ F <= n < 2 ^ (F + 1) -> 2 ^ (2 * F) <= m * n < 2 ^ (2 * F + 2).
Proof. intros HF Hm Hn. replace (2 * F + 2) with ((F + 1) + (F + 1)) by lia. replace (2 * F) with (F + F) by lia. rewrite !(pow2_add F), !(pow2_add (F + 1)) by lia. rewrite !pow2_add by lia. rewrite !pow2_add in Hm, Hn by lia. pose proof (pow2_pos F HF). nia. Qed.
Lemma prod_log F m n : 0 <= F -> 2 ^ F <= m < 2 ^ (F + 1) -> 2 ^ F <= n < 2 ^ (F + 1) -> 0 < m * n /\ 2 * F <= Z.log2 (m * n) <= 2 * F + 1.
Proof.
  intros HF Hm Hn. pose proof (prod_bounds F m n HF Hm Hn) as P. pose proof (pow2_pos (2 * F) ltac:(lia)). split; [lia|]. split; [apply Z.log2_le_pow2; lia|]. apply Z.lt_succ_r. apply Z.log2_lt_pow2; [lia|]. replace (Z.succ (2 * F + 1)) with (2 * F + 2) by lia. lia.
Qed.
Lemma mul_exact p F m e n f : 0 <= F -> 2 * F + 2 <= p -> 2 ^ F <= m < 2 ^ (F + 1) -> 2 ^ F <= n < 2 ^ (F + 1) -> mp_emin <= e + f + 2 * F + 1 -> e + f + 2 * F + 2 <= mp_emax ->
  exists j, 0 <= j /\ mpfr_mul p RNDN (Num false m e) (Num false n f) = Num false (m * n * 2 ^ j) (e + f - j).
Proof.
  intros HF Hp Hm Hn Lo Hi. destruct (prod_log F m n HF Hm Hn) as (P & L1 & L2). exists (p - 1 - Z.log2 (m * n)). split; [lia|]. cbn [mpfr_mul xorb]. apply mp_round_exact; [lia| |lia].
  split; [exact P|]. apply Z.log2_lt_pow2; [exact P|lia].
Qed.
Lemma emax_29 E : 1 <= E <= 29 -> - 2 ^ 28 < emin E /\ emax E <= 2 ^ 28.
Proof. intros HE. unfold emin, emax, bias. assert (2 ^ (E - 1) <= 2 ^ 28) by (apply Z.pow_le_mono_r; lia). lia. Qed.
Lemma add_down E F A a B b : ok_ef E F -> 0 < A -> 0 < B -> rounds_to E F (fl_of_mpfr E F (F + 1) true (mpfr_add (F + 1) RNDD (Num false A a) (Num false B b))) (rndd E F (dadd (A, a) (B, b))).
Proof.
  intros H HA HB. cbn [mpfr_add]. unfold mp_add_num. cbv zeta. unfold dadd. pose proof (pow2_pos (a - Z.min a b) ltac:(lia)) as Pa. pose proof (pow2_pos (b - Z.min a b) ltac:(lia)) as Pb. remember (A * 2 ^ (a - Z.min a b) + B * 2 ^ (b - Z.min a b)) as V eqn:EV.
  assert (HV : 0 < V) by (clear - EV Pa Pb HA HB; nia). unfold mp_round_z. replace (V =? 0) with false by lia. replace (V <? 0) with false by lia. rewrite Z.abs_eq by lia. apply down_num; assumption.
Qed.
Lemma dadd_scaled E F p i a q j b : 0 <= F -> 0 < p -> 0 < q -> 0 <= i -> 0 <= j -> rndd E F (dadd (p * 2 ^ i, a - i) (q * 2 ^ j, b - j)) = rndd E F (dadd (p, a) (q, b)).
Proof.
  intros HF Hp Hq Hi Hj. pose proof (pow2_pos i Hi). pose proof (pow2_pos j Hj). set (K := Z.min (a - i) (b - j)). assert (K <= a - i) by lia. assert (K <= b - j) by lia.
  rewrite (rndd_dadd E F (p * 2 ^ i) (a - i) (q * 2 ^ j) (b - j) K _ HF) by (reflexivity || lia || nia). rewrite (rndd_dadd E F p a q b K _ HF) by (reflexivity || lia). f_equal. f_equal.
  replace (a - K) with (i + (a - i - K)) by lia. replace (b - K) with (j + (b - j - K)) by lia. rewrite !pow2_add by lia. ring.
Qed.
Lemma ref_large_ok E F a0 a1 b0 b1 : 1 <= E <= 29 -> 1 <= F <= 128 -> wf (E + F + 3) a0 -> wf (E + F + 3) a1 -> wf (E + F + 3) b0 -> wf (E + F + 3) b1 ->
  pos_normal (decode E F a0) -> pos_normal (decode E F a1) -> pos_normal (decode E F b0) -> pos_normal (decode E F b1) ->
  rounds_to E F (dot2_ref_large E F a0 a1 b0 b1) (dot2_spec E F (decode E F a0) (decode E F a1) (decode E F b0) (decode E F b1)).
Proof.
  intros HE HF W0 W1 V0 V1 P0 P1 Q0 Q1. assert (HO : ok_ef E F) by (split; lia). destruct (emax_29 E HE) as [Lo Hi]. unfold dot2_ref_large. rewrite !check_ok by (assumption || lia). cbn [bind]. rewrite !fl_get_ok by (assumption || lia). cbn [bind]. cbv zeta.
  destruct (dot_num E F a0 ltac:(lia) ltac:(lia) W0 P0) as (m0 & e0 & -> & M0 & X0). destruct (dot_num E F a1 ltac:(lia) ltac:(lia) W1 P1) as (m1 & e1 & -> & M1 & X1).
  destruct (dot_num E F b0 ltac:(lia) ltac:(lia) V0 Q0) as (n0 & f0 & -> & N0 & Y0). destruct (dot_num E F b1 ltac:(lia) ltac:(lia) V1 Q1) as (n1 & f1 & -> & N1 & Y1).
  destruct (mul_exact (F + F + 2) F m0 e0 n0 f0) as (i & Hi0 & ->); [lia|lia|exact M0|exact N0|unfold mp_emin, mp_emax; lia|unfold mp_emax; lia|].
  destruct (mul_exact (F + F + 2) F m1 e1 n1 f1) as (j & Hj0 & ->); [lia|lia|exact M1|exact N1|unfold mp_emin, mp_emax; lia|unfold mp_emax; lia|].
  destruct (prod_log F m0 n0 ltac:(lia) M0 N0) as [G0 _]. destruct (prod_log F m1 n1 ltac:(lia) M1 N1) as [G1 _]. pose proof (pow2_pos i Hi0). pose proof (pow2_pos j Hj0).
  unfold dot2_spec. cbn [dmul]. rewrite <- (dadd_scaled E F (m0 * n0) i (e0 + f0) (m1 * n1) j (e1 + f1)) by lia. apply add_down; [exact HO| |]; apply Z.mul_pos_pos; lia.
Qed.
