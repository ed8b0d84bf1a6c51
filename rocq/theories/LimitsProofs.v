From Coq Require Import ZArith Bool Lia.
From Verif Require Import Fw FwLemmas Spec SpecLemmas SpecLimits Flopoco FlopocoLemmas Ieee IeeeProofs Limits.
Open Scope Z_scope.

Definition fmt_range (V : fval -> Prop) (F lo hi : Z) : Prop :=
  forall m e, V (Num false m e) <-> 2 ^ F <= m < 2 * 2 ^ F /\ lo <= e + F <= hi.

Lemma flopoco_range E F : 1 <= E -> 1 <= F -> fmt_range (data (E + F + 3) (decode E F)) F (- bias E) (bias E + 1).
Proof.
  intros HE HF m e. assert (PE := pow2_pos E ltac:(lia)). assert (PF := pow2_pos F ltac:(lia)).
  assert (BE : 2 * 2 ^ (E - 1) = 2 ^ E) by (rewrite <- pow2_S by lia; f_equal; lia). split.
  - intros (x & Hx & D). destruct (pack_view E F x HE HF Hx) as (fl & s & ex & f & O & ->). rewrite (decode_pack _ _ _ _ _ _ O) in D.
    destruct O as (_ & _ & _ & Ho & Hf). destruct (fl =? 0); [discriminate|]. destruct (fl =? 1); [|destruct (fl =? 2); discriminate].
    injection D as _ <- <-. unfold bias. lia.
  - intros [Hm He]. assert (O : okf E F 1 (e + F + bias E) (m - 2 ^ F)) by (unfold okf, bias in *; lia).
    exists (pack E F 1 false (e + F + bias E) (m - 2 ^ F)). split; [exact (pack_wf _ _ _ _ _ _ O)|]. rewrite (decode_pack _ _ _ _ _ _ O). cbn [Z.eqb Pos.eqb]. f_equal; lia.
Qed.
Lemma ieee_range E F : 2 <= E -> 1 <= F -> fmt_range (data (E + F + 1) (decode_ieee E F)) F (1 - bias E) (bias E).
Proof.
  intros HE HF m e. assert (PE := pow2_pos E ltac:(lia)). assert (PF := pow2_pos F ltac:(lia)).
  assert (BE : 2 * 2 ^ (E - 1) = 2 ^ E) by (rewrite <- pow2_S by lia; f_equal; lia). assert (2 <= 2 ^ (E - 1)) by (change 2 with (2 ^ 1) at 1; apply Z.pow_le_mono_r; lia). split.
  - intros (x & Hx & D). destruct (ie_view E F x ltac:(lia) HF Hx) as (s & ex & f & O & ->). rewrite (decode_ipack _ _ _ _ _ O) in D.
    destruct O as (_ & _ & Ho & Hf). destruct (Z.eqb_spec ex 0); [discriminate|]. destruct (Z.eqb_spec ex (2 ^ E - 1)); [destruct (f =? 0); discriminate|].
    injection D as _ <- <-. unfold bias. lia.
  - intros [Hm He]. assert (O : oki E F (e + F + bias E) (m - 2 ^ F)) by (unfold oki, bias in *; lia).
    exists (ipack E F false (e + F + bias E) (m - 2 ^ F)). split; [exact (ipack_wf _ _ _ _ _ O)|]. rewrite (decode_ipack _ _ _ _ _ O).
    replace (_ =? 0) with false by (unfold bias in *; lia). replace (_ =? 2 ^ E - 1) with false by (unfold bias in *; lia). f_equal; lia.
Qed.

(** m*2^e = p*2^k *)
Lemma cmp_eq_ge m e p k : k <= e -> (cmp_num m e p k = Eq <-> m * 2 ^ (e - k) = p).
Proof. intros H. unfold cmp_num. rewrite Z.min_r, Z.sub_diag, Z.mul_1_r by lia. apply Z.compare_eq_iff. Qed.
Lemma cmp_eq_le m e p k : e <= k -> (cmp_num m e p k = Eq <-> m = p * 2 ^ (k - e)).
Proof. intros H. unfold cmp_num. rewrite Z.min_l, Z.sub_diag, Z.mul_1_r by lia. apply Z.compare_eq_iff. Qed.

Section Range.
Variables (V : fval -> Prop) (F lo hi : Z).
Hypothesis (HF : 1 <= F) (R : fmt_range V F lo hi) (L : lo <= hi).

Lemma holds_pow k : holds V 1 k <-> lo <= k <= hi.
Proof.
  assert (PF := pow2_pos F ltac:(lia)). split.
  - intros (m & e & Hv & C). apply R in Hv. destruct Hv as [Hm He]. destruct (Z.le_gt_cases e k) as [H|H].
    + apply cmp_eq_le in C; [|lia]. rewrite Z.mul_1_l in C. assert (k - e = F); [|lia].
      destruct (Z.lt_trichotomy (k - e) F) as [T|[T|T]]; [exfalso| |exfalso]; auto.
      * assert (2 ^ (k - e) < 2 ^ F) by (apply Z.pow_lt_mono_r; lia). lia.
      * assert (2 ^ (F + 1) <= 2 ^ (k - e)) by (apply Z.pow_le_mono_r; lia). rewrite pow2_S in * by lia. lia.
    + apply cmp_eq_ge in C; [|lia]. assert (1 < 2 ^ F) by (change 1 with (2 ^ 0); apply Z.pow_lt_mono_r; lia). assert (0 < 2 ^ (e - k)) by (apply pow2_pos; lia). nia.
  - intros Hk. exists (2 ^ F), (k - F). split; [apply R; lia|]. apply cmp_eq_le; [lia|]. rewrite Z.mul_1_l. f_equal; lia.
Qed.
Lemma min_exponent_iff k : is_min_exponent V k <-> k = lo + 1.
Proof.
  unfold is_min_exponent. rewrite holds_pow. split.
  - intros [H K]. specialize (K (lo + 1)). rewrite holds_pow in K. lia.
  - intros ->. split; [lia|]. intros j Hj. rewrite holds_pow. lia.
Qed.
Lemma max_exponent_iff k : is_max_exponent V k <-> k = hi + 1.
Proof.
  unfold is_max_exponent. rewrite holds_pow. split.
  - intros [H K]. specialize (K (hi + 1)). rewrite holds_pow in K. lia.
  - intros ->. split; [lia|]. intros j Hj. rewrite holds_pow. lia.
Qed.
Lemma digits_ok : is_digits V (F + 1).
Proof.
  assert (PF := pow2_pos F ltac:(lia)). split.
  - intros p Hp. pose proof (Z.log2_spec p ltac:(lia)) as S. pose proof (Z.log2_nonneg p). set (t := Z.log2 p) in *. clearbody t. rewrite <- Z.add_1_r in S.
    assert (t <= F). { destruct (Z.le_gt_cases t F); [assumption|]. assert (2 ^ (F + 1) <= 2 ^ t) by (apply Z.pow_le_mono_r; lia). lia. }
    exists (lo - t), (p * 2 ^ (F - t)), (lo - F). assert (E1 : 2 ^ F = 2 ^ t * 2 ^ (F - t)) by (rewrite <- Z.pow_add_r by lia; f_equal; lia).
    assert (0 < 2 ^ (F - t)) by (apply pow2_pos; lia). rewrite pow2_S in S by lia. split.
    + apply R. split; [rewrite E1; nia|lia].
    + apply cmp_eq_le; [lia|]. f_equal. f_equal. lia.
  - exists (2 * 2 ^ F + 1). split; [replace (F + 1 + 1) with (F + 2) by lia; rewrite Z.pow_add_r by lia; lia|]. intros k (m & e & Hv & C). apply R in Hv. destruct Hv as [Hm He].
    destruct (Z.le_gt_cases e k) as [H|H].
    + apply cmp_eq_le in C; [|lia]. assert (1 <= 2 ^ (k - e)) by (assert (0 < 2 ^ (k - e)) by (apply pow2_pos; lia); lia). nia.
    + apply cmp_eq_ge in C; [|lia]. replace (2 ^ (e - k)) with (2 * 2 ^ (e - k - 1)) in C by (rewrite <- pow2_S by lia; f_equal; lia). nia.
Qed.
Lemma epsilon_iff v : lo <= 0 <= hi -> (is_epsilon V v <-> veq v (Num false 1 (- F))).
Proof.
  intros H0. assert (PF := pow2_pos F ltac:(lia)). 
  assert (Hold : holds V (2 ^ F + 1) (- F)). { exists (2 ^ F + 1), (- F). split; [apply R; split; [|lia]; assert (1 < 2 ^ F) by (change 1 with (2 ^ 0); apply Z.pow_lt_mono_r; lia); lia|]. apply cmp_eq_le; [lia|]. rewrite Z.sub_diag. lia. }
  assert (Next : forall m e, V (Num false m e) -> cmp_num m e 1 0 = Gt -> cmp_num m e (2 ^ F + 1) (- F) <> Lt).
  { intros m e Hv G. apply R in Hv. destruct Hv as [Hm He]. unfold cmp_num in *. destruct (Z.le_gt_cases e (- F)) as [K|K].
    - rewrite Z.min_l in G by lia. rewrite Z.min_l by lia. rewrite Z.sub_diag, Z.mul_1_r in *. rewrite Z.mul_1_l in G. rewrite Z.compare_gt_iff in G. intros C. rewrite Z.compare_lt_iff in C.
      destruct (Z.eq_dec e (- F)) as [->|]; [rewrite Z.sub_diag, Z.pow_0_r, Z.mul_1_r in C; replace (0 - - F) with F in G by lia; lia|].
      assert (2 ^ (F + 1) <= 2 ^ (0 - e)) by (apply Z.pow_le_mono_r; lia). rewrite pow2_S in * by lia. lia.
    - rewrite Z.min_r by lia. rewrite Z.sub_diag, Z.mul_1_r. intros C. rewrite Z.compare_lt_iff in C. replace (e - - F) with (e + F) in C by lia.
      replace (2 ^ (e + F)) with (2 * 2 ^ (e + F - 1)) in C by (rewrite <- pow2_S by lia; f_equal; lia). assert (0 < 2 ^ (e + F - 1)) by (apply pow2_pos; lia). nia. }
  split.
  - intros (k & Hk & Q & Hd & Nx). replace k with F in Q; [exact Q|]. destruct (Z.lt_trichotomy k F) as [T|[T|T]]; auto; exfalso.
    + destruct Hold as (m & e & Hv & C). pose proof Hv as Hv'. apply R in Hv'. destruct Hv' as [Hm He]. apply (Nx m e Hv).
      * unfold cmp_num in *. destruct (Z.le_gt_cases e (- F)) as [K|K].
        -- rewrite Z.min_l in * by lia. rewrite Z.sub_diag, Z.mul_1_r in *. apply Z.compare_eq_iff in C. apply Z.compare_gt_iff. rewrite C, Z.mul_1_l. replace (0 - e) with (F + (- F - e)) by lia. rewrite Z.pow_add_r by lia. assert (0 < 2 ^ (- F - e)) by (apply pow2_pos; lia). nia.
        -- rewrite Z.min_r in C by lia. rewrite Z.sub_diag, Z.mul_1_r in C. apply Z.compare_eq_iff in C. replace (2 ^ (e - - F)) with (2 * 2 ^ (e + F - 1)) in C by (rewrite <- pow2_S by lia; f_equal; lia).
           assert (1 < 2 ^ F) by (change 1 with (2 ^ 0); apply Z.pow_lt_mono_r; lia). assert (0 < 2 ^ (e + F - 1)) by (apply pow2_pos; lia). nia.
      * assert (Q2 : m * 2 ^ (Z.max 0 (e + F)) = (2 ^ F + 1) * 2 ^ (Z.max 0 (- F - e))).
        { destruct (Z.le_gt_cases e (- F)) as [K|K]; [apply cmp_eq_le in C; [|lia]; rewrite Z.max_l, Z.max_r by lia; lia|apply cmp_eq_ge in C; [|lia]; rewrite Z.max_r, Z.max_l by lia; replace (e - - F) with (e + F) in C by lia; lia]. }
        unfold cmp_num. apply Z.compare_lt_iff. destruct (Z.le_gt_cases e (- F)) as [K|K].
        -- rewrite Z.max_l, Z.max_r in Q2 by lia. rewrite Z.min_l by lia. rewrite Z.sub_diag, Z.mul_1_r in *. rewrite Q2. replace (- k - e) with ((F - k) + (- F - e)) by lia. rewrite Z.pow_add_r by lia.
           assert (0 < 2 ^ (- F - e)) by (apply pow2_pos; lia). rewrite Z.mul_assoc. apply Z.mul_lt_mono_pos_r; [lia|].
           rewrite Z.mul_add_distr_r, <- Z.pow_add_r by lia. replace (k + (F - k)) with F by lia. assert (1 < 2 ^ (F - k)) by (change 1 with (2 ^ 0); apply Z.pow_lt_mono_r; lia). lia.
        -- exfalso. rewrite Z.max_r, Z.max_l, Z.pow_0_r, Z.mul_1_r in Q2 by lia. replace (2 ^ (e + F)) with (2 * 2 ^ (e + F - 1)) in Q2 by (rewrite <- pow2_S by lia; f_equal; lia).
           assert (1 < 2 ^ F) by (change 1 with (2 ^ 0); apply Z.pow_lt_mono_r; lia). assert (0 < 2 ^ (e + F - 1)) by (apply pow2_pos; lia). nia.
    + destruct Hd as (m & e & Hv & C). apply R in Hv. destruct Hv as [Hm He]. assert (P1 : 2 * 2 ^ F <= 2 ^ k) by (rewrite <- pow2_S by lia; apply Z.pow_le_mono_r; lia).
      destruct (Z.le_gt_cases e (- k)) as [K|K].
      * apply cmp_eq_le in C; [|lia]. assert (1 <= 2 ^ (- k - e)) by (assert (0 < 2 ^ (- k - e)) by (apply pow2_pos; lia); lia). nia.
      * apply cmp_eq_ge in C; [|lia]. replace (2 ^ (e - - k)) with (2 * 2 ^ (e - - k - 1)) in C by (rewrite <- pow2_S by lia; f_equal; lia). replace (2 ^ k) with (2 * 2 ^ (k - 1)) in C by (rewrite <- pow2_S by lia; f_equal; lia). nia.
  - intros Q. exists F. split; [lia|]. auto.
Qed.
End Range.

Lemma bias_pos E : 1 <= E -> 0 <= bias E.
Proof. intros. unfold bias. assert (0 < 2 ^ (E - 1)) by (apply pow2_pos; lia). lia. Qed.
Lemma bias_pos2 E : 2 <= E -> 1 <= bias E.
Proof. intros. unfold bias. assert (2 ^ 1 <= 2 ^ (E - 1)) by (apply Z.pow_le_mono_r; lia). lia. Qed.
Lemma bias_const_ok E : 1 <= E <= 31 -> bias_const E = Some (bias E).
Proof. intros. unfold bias_const. replace (1 <=? E) with true by lia. replace (E <=? 31) with true by lia. reflexivity. Qed.

Lemma flopoco_digits E F : 1 <= E -> 1 <= F -> is_digits (data (E + F + 3) (decode E F)) (digits_const F).
Proof. intros HE HF. pose proof (bias_pos E HE). exact (digits_ok _ F _ _ HF (flopoco_range E F HE HF) ltac:(lia)). Qed.
Lemma ieee_digits E F : 2 <= E -> 1 <= F -> is_digits (data (E + F + 1) (decode_ieee E F)) (digits_const F).
Proof. intros HE HF. pose proof (bias_pos2 E HE). exact (digits_ok _ F _ _ HF (ieee_range E F HE HF) ltac:(lia)). Qed.
Lemma flopoco_exponents E F : 1 <= E <= 31 -> 1 <= F -> let V := data (E + F + 3) (decode E F) in
  exists a b, flopoco_min_exponent E = Some a /\ flopoco_max_exponent E = Some b /\
    is_min_exponent V (a + 1) /\ ~ is_min_exponent V a /\ is_max_exponent V (b + 1) /\ ~ is_max_exponent V b.
Proof.
  intros HE HF V. pose proof (bias_pos E ltac:(lia)). exists (- bias E), (bias E + 1). unfold flopoco_min_exponent, flopoco_max_exponent. rewrite bias_const_ok by lia. cbn [bind].
  split; [f_equal; lia|]. split; [f_equal; lia|]. unfold V. assert (R := flopoco_range E F ltac:(lia) HF).
  rewrite !(min_exponent_iff _ F _ _ HF R ltac:(lia)), !(max_exponent_iff _ F _ _ HF R ltac:(lia)). lia.
Qed.
Lemma ieee_exponents E F : 2 <= E <= 31 -> 1 <= F -> let V := data (E + F + 1) (decode_ieee E F) in
  (exists a b, ieee_min_exponent E = Some a /\ ieee_max_exponent E = Some b /\
    is_min_exponent V (a + 1) /\ ~ is_min_exponent V a /\ is_max_exponent V (b + 1) /\ ~ is_max_exponent V b) /\
  (exists a b, flopoco_min_exponent E = Some a /\ flopoco_max_exponent E = Some b /\
    is_min_exponent V (a + 2) /\ ~ is_min_exponent V a /\ is_max_exponent V b).
Proof.
  intros HE HF V. pose proof (bias_pos2 E ltac:(lia)). unfold V. assert (R := ieee_range E F ltac:(lia) HF).
  unfold ieee_min_exponent, ieee_max_exponent, flopoco_min_exponent, flopoco_max_exponent. rewrite bias_const_ok by lia. cbn [bind]. split.
  - exists (1 - bias E), (bias E). split; [f_equal; lia|]. split; [f_equal; lia|].
    rewrite !(min_exponent_iff _ F _ _ HF R ltac:(lia)), !(max_exponent_iff _ F _ _ HF R ltac:(lia)). lia.
  - exists (- bias E), (bias E + 1). split; [f_equal; lia|]. split; [f_equal; lia|].
    rewrite !(min_exponent_iff _ F _ _ HF R ltac:(lia)), !(max_exponent_iff _ F _ _ HF R ltac:(lia)). lia.
Qed.
Lemma veq_pow F k : 0 <= F -> veq (Num false (2 ^ F) (k - F)) (Num false 1 k).
Proof. intros HF. split; [reflexivity|]. apply cmp_eq_le; [lia|]. rewrite Z.mul_1_l. f_equal. lia. Qed.
Lemma not_eps F k j : 0 <= F -> j <> k -> ~ veq (Num false (2 ^ F) (k - F)) (Num false 1 j).
Proof.
  intros HF J [_ C]. destruct (Z.le_gt_cases (k - F) j) as [H|H].
  - apply cmp_eq_le in C; [|lia]. rewrite Z.mul_1_l in C. apply Z.pow_inj_r in C; lia.
  - apply cmp_eq_ge in C; [|lia]. rewrite <- Z.pow_add_r in C by lia. replace 1 with (2 ^ 0) in C by reflexivity. apply Z.pow_inj_r in C; lia.
Qed.

Lemma flopoco_eps E F : 1 <= E <= 31 -> 1 <= F <= bias E - 1 -> let V := data (E + F + 3) (decode E F) in
  lim_epsilon E F = None /\ lim_round_error E F = None /\
  (exists r, flopoco_epsilon_ndebug E F = Some r /\ wf (E + F + 3) r /\ ~ is_epsilon V (decode E F r) /\ veq (decode E F r) (Num false 1 (- F - 1))) /\
  (forall v, is_epsilon V v <-> veq v (Num false 1 (- F))) /\
  (exists r, flopoco_round_error_ndebug E F = Some r /\ wf (E + F + 3) r /\ veq (decode E F r) (Num false 1 (-1))).
Proof.
  intros HE HF V. split; [reflexivity|]. split; [reflexivity|]. unfold V. assert (R := flopoco_range E F ltac:(lia) ltac:(lia)). assert (PE := pow2_pos E ltac:(lia)). assert (PF := pow2_pos F ltac:(lia)).
  assert (BE : 2 * 2 ^ (E - 1) = 2 ^ E) by (rewrite <- pow2_S by lia; f_equal; lia).
  assert (K : forall k, - bias E <= k <= 0 -> exists r, (do e <- of_int E (bias E + k); Some (lim E F 2 e (zg F))) = Some r /\ wf (E + F + 3) r /\ decode E F r = Num false (2 ^ F) (k - F)).
  { intros k Hk. rewrite of_int_ok by (unfold bias in *; lia). cbn [bind]. change 2 with (1 * 2 + Z.b2z false) at 1.
    assert (O : okf E F 1 (bias E + k) 0) by (unfold okf, bias in *; lia). rewrite lim_pack by (unfold zg, bias in *; lia). eexists. split; [reflexivity|]. split; [exact (pack_wf _ _ _ _ _ _ O)|].
    unfold zg. rewrite (decode_pack _ _ _ _ _ _ O). cbn [Z.eqb Pos.eqb]. f_equal; lia. }
  assert (Ep : forall v, is_epsilon _ v <-> veq v (Num false 1 (- F))) by (intros v; apply (epsilon_iff _ F _ _ ltac:(lia) R v); lia). unfold flopoco_epsilon_ndebug, flopoco_round_error_ndebug. rewrite bias_const_ok by lia. cbn [bind].
  split; [|split; [exact Ep|]].
  - destruct (K (- F - 1) ltac:(lia)) as (r & Er & W & D). exists r. split; [rewrite <- Er; do 2 f_equal; lia|]. split; [exact W|]. rewrite D, Ep. split; [apply not_eps; lia|apply veq_pow; lia].
  - destruct (K (-1) ltac:(lia)) as (r & Er & W & D). exists r. split; [exact Er|]. split; [exact W|]. rewrite D. apply veq_pow; lia.
Qed.
Lemma ieee_eps E F : 2 <= E <= 31 -> 1 <= F <= bias E - 2 -> let V := data (E + F + 1) (decode_ieee E F) in
  ie_epsilon E F = None /\ ie_round_error E F = None /\
  (exists r, ieee_epsilon_ndebug E F = Some r /\ wf (E + F + 1) r /\ ~ is_epsilon V (decode_ieee E F r) /\ veq (decode_ieee E F r) (Num false 1 (- F - 1))) /\
  (forall v, is_epsilon V v <-> veq v (Num false 1 (- F))) /\
  (exists r, ieee_round_error_ndebug E F = Some r /\ wf (E + F + 1) r /\ veq (decode_ieee E F r) (Num false 1 (-1))).
Proof.
  intros HE HF V. split; [reflexivity|]. split; [reflexivity|]. unfold V. assert (R := ieee_range E F ltac:(lia) ltac:(lia)). assert (PE := pow2_pos E ltac:(lia)). assert (PF := pow2_pos F ltac:(lia)).
  assert (BE : 2 * 2 ^ (E - 1) = 2 ^ E) by (rewrite <- pow2_S by lia; f_equal; lia).
  assert (K : forall k, 1 - bias E <= k <= 0 -> exists r, (do e <- of_int E (bias E + k); Some (ie_mk E F (zg 1) e (zg F))) = Some r /\ wf (E + F + 1) r /\ decode_ieee E F r = Num false (2 ^ F) (k - F)).
  { intros k Hk. rewrite of_int_ok by (unfold bias in *; lia). cbn [bind]. change (zg 1) with (Z.b2z false).
    assert (O : oki E F (bias E + k) 0) by (unfold oki, bias in *; lia). unfold zg. rewrite (ie_mk_pack _ _ _ _ _ O). eexists. split; [reflexivity|]. split; [exact (ipack_wf _ _ _ _ _ O)|].
    rewrite (decode_ipack _ _ _ _ _ O). replace (_ =? 0) with false by (unfold bias in *; lia). replace (_ =? 2 ^ E - 1) with false by (unfold bias in *; lia). f_equal; lia. }
  assert (Ep : forall v, is_epsilon _ v <-> veq v (Num false 1 (- F))) by (intros v; apply (epsilon_iff _ F _ _ ltac:(lia) R v); lia). unfold ieee_epsilon_ndebug, ieee_round_error_ndebug. rewrite bias_const_ok by lia. cbn [bind].
  split; [|split; [exact Ep|]].
  - destruct (K (- F - 1) ltac:(lia)) as (r & Er & W & D). exists r. split; [rewrite <- Er; do 2 f_equal; lia|]. split; [exact W|]. rewrite D, Ep. split; [apply not_eps; lia|apply veq_pow; lia].
  - destruct (K (-1) ltac:(lia)) as (r & Er & W & D). exists r. split; [exact Er|]. split; [exact W|]. rewrite D. apply veq_pow; lia.
Qed.
