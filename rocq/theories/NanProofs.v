(** The NaN words of SoftFloat. *)
From Coq Require Import ZArith Bool Lia.
From Verif Require Import Fw FwLemmas Spec Spec754 SpecNan SoftFloat Sf754Lemmas SfProofs1 SfProofs2 SfProofs4 SfProofs5.
Open Scope Z_scope.

Section Nan.
Context (E F : Z) (HE : 3 <= E <= 15) (HF : 2 <= F).
Notation word := (word E F).

Let PF : 0 < 2 ^ F. Proof. apply pow2_pos. lia. Qed.
Let PE : 8 <= 2 ^ E. Proof. pose proof (pow2_le 3 E ltac:(lia)) as H. change (2 ^ 3) with 8 in H. exact H. Qed.
Let PH : 2 ^ F = 2 * 2 ^ (F - 1) /\ 0 < 2 ^ (F - 1).
Proof. split; [|apply pow2_pos; lia]. rewrite <- Z.pow_succ_r by lia. f_equal. lia. Qed.

Lemma negative_word s e f : 0 <= e < 2 ^ E -> 0 <= f < 2 ^ F -> negative E F (word s e f) = s.
Proof.
  intros He Hf. unfold negative, SfProofs2.word. destruct (word_body E F HE ltac:(lia) s e f He Hf) as [B1 B2].
  replace (_ / _) with (Z.b2z s); [destruct s; reflexivity|].
  apply (Z.div_unique _ _ (Z.b2z s) (e * 2 ^ F + f)); [left; lia|ring].
Qed.
Lemma fraction_word s e f : 0 <= f < 2 ^ F -> fraction F (word s e f) = f.
Proof. intros Hf. unfold fraction. apply word_mod; try lia. Qed.
Lemma exponent_word s e f : 0 <= e < 2 ^ E -> 0 <= f < 2 ^ F -> exponent E F (word s e f) = e.
Proof.
  intros He Hf. unfold exponent. rewrite <- Z.shiftr_div_pow2 by lia. rewrite word_shiftr by (try lia).
  rewrite Z.add_comm, Z.mod_add by lia. apply Z.mod_small. exact He.
Qed.
Lemma is_nan_word s e f : 0 <= e < 2 ^ E -> 0 <= f < 2 ^ F -> is_nan E F (word s e f) = (e =? 2 ^ E - 1) && negb (f =? 0).
Proof. intros He Hf. unfold is_nan. rewrite exponent_word, fraction_word by assumption. reflexivity. Qed.
Lemma is_nan_decode x : 0 <= x < 2 ^ (E + F + 1) -> (is_nan E F x = true <-> decode754 E F x = NaN).
Proof.
  intros Hx. destruct (word_split E F HE ltac:(lia) x Hx) as (s & e & f & -> & He & Hf). rewrite is_nan_word, decode_nan_word by (try lia).
  rewrite andb_true_iff, Z.eqb_eq, negb_true_iff, Z.eqb_neq. tauto.
Qed.

Lemma land_high X M p k : 0 <= k -> 0 <= p < 2 ^ k -> Z.land (X * 2 ^ k + p) (M * 2 ^ k) = Z.land X M * 2 ^ k.
Proof.
  intros Hk Hp. rewrite <- lor_join by assumption. rewrite Z.land_lor_distr_l, <- !Z.shiftl_mul_pow2, <- Z.shiftl_land by lia.
  replace (Z.land p (Z.shiftl M k)) with 0; [apply Z.lor_0_r|]. symmetry. apply Z.bits_inj'. intros n Hn. rewrite Z.bits_0, Z.land_spec.
  destruct (Z_lt_ge_dec n k); [rewrite Z.shiftl_spec_low by lia; apply andb_false_r|].
  replace (Z.testbit p n) with false; [reflexivity|]. symmetry. apply Z.testbit_false; [lia|].
  rewrite Z.div_small; [reflexivity|]. pose proof (pow2_le k n ltac:(lia)). lia.
Qed.

(** The fields below the exponent: quiet bit and payload. *)
Lemma fword s e q p : word s e (q * 2 ^ (F - 1) + p) = (Z.b2z s * 2 ^ (E + 1) + 2 * e + q) * 2 ^ (F - 1) + p.
Proof.
  unfold SfProofs2.word. destruct PH as [H _]. replace (2 ^ (E + F)) with (2 ^ (E + 1) * 2 ^ (F - 1)) by (rewrite <- Z.pow_add_r by lia; f_equal; lia).
  rewrite H. ring.
Qed.
Lemma split_frac f : 0 <= f < 2 ^ F -> exists q p, f = q * 2 ^ (F - 1) + p /\ (q = 0 \/ q = 1) /\ 0 <= p < 2 ^ (F - 1).
Proof.
  intros Hf. destruct PH as [H1 H2]. exists (f / 2 ^ (F - 1)), (f mod 2 ^ (F - 1)).
  pose proof (Z.div_mod f (2 ^ (F - 1)) ltac:(lia)). pose proof (Z.mod_pos_bound f (2 ^ (F - 1)) H2).
  assert (0 <= f / 2 ^ (F - 1) < 2) by (split; [apply Z.div_pos; lia|apply Z.div_lt_upper_bound; lia]). repeat split; lia.
Qed.
Lemma payload_word s e q p : 0 <= p < 2 ^ (F - 1) -> payload F (word s e (q * 2 ^ (F - 1) + p)) = p.
Proof. intros Hp. unfold payload. rewrite fword, Z.add_comm, Z.mod_add by lia. apply Z.mod_small. exact Hp. Qed.
Lemma nonsig_qp s e q p : 0 <= e < 2 ^ E -> (q = 0 \/ q = 1) -> 0 <= p < 2 ^ (F - 1) ->
  Z.lor (word s e (q * 2 ^ (F - 1) + p)) (2 ^ (F - 1)) = word s e (1 * 2 ^ (F - 1) + p).
Proof.
  intros He Hq Hp. rewrite !fword.
  rewrite <- (lor_join (Z.b2z s * 2 ^ (E + 1) + 2 * e + q) p), <- (lor_join (Z.b2z s * 2 ^ (E + 1) + 2 * e + 1) p) by lia.
  rewrite <- Z.lor_assoc, (Z.lor_comm p), Z.lor_assoc.
  f_equal. rewrite <- (Z.mul_1_l (2 ^ (F - 1))) at 2. rewrite <- !Z.shiftl_mul_pow2, <- Z.shiftl_lor by lia. f_equal.
  rewrite !(Z.shiftl_mul_pow2 (Z.b2z s)) by lia.
  replace (Z.b2z s * 2 ^ (E + 1) + 2 * e + q) with ((Z.b2z s * 2 ^ E + e) * 2 ^ 1 + q) by (change (2 ^ 1) with 2; rewrite (Z.pow_add_r 2 E 1) by lia; ring).
  replace (Z.b2z s * 2 ^ (E + 1) + 2 * e + 1) with ((Z.b2z s * 2 ^ E + e) * 2 ^ 1 + 1) by (change (2 ^ 1) with 2; rewrite (Z.pow_add_r 2 E 1) by lia; ring).
  rewrite <- (lor_join (Z.b2z s * 2 ^ E + e) q), <- (lor_join (Z.b2z s * 2 ^ E + e) 1) by (change (2 ^ 1) with 2; lia). rewrite <- Z.lor_assoc. f_equal. destruct Hq as [-> | ->]; reflexivity.
Qed.
Lemma isSig_qp s e q p : 0 <= e < 2 ^ E -> (q = 0 \/ q = 1) -> 0 <= p < 2 ^ (F - 1) ->
  isSigNaNUI E F (word s e (q * 2 ^ (F - 1) + p)) = (e =? 2 ^ E - 1) && (q =? 0) && negb (p =? 0).
Proof.
  intros He Hq Hp. unfold isSigNaNUI. rewrite fword, land_high by lia.
  assert (P1 : 2 ^ (E + 1) = 2 * 2 ^ E) by (rewrite Z.pow_add_r by lia; change (2 ^ 1) with 2; ring).
  rewrite !land_low by lia. f_equal.
  - replace ((Z.b2z s * 2 ^ (E + 1) + 2 * e + q) mod 2 ^ (E + 1)) with (2 * e + q)
      by (symmetry; rewrite <- Z.add_assoc, Z.add_comm, Z.mod_add by lia; apply Z.mod_small; lia).
    destruct PH as [H1 H2]. rewrite H1. destruct (Z.eqb_spec e (2 ^ E - 1)), (Z.eqb_spec q 0); cbn [andb]; [apply Z.eqb_eq|apply Z.eqb_neq..]; nia.
  - f_equal. f_equal. rewrite Z.add_comm, Z.mod_add by lia. apply Z.mod_small. exact Hp.
Qed.

Lemma frac_bound q p : (q = 0 \/ q = 1) -> 0 <= p < 2 ^ (F - 1) -> 0 <= q * 2 ^ (F - 1) + p < 2 ^ F.
Proof. intros Hq Hp. destruct PH. destruct Hq as [-> | ->]; lia. Qed.
Lemma quiet_nan_word s p : quiet_nan E F s p = word s (2 ^ E - 1) (1 * 2 ^ (F - 1) + p).
Proof. unfold quiet_nan, SfProofs2.word. ring. Qed.
Lemma is_quiet_qp s e q p : 0 <= e < 2 ^ E -> (q = 0 \/ q = 1) -> 0 <= p < 2 ^ (F - 1) ->
  is_quiet E F (word s e (q * 2 ^ (F - 1) + p)) = (e =? 2 ^ E - 1) && (q =? 1).
Proof.
  intros He Hq Hp. pose proof (frac_bound q p Hq Hp) as B. destruct PH as [H1 H2]. unfold is_quiet.
  rewrite is_nan_word, fraction_word by assumption. destruct (e =? 2 ^ E - 1); [|reflexivity]. cbn [andb].
  destruct Hq as [-> | ->]; cbn [Z.eqb]; destruct (Z.eqb_spec (0 * 2 ^ (F - 1) + p) 0), (Z.eqb_spec (1 * 2 ^ (F - 1) + p) 0),
    (Z.leb_spec (2 ^ (F - 1)) (0 * 2 ^ (F - 1) + p)), (Z.leb_spec (2 ^ (F - 1)) (1 * 2 ^ (F - 1) + p)); cbn; try reflexivity; lia.
Qed.
Lemma is_nan_qp s e q p : 0 <= e < 2 ^ E -> (q = 0 \/ q = 1) -> 0 <= p < 2 ^ (F - 1) ->
  is_nan E F (word s e (q * 2 ^ (F - 1) + p)) = (e =? 2 ^ E - 1) && ((q =? 1) || negb (p =? 0)).
Proof.
  intros He Hq Hp. pose proof (frac_bound q p Hq Hp) as B. destruct PH as [H1 H2]. rewrite is_nan_word by assumption. f_equal.
  destruct Hq as [-> | ->]; cbn [Z.eqb orb]; [f_equal; f_equal; lia|]. destruct (Z.eqb_spec (1 * 2 ^ (F - 1) + p) 0); [lia|reflexivity].
Qed.
Lemma is_inf_qp s e q p : 0 <= e < 2 ^ E -> (q = 0 \/ q = 1) -> 0 <= p < 2 ^ (F - 1) ->
  is_inf E F (word s e (q * 2 ^ (F - 1) + p)) = (e =? 2 ^ E - 1) && ((q =? 0) && (p =? 0)).
Proof.
  intros He Hq Hp. pose proof (frac_bound q p Hq Hp) as B. destruct PH as [H1 H2]. unfold is_inf. rewrite exponent_word, fraction_word by assumption. f_equal.
  destruct Hq as [-> | ->]; cbn [Z.eqb andb]; [f_equal; lia|]. destruct (Z.eqb_spec (1 * 2 ^ (F - 1) + p) 0); [lia|reflexivity].
Qed.

Theorem propagate_nan_word a b : 0 <= a < 2 ^ (E + F + 1) -> 0 <= b < 2 ^ (E + F + 1) ->
  is_nan E F a = true \/ is_nan E F b = true -> propagateNaN E F a b = nan_word E F a b.
Proof.
  intros Ha Hb Hn.
  destruct (word_split E F HE ltac:(lia) a Ha) as (s & e & f & -> & He & Hf). destruct (word_split E F HE ltac:(lia) b Hb) as (t & g & h & -> & Hg & Hh).
  clear Ha Hb. destruct (split_frac f Hf) as (q & p & -> & Hq & Hp). destruct (split_frac h Hh) as (q' & p' & -> & Hq' & Hp').
  pose proof (frac_bound 1 p (or_intror eq_refl) Hp) as B. pose proof (frac_bound 1 p' (or_intror eq_refl) Hp') as B'.
  unfold propagateNaN. cbv zeta. rewrite !nonsig_qp, !isSig_qp, !word_mag, !isNaNUI_word by (assumption || lia).
  unfold nan_word, one_nan, quieted. rewrite !is_nan_qp in * by assumption. rewrite !is_quiet_qp, !is_inf_qp, !payload_word, !negative_word, !quiet_nan_word by assumption.
  destruct PH as [H1 H2].
  assert (M : forall x, 0 <= x < 2 ^ E -> x <> 2 ^ E - 1 -> x * 2 ^ F + 2 ^ F <= (2 ^ E - 1) * 2 ^ F) by (intros x Hx Nx; nia).
  pose proof (M e He) as Me. pose proof (M g Hg) as Mg. clear M.
  assert (Pt : 0 < 2 ^ (E + F)) by (apply pow2_pos; lia).
  assert (NE : forall q p, (q = 0 \/ q = 1) -> 0 <= p < 2 ^ (F - 1) -> negb (q * 2 ^ (F - 1) + p =? 0) = (q =? 1) || negb (p =? 0)).
  { clear - H2. intros q p [-> | ->] Hp; cbn [Z.eqb orb]; [f_equal; f_equal; lia|]. destruct (Z.eqb_spec (1 * 2 ^ (F - 1) + p) 0); [lia|reflexivity]. }
  rewrite !NE by assumption. clear NE.
  destruct (Z.eqb_spec e (2 ^ E - 1)) as [Ee|Ee], (Z.eqb_spec g (2 ^ E - 1)) as [Eg|Eg]; cbn [andb orb negb] in *; try (destruct Hn; discriminate);
    destruct Hq as [Eq|Eq], Hq' as [Eq'|Eq']; rewrite ?Eq, ?Eq' in *; cbn [Z.eqb Pos.eqb andb orb negb] in *;
    destruct (Z.eqb_spec p 0) as [Ep|Ep], (Z.eqb_spec p' 0) as [Ep'|Ep']; cbn [andb orb negb] in *; try (destruct Hn; discriminate);
    rewrite ?Ee, ?Eg in *;
    repeat match goal with |- context [?x <? ?y] => destruct (Z.ltb_spec x y) end;
    try reflexivity; try lia; try (exfalso; lia);
    try (destruct s, t; cbn [andb] in *; unfold SfProofs2.word in *; cbn [Z.b2z] in *; lia).
Qed.
End Nan.
