(** SoftFloat: fields of a word, NaN propagation, normalisation. *)
From Coq Require Import ZArith Bool Lia.
From Verif Require Import Spec Spec754 Fw FwLemmas SpecLemmas Sf754Lemmas SoftFloat SfProofs1.
Open Scope Z_scope.

Lemma lor_join h l k : 0 <= k -> 0 <= l < 2 ^ k -> Z.lor (h * 2 ^ k) l = h * 2 ^ k + l.
Proof. intros Hk Hl. pose proof (cat_eq k h l Hk Hl) as H. unfold cat in H. rewrite Z.shiftl_mul_pow2 in H by lia. exact H. Qed.

Lemma lor_bound a b k : 0 <= k -> 0 <= a < 2 ^ k -> 0 <= b < 2 ^ k -> 0 <= Z.lor a b < 2 ^ k.
Proof.
  intros Hk Ha Hb. assert (H0 : 0 <= Z.lor a b) by (apply Z.lor_nonneg; lia). split; [assumption|].
  destruct (Z.eq_dec (Z.lor a b) 0) as [->|]; [apply pow2_pos; assumption|].
  apply Z.log2_lt_pow2; [lia|]. rewrite Z.log2_lor by lia.
  assert (forall x, 0 <= x < 2 ^ k -> Z.log2 x < k).
  { intros x Hx. destruct (Z.eq_dec x 0) as [->|]; [change (Z.log2 0) with 0|apply Z.log2_lt_pow2; lia].
    destruct (Z.eq_dec k 0) as [->|]; [exfalso|lia]. change (2 ^ 0) with 1 in *. replace a with 0 in * by lia. replace b with 0 in * by lia. auto. }
  pose proof (H a Ha). pose proof (H b Hb). lia.
Qed.

Lemma lor_zero a b : 0 <= a -> 0 <= b -> (Z.lor a b =? 0) = (a =? 0) && (b =? 0).
Proof.
  intros Ha Hb. destruct (Z.eqb_spec (Z.lor a b) 0) as [H|H].
  - apply Z.lor_eq_0_iff in H. destruct H as [-> ->]. reflexivity.
  - symmetry. apply andb_false_iff. destruct (Z.eqb_spec a 0) as [->|]; [|now left]. right. apply Z.eqb_neq. intros ->. now apply H.
Qed.

Section Words.
Context (E F : Z).
Context (HE : 3 <= E <= 15) (HF : 1 <= F).

(** A word with sign s, exponent field e, fraction field f. *)
Definition word (s : bool) (e f : Z) : Z := Z.b2z s * 2 ^ (E + F) + (e * 2 ^ F + f).

Lemma word_split x : 0 <= x < 2 ^ (E + F + 1) -> exists s e f, x = word s e f /\ 0 <= e < 2 ^ E /\ 0 <= f < 2 ^ F.
Proof.
  intros Hx. pose proof (pow2_pos F ltac:(lia)). pose proof (pow2_pos E ltac:(lia)). pose proof (pow2_pos (E + F) ltac:(lia)).
  rewrite pow2_S in Hx by lia.
  assert (Hs : exists s : bool, x / 2 ^ (E + F) = Z.b2z s).
  { assert (0 <= x / 2 ^ (E + F) < 2) by (split; [apply Z.div_pos; lia|apply Z.div_lt_upper_bound; lia]).
    destruct (Z.eq_dec (x / 2 ^ (E + F)) 0); [exists false|exists true]; cbn [Z.b2z]; lia. }
  destruct Hs as [s Hs]. exists s, ((x mod 2 ^ (E + F)) / 2 ^ F), (x mod 2 ^ F).
  split; [|split].
  - unfold word. rewrite <- Hs.
    replace (x mod 2 ^ F) with ((x mod 2 ^ (E + F)) mod 2 ^ F).
    2: { rewrite pow2_add, Z.mul_comm, Z.rem_mul_r by lia.
         rewrite (Z.mul_comm (2 ^ F)), Z.mod_add by lia. apply Z.mod_mod. lia. }
    pose proof (Z.div_mod x (2 ^ (E + F)) ltac:(lia)). pose proof (Z.div_mod (x mod 2 ^ (E + F)) (2 ^ F) ltac:(lia)). lia.
  - apply div_pow_lt; try lia. replace (F + E) with (E + F) by lia. apply Z.mod_pos_bound. lia.
  - apply Z.mod_pos_bound. lia.
Qed.

Lemma word_wf s e f : 0 <= e < 2 ^ E -> 0 <= f < 2 ^ F -> 0 <= word s e f < 2 ^ (E + F + 1).
Proof.
  intros He Hf. unfold word. rewrite pow2_S, pow2_add by lia. pose proof (pow2_pos F ltac:(lia)).
  assert (0 <= e * 2 ^ F + f < 2 ^ E * 2 ^ F) by nia. destruct s; cbn [Z.b2z]; lia.
Qed.

Lemma word_body (s : bool) e f : 0 <= e < 2 ^ E -> 0 <= f < 2 ^ F -> 0 <= e * 2 ^ F + f < 2 ^ (E + F).
Proof. intros He Hf. rewrite pow2_add by lia. nia. Qed.

Lemma signUI_word s e f : 0 <= e < 2 ^ E -> 0 <= f < 2 ^ F -> signUI E F (word s e f) = s.
Proof.
  intros He Hf. unfold signUI, uw. rewrite Z.mod_small by (apply word_wf; assumption).
  replace (E + F + 1 - 1) with (E + F) by lia. rewrite Z.shiftr_div_pow2 by lia. unfold word.
  rewrite join_div by (try apply (word_body s); lia). destruct s; reflexivity.
Qed.

Lemma word_shiftr s e f : 0 <= f < 2 ^ F -> Z.shiftr (word s e f) F = Z.b2z s * 2 ^ E + e.
Proof.
  intros Hf. rewrite Z.shiftr_div_pow2 by lia. unfold word.
  replace (Z.b2z s * 2 ^ (E + F) + (e * 2 ^ F + f)) with ((Z.b2z s * 2 ^ E + e) * 2 ^ F + f) by (rewrite pow2_add by lia; ring).
  apply join_div; lia.
Qed.

Lemma expUI_word s e f : 0 <= e < 2 ^ E -> 0 <= f < 2 ^ F -> expUI E F (word s e f) = e.
Proof.
  intros He Hf. unfold expUI. rewrite word_shiftr, land_low by lia. apply join_mod; lia.
Qed.

Lemma word_mod s e f : 0 <= f < 2 ^ F -> word s e f mod 2 ^ F = f.
Proof.
  intros Hf. unfold word.
  replace (Z.b2z s * 2 ^ (E + F) + (e * 2 ^ F + f)) with ((Z.b2z s * 2 ^ E + e) * 2 ^ F + f) by (rewrite pow2_add by lia; ring).
  apply join_mod; lia.
Qed.

Lemma fracUI_word s e f : 0 <= f < 2 ^ F -> fracUI F (word s e f) = f.
Proof. intros Hf. unfold fracUI. rewrite land_low by lia. now apply word_mod. Qed.

Lemma decode_word s e f : 0 <= e < 2 ^ E -> 0 <= f < 2 ^ F -> decode754 E F (word s e f) =
  if e =? 2 ^ E - 1 then if f =? 0 then Inf s else NaN
  else if e =? 0 then if f =? 0 then Zero s else Num s f (1 - bias E - F)
  else Num s (2 ^ F + f) (e - bias E - F).
Proof. intros. apply decode754_fields; lia. Qed.

Lemma isNaNUI_word s e f : 0 <= e < 2 ^ E -> 0 <= f < 2 ^ F ->
  isNaNUI E F (word s e f) = (e =? 2 ^ E - 1) && negb (f =? 0).
Proof.
  intros He Hf. unfold isNaNUI. rewrite land_low, word_mod by lia. f_equal.
  pose proof (pow2_pos F ltac:(lia)) as PF.
  assert (H : Z.land (Z.lnot (word s e f)) ((2 ^ E - 1) * 2 ^ F) = (2 ^ E - 1 - e) * 2 ^ F).
  { replace (Z.lnot (word s e f)) with ((- (Z.b2z s * 2 ^ E + e) - 1) * 2 ^ F + (2 ^ F - 1 - f)).
    2: { unfold Z.lnot, word. rewrite pow2_add by lia. lia. }
    remember (- (Z.b2z s * 2 ^ E + e) - 1) as h eqn:Eh.
    rewrite <- lor_join by lia. rewrite Z.land_lor_distr_l. rewrite <- !Z.shiftl_mul_pow2 by lia.
    rewrite <- Z.shiftl_land, land_low by lia.
    replace (h mod 2 ^ E) with (2 ^ E - 1 - e).
    2: { apply (Z.mod_unique _ _ (- Z.b2z s - 1)); lia. }
    replace (Z.land (2 ^ F - 1 - f) (Z.shiftl (2 ^ E - 1) F)) with 0; [apply Z.lor_0_r|].
    symmetry. apply Z.bits_inj'. intros i Hi. rewrite Z.land_spec, Z.testbit_0_l.
    destruct (Z_lt_ge_dec i F).
    - rewrite Z.shiftl_spec_low by lia. apply andb_false_r.
    - rewrite (testbit_small F) by lia. reflexivity. }
  rewrite H. destruct (Z.eqb_spec e (2 ^ E - 1)) as [->|]; [apply Z.eqb_eq; lia|apply Z.eqb_neq; nia].
Qed.

Lemma isSigNaN_exp s e f : 0 <= e < 2 ^ E -> 0 <= f < 2 ^ F -> isSigNaNUI E F (word s e f) = true -> e = 2 ^ E - 1.
Proof.
  intros He Hf H. unfold isSigNaNUI in H. apply andb_prop in H. destruct H as [H _]. apply Z.eqb_eq in H.
  apply (f_equal (fun x => Z.shiftr x F)) in H. rewrite Z.shiftr_land, word_shiftr in H by lia.
  rewrite (Z.shiftr_div_pow2 ((2 ^ E - 1) * 2 ^ F)), Z.div_mul in H by (pose proof (pow2_pos F); lia).
  assert (HM : Z.shiftr ((2 ^ (E + 1) - 1) * 2 ^ (F - 1)) F = 2 ^ E - 1).
  { rewrite Z.shiftr_div_pow2 by lia. replace (2 ^ F) with (2 ^ (F - 1) * 2) by (rewrite Z.mul_comm, <- pow2_S by lia; f_equal; lia).
    pose proof (pow2_pos (F - 1) ltac:(lia)). rewrite <- Z.div_div, Z.div_mul by lia. rewrite pow2_S by lia.
    symmetry. apply (Z.div_unique _ _ _ 1); lia. }
  rewrite HM, land_low, join_mod in H by lia. exact H.
Qed.

Lemma nonsig_word s e f : 0 <= e < 2 ^ E -> 0 <= f < 2 ^ F ->
  exists f', 0 < f' < 2 ^ F /\ Z.lor (word s e f) (2 ^ (F - 1)) = word s e f'.
Proof.
  intros He Hf. exists (Z.lor f (2 ^ (F - 1))).
  pose proof (pow2_pos (F - 1) ltac:(lia)) as P1. assert (P2 : 2 ^ (F - 1) < 2 ^ F) by (apply pow2_lt; lia).
  pose proof (lor_bound f (2 ^ (F - 1)) F ltac:(lia) Hf ltac:(lia)) as B.
  assert (Z.lor f (2 ^ (F - 1)) <> 0) by (intros Hc; apply Z.lor_eq_0_iff in Hc; lia).
  split; [lia|]. unfold word.
  assert (HX : forall g, Z.b2z s * 2 ^ (E + F) + (e * 2 ^ F + g) = (Z.b2z s * 2 ^ E + e) * 2 ^ F + g)
    by (intros; rewrite pow2_add by lia; ring).
  rewrite !HX. rewrite <- !lor_join by lia. symmetry. apply Z.lor_assoc.
Qed.

Lemma word_mag s e f : 0 <= e < 2 ^ E -> 0 <= f < 2 ^ F ->
  Z.land (word s e f) (2 ^ (E + F + 1 - 1) - 1) = e * 2 ^ F + f.
Proof.
  intros He Hf. replace (E + F + 1 - 1) with (E + F) by lia. rewrite land_low by lia. unfold word.
  apply join_mod; [apply (word_body s); assumption|lia].
Qed.

Lemma decode_nan_word s e f : 0 <= e < 2 ^ E -> 0 <= f < 2 ^ F ->
  (decode754 E F (word s e f) = NaN <-> e = 2 ^ E - 1 /\ f <> 0).
Proof.
  intros He Hf. rewrite decode_word by assumption.
  destruct (Z.eqb_spec e (2 ^ E - 1)), (Z.eqb_spec f 0), (e =? 0); split; intros H; try discriminate; try tauto; try reflexivity; lia.
Qed.

(** The result is one of the operands made quiet, and it is a NaN. *)
Lemma propagateNaN_ok a b : 0 <= a < 2 ^ (E + F + 1) -> 0 <= b < 2 ^ (E + F + 1) ->
  decode754 E F a = NaN \/ decode754 E F b = NaN ->
  0 <= propagateNaN E F a b < 2 ^ (E + F + 1) /\ decode754 E F (propagateNaN E F a b) = NaN.
Proof.
  intros Ha Hb Hn.
  destruct (word_split a Ha) as (s & e & f & -> & He & Hf). destruct (word_split b Hb) as (t & e' & g & -> & He' & Hg).
  rewrite !decode_nan_word in Hn by assumption.
  destruct (nonsig_word s e f He Hf) as (f1 & Bf1 & Qa). destruct (nonsig_word t e' g He' Hg) as (g1 & Bg1 & Qb).
  pose proof (isSigNaN_exp s e f He Hf) as Sa. pose proof (isSigNaN_exp t e' g He' Hg) as Sb.
  assert (OKa : e = 2 ^ E - 1 -> 0 <= word s e f1 < 2 ^ (E + F + 1) /\ decode754 E F (word s e f1) = NaN).
  { intros H. split; [apply word_wf; lia|]. apply decode_nan_word; lia. }
  assert (OKb : e' = 2 ^ E - 1 -> 0 <= word t e' g1 < 2 ^ (E + F + 1) /\ decode754 E F (word t e' g1) = NaN).
  { intros H. split; [apply word_wf; lia|]. apply decode_nan_word; lia. }
  unfold propagateNaN. cbv zeta. rewrite Qa, Qb, !word_mag by lia. rewrite !isNaNUI_word by assumption.
  pose proof (pow2_pos F ltac:(lia)) as PF.
  assert (HL : 0 <= (if e * 2 ^ F + f1 <? e' * 2 ^ F + g1 then word t e' g1
     else if e' * 2 ^ F + g1 <? e * 2 ^ F + f1 then word s e f1
     else if word s e f1 <? word t e' g1 then word s e f1 else word t e' g1) < 2 ^ (E + F + 1) /\
   decode754 E F (if e * 2 ^ F + f1 <? e' * 2 ^ F + g1 then word t e' g1
     else if e' * 2 ^ F + g1 <? e * 2 ^ F + f1 then word s e f1
     else if word s e f1 <? word t e' g1 then word s e f1 else word t e' g1) = NaN).
  { destruct (Z.ltb_spec (e * 2 ^ F + f1) (e' * 2 ^ F + g1)) as [L|L].
    - apply OKb. destruct Hn as [[Hn _]|[Hn _]]; [|exact Hn].
      destruct (Z.eq_dec e' (2 ^ E - 1)); [assumption|exfalso]. assert (e' + 1 <= e) by lia.
      assert ((e' + 1) * 2 ^ F <= e * 2 ^ F) by (apply Z.mul_le_mono_nonneg_r; lia). lia.
    - destruct (Z.ltb_spec (e' * 2 ^ F + g1) (e * 2 ^ F + f1)) as [L2|L2].
      + apply OKa. destruct Hn as [[Hn _]|[Hn _]]; [exact Hn|].
        destruct (Z.eq_dec e (2 ^ E - 1)); [assumption|exfalso]. assert (e + 1 <= e') by lia.
        assert ((e + 1) * 2 ^ F <= e' * 2 ^ F) by (apply Z.mul_le_mono_nonneg_r; lia). lia.
      + assert (e = e').
        { assert (Heq : e * 2 ^ F + f1 = e' * 2 ^ F + g1) by lia. apply (f_equal (fun x => x / 2 ^ F)) in Heq.
          rewrite !join_div in Heq by lia. exact Heq. }
        destruct (word s e f1 <? word t e' g1); [apply OKa|apply OKb]; destruct Hn as [[Hn _]|[Hn _]]; lia. }
  destruct (isSigNaNUI E F (word s e f)) eqn:SA, (isSigNaNUI E F (word t e' g)) eqn:SB; cbn [orb]; try exact HL.
  - destruct ((e' =? 2 ^ E - 1) && negb (g =? 0)) eqn:NB; [apply OKb|apply OKa, Sa; reflexivity].
    apply andb_prop in NB. destruct NB as [NB _]. apply Z.eqb_eq in NB. exact NB.
  - destruct ((e =? 2 ^ E - 1) && negb (f =? 0)) eqn:NA; [apply OKa|apply OKb, Sb; reflexivity].
    apply andb_prop in NA. destruct NA as [NA _]. apply Z.eqb_eq in NA. exact NA.
Qed.

Lemma defaultNaN_ok : 0 <= defaultNaN E F < 2 ^ (E + F + 1) /\ decode754 E F (defaultNaN E F) = NaN.
Proof.
  assert (H : defaultNaN E F = word true (2 ^ E - 1) (2 ^ (F - 1))).
  { unfold defaultNaN, word. cbn [Z.b2z]. replace (2 ^ F) with (2 * 2 ^ (F - 1)) by (rewrite <- pow2_S by lia; f_equal; lia).
    replace (2 ^ (E + F)) with (2 * 2 ^ E * 2 ^ (F - 1)) by (rewrite <- pow2_S, <- pow2_add by lia; f_equal; lia).
    replace (2 ^ (E + 2)) with (2 * (2 * 2 ^ E)) by (rewrite <- !pow2_S by lia; f_equal; lia). ring. }
  pose proof (pow2_pos (F - 1) ltac:(lia)). assert (2 ^ (F - 1) < 2 ^ F) by (apply pow2_lt; lia).
  pose proof (pow2_pos E ltac:(lia)).
  rewrite H. split; [apply word_wf; lia|]. apply decode_nan_word; lia.
Qed.

Lemma inf_ok s : packUI E F s (2 ^ E - 1) 0 = word s (2 ^ E - 1) 0 /\ 0 <= word s (2 ^ E - 1) 0 < 2 ^ (E + F + 1) /\ decode754 E F (word s (2 ^ E - 1) 0) = Inf s.
Proof.
  pose proof (pow2_pos E ltac:(lia)). pose proof (pow2_pos F ltac:(lia)).
  split; [|split].
  - rewrite packUI_eq by (try lia; apply (word_body s); lia). reflexivity.
  - apply word_wf; lia.
  - rewrite decode_word by lia. rewrite Z.eqb_refl. reflexivity.
Qed.

Lemma zero_ok s : packUI E F s 0 0 = word s 0 0 /\ 0 <= word s 0 0 < 2 ^ (E + F + 1) /\ decode754 E F (word s 0 0) = Zero s.
Proof.
  pose proof (pow2_pos E ltac:(lia)). pose proof (pow2_pos F ltac:(lia)). assert (2 ^ 3 <= 2 ^ E) by (apply pow2_le; lia).
  split; [|split].
  - rewrite packUI_eq by (try lia; apply (word_body s); lia). reflexivity.
  - apply word_wf; lia.
  - rewrite decode_word by lia. replace (0 =? 2 ^ E - 1) with false by (symmetry; apply Z.eqb_neq; lia). reflexivity.
Qed.

Lemma clzW_eq a : 0 < a < 2 ^ (E + F + 1) -> clzW E F a = E + F - Z.log2 a.
Proof.
  intros Ha. unfold clzW, uw. cbv zeta. rewrite Z.mod_small by lia.
  replace (a =? 0) with false by (symmetry; apply Z.eqb_neq; lia). lia.
Qed.

Lemma log2_shift a k : 0 < a -> Z.log2 a <= k -> 2 ^ k <= a * 2 ^ (k - Z.log2 a) < 2 ^ (k + 1).
Proof.
  intros Ha Hk. pose proof (Z.log2_spec a Ha) as [L1 L2]. pose proof (Z.log2_nonneg a).
  rewrite <- Z.add_1_r in L2. pose proof (pow2_pos (k - Z.log2 a) ltac:(lia)).
  replace (2 ^ k) with (2 ^ Z.log2 a * 2 ^ (k - Z.log2 a)) by (rewrite <- pow2_add by lia; f_equal; lia).
  replace (2 ^ (k + 1)) with (2 ^ (Z.log2 a + 1) * 2 ^ (k - Z.log2 a)) by (rewrite <- pow2_add by lia; f_equal; lia).
  split; [apply Z.mul_le_mono_nonneg_r|apply Z.mul_lt_mono_pos_r]; lia.
Qed.

Lemma ushl_ok U a k : 0 <= k < U -> 0 <= a * 2 ^ k < 2 ^ U -> ushl U a k = Some (a * 2 ^ k).
Proof.
  intros Hk Ha. unfold ushl. replace ((0 <=? k) && (k <? U)) with true.
  2: { symmetry. apply andb_true_iff. split; [apply Z.leb_le|apply Z.ltb_lt]; lia. }
  cbn. unfold uw. rewrite Z.shiftl_mul_pow2, Z.mod_small by lia. reflexivity.
Qed.

Lemma i16_ok x : - 2 ^ 15 <= x < 2 ^ 15 -> i16 x = Some x.
Proof.
  intros H. unfold i16. replace ((- 2 ^ 15 <=? x) && (x <? 2 ^ 15)) with true; [reflexivity|].
  symmetry. apply andb_true_iff. split; [apply Z.leb_le|apply Z.ltb_lt]; lia.
Qed.
End Words.
