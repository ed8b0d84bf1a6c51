(** The flags of multiplication and division, of the special operands, and the results beside them. Follows SfmProofs4.v. *)
From Coq Require Import ZArith Bool Lia Reals Lra.
From Flocq Require Import Core.
From Verif Require Import Spec Spec754 Fw FwLemmas SpecLemmas ValueLemmas Sf754Lemmas SpecFlocq SpecReal SpecFlocq754Mode SoftFloat SfProofs1 SfProofs2 SfProofs3 SfProofs4 SfProofs5 SfProofs6 SfProofs8 SfProofs10 SoftFloatFlags SpecFlags FlagProofs1 FlagProofs2.
Open Scope Z_scope.

(** The results are those of SoftFloat.v. *)
Lemma bind_map {A B D} (h : B -> D) (x : option A) (f : A -> option B) (g : A -> option D) :
  (forall a, option_map h (f a) = g a) -> option_map h (bind x f) = bind x g.
Proof. intros H. destruct x; [apply H|reflexivity]. Qed.
Ltac eqf l := repeat lazymatch goal with
  | |- option_map fst (roundPackF _ _ _ _ _ _ _) = _ => apply l
  | |- option_map fst (normRoundPackF _ _ _ _ _ _ _) = _ => apply l
  | |- option_map fst (if ?b then _ else _) = (if ?b then _ else _) => destruct b
  | |- option_map fst (bind _ _) = bind _ _ => apply bind_map; intros
  | _ => reflexivity
  end.
Section Fst.
Context (E F U C : Z).
Lemma roundPackF_fst s exp sig : option_map fst (roundPackF E F U C s exp sig) = roundPack E F U C s exp sig.
Proof. unfold roundPackF, roundPack. cbv zeta. eqf I. Qed.
Lemma normRoundPackF_fst s exp sig : option_map fst (normRoundPackF E F U C s exp sig) = normRoundPack E F U C s exp sig.
Proof. unfold normRoundPackF, normRoundPack. cbv zeta. eqf roundPackF_fst. Qed.
Lemma addMagsF_fst q a b : option_map fst (addMagsF E F U C q a b) = addMags E F U C q a b.
Proof. unfold addMagsF, addMags. cbv zeta. eqf roundPackF_fst. Qed.
Lemma subMagsF_fst a b : option_map fst (subMagsF E F U C a b) = subMags E F U C a b.
Proof. unfold subMagsF, subMags. cbv zeta. eqf normRoundPackF_fst. Qed.
Lemma sf_addF_fst q a b : option_map fst (sf_addF E F U C q a b) = sf_add E F U C q a b.
Proof. unfold sf_addF, sf_add. destruct (signUI _ _ _); [apply subMagsF_fst|apply addMagsF_fst]. Qed.
Lemma sf_mulF_fst f a b : option_map fst (sf_mulF E F U C f a b) = sf_mul E F U C f a b.
Proof. unfold sf_mulF, sf_mul. cbv zeta. eqf roundPackF_fst. Qed.
Lemma sf_divF_fst f a b : option_map fst (sf_divF E F U C f a b) = sf_div E F U C f a b.
Proof. unfold sf_divF, sf_div. cbv zeta. eqf roundPackF_fst. Qed.
End Fst.

(** From the possible values of the flags to the specification. *)
Definition inexact_overflow (fl : Z) : Prop := raised fl softfloat_flag_inexact <-> raised fl softfloat_flag_overflow.
Ltac flag := unfold raised; cbn; intuition (congruence || lia).
Lemma signals_exact E F (inv dz ex : Prop) x fl : fl3 E F x fl -> ~ inv -> ~ dz -> ex -> signals E F inv dz ex x fl /\ inexact_overflow fl.
Proof.
  unfold signals, inexact_overflow. intros [(-> & O & N)|[(-> & O & N)|(-> & O & N)]] I D X; flag.
Qed.
Lemma signals_none E F (inv dz ex : Prop) x : ~ inv -> ~ dz -> ~ ex -> signals E F inv dz ex x 0 /\ inexact_overflow 0.
Proof. unfold signals, inexact_overflow. intros; flag. Qed.
Lemma signals_invalid E F (inv dz ex : Prop) x : inv -> ~ dz -> ~ ex -> signals E F inv dz ex x 16 /\ inexact_overflow 16.
Proof. unfold signals, inexact_overflow. intros; flag. Qed.
Lemma signals_divzero E F (inv dz ex : Prop) x : ~ inv -> dz -> ~ ex -> signals E F inv dz ex x 8 /\ inexact_overflow 8.
Proof. unfold signals, inexact_overflow. intros; flag. Qed.

Lemma land_shift a m k : 0 <= k -> Z.land a (m * 2 ^ k) = Z.land (Z.shiftr a k) m * 2 ^ k.
Proof.
  intros Hk. rewrite <- !Z.shiftl_mul_pow2 by lia. apply Z.bits_inj'. intros i Hi. rewrite Z.land_spec. destruct (Z_lt_ge_dec i k).
  - rewrite !Z.shiftl_spec_low by lia. apply andb_false_r.
  - rewrite !Z.shiftl_spec, Z.land_spec, Z.shiftr_spec by lia. replace (i - k + k) with i by lia. reflexivity.
Qed.

Section Words.
Context (E F U W : Z).
Context (HW : W = E + F + 1) (HE : 4 <= E <= 15) (HF : 1 <= F) (HU : W <= U) (H64 : W <= 64).
Context (Hpow : exists w, 0 <= w /\ W = 2 ^ w).

Lemma signalling_word s e f : 0 <= e < 2 ^ E -> 0 <= f < 2 ^ F -> (signalling E F (word E F s e f) <-> e = 2 ^ E - 1 /\ 0 < f < 2 ^ (F - 1)).
Proof.
  intros He Hf. unfold signalling. rewrite <- Z.shiftr_div_pow2, word_shiftr, word_mod by lia. rewrite join_mod by lia. reflexivity.
Qed.
Lemma isSig_word s e f : 0 <= e < 2 ^ E -> 0 <= f < 2 ^ F -> (isSigNaNUI E F (word E F s e f) = true <-> signalling E F (word E F s e f)).
Proof.
  intros He Hf. rewrite signalling_word by assumption. unfold isSigNaNUI.
  pose proof (pow2_pos (F - 1) ltac:(lia)) as P1. assert (PF : 2 ^ F = 2 * 2 ^ (F - 1)) by (rewrite <- pow2_S by lia; f_equal; lia).
  assert (H1 : Z.land (word E F s e f) (2 ^ (F - 1) - 1) = f mod 2 ^ (F - 1)).
  { rewrite land_low by lia. replace (word E F s e f) with ((Z.b2z s * 2 ^ E + e) * 2 * 2 ^ (F - 1) + f) by (unfold word; rewrite (pow2_add E F) by lia; rewrite PF; ring).
    rewrite Z.add_comm, Z.mod_add by lia. reflexivity. }
  assert (H2 : Z.land (word E F s e f) ((2 ^ (E + 1) - 1) * 2 ^ (F - 1)) = (2 * e + f / 2 ^ (F - 1)) * 2 ^ (F - 1)).
  { rewrite land_shift, land_low, Z.shiftr_div_pow2 by lia. f_equal.
    replace (word E F s e f) with (f + (Z.b2z s * 2 ^ E + e) * 2 * 2 ^ (F - 1)) by (unfold word; rewrite (pow2_add E F) by lia; rewrite PF; ring).
    rewrite Z.div_add by lia.
    assert (0 <= f / 2 ^ (F - 1) < 2) by (split; [apply Z.div_pos; lia|apply Z.div_lt_upper_bound; lia]).
    symmetry. apply (Z.mod_unique _ _ (Z.b2z s)); rewrite pow2_S by lia; lia. }
  rewrite H1, H2.
  pose proof (Z.div_mod f (2 ^ (F - 1)) ltac:(lia)) as DM. pose proof (Z.mod_pos_bound f (2 ^ (F - 1)) ltac:(lia)) as MB.
  assert (HQ : 0 <= f / 2 ^ (F - 1) < 2) by (split; [apply Z.div_pos; lia|apply Z.div_lt_upper_bound; lia]).
  rewrite andb_true_iff, negb_true_iff, Z.eqb_eq, Z.eqb_neq. remember (f / 2 ^ (F - 1)) as q eqn:Eq. remember (f mod 2 ^ (F - 1)) as r eqn:Er. remember (2 ^ (F - 1)) as P eqn:EP. rewrite PF. split.
  - intros [K1 K2]. assert (2 * e + q = (2 ^ E - 1) * 2) by (apply (Z.mul_reg_r _ _ P); lia). assert (e = 2 ^ E - 1) by lia. assert (q = 0) by lia. split; [assumption|]. clear Eq Er. nia.
  - intros [K1 K2]. assert (q = 0) by (clear Eq Er; nia). split; [subst e; rewrite H; ring|clear Eq Er; nia].
Qed.

(** What a pair of words is. *)
Lemma prop_flags a b s e f t e' g (inv dz ex : Prop) x : a = word E F s e f -> b = word E F t e' g ->
  0 <= e < 2 ^ E -> 0 <= f < 2 ^ F -> 0 <= e' < 2 ^ E -> 0 <= g < 2 ^ F ->
  (inv <-> signalling E F a \/ signalling E F b) -> ~ dz -> ~ ex ->
  exists r fl, Some (propagateNaNF E F a b) = Some (r, fl) /\ signals E F inv dz ex x fl /\ inexact_overflow fl.
Proof.
  intros -> -> He Hf He' Hg HI HD HX. eexists _, _. split; [reflexivity|].
  pose proof (isSig_word s e f He Hf) as S1. pose proof (isSig_word t e' g He' Hg) as S2.
  destruct (isSigNaNUI E F (word E F s e f)), (isSigNaNUI E F (word E F t e' g)); cbn [orb];
    ((apply signals_invalid; [tauto|assumption|assumption]) || (apply signals_none; [|assumption|assumption])); rewrite HI, <- S1, <- S2; intros [K|K]; discriminate.
Qed.
Lemma fl3_zero x : x = 0%R -> fl3 E F x 0.
Proof.
  intros ->. destruct (sf_EB E ltac:(lia)) as [EB B3]. eapply fl3_eq; [|apply (fl3_exact E F HF false 0 (1 - bias E - F)); [pose proof (pow2_pos (F + 1)); lia|lia]].
  unfold V. cbn [sgnR]. unfold Rdiv. ring.
Qed.
End Words.

Section Mul.
Context (E F U C W : Z).
Context (HW : W = E + F + 1) (HE : 4 <= E <= 15) (HF : 1 <= F) (HU : W <= U) (HC : 16 <= C) (H64 : W <= 64).
Context (Hpow : exists w, 0 <= w /\ W = 2 ^ w) (HE14 : E <= 14).
Context (mulsig : Z -> Z -> option Z).
Context (Hms : forall a b, 2 ^ F <= a < 2 ^ (F + 1) -> 2 ^ F <= b < 2 ^ (F + 1) -> mulsig a b = Some (jam (a * b * 2 ^ (2 * E - 1)) (2 ^ W))).
Local Notation fl3_zero := (fl3_zero E F HE HF).

Lemma sf_mulF_fin s e f t e' g : 0 <= e < 2 ^ E - 1 -> 0 <= f < 2 ^ F -> 0 <= e' < 2 ^ E - 1 -> 0 <= g < 2 ^ F ->
  okf E F (sf_mulF E F U C mulsig (word E F s e f) (word E F t e' g)) (rv (decode754 E F (word E F s e f)) * rv (decode754 E F (word E F t e' g))).
Proof.
  intros He Hf He' Hg. unfold sf_mulF. cbv zeta. rewrite !expUI_word, !fracUI_word, !signUI_word by lia.
  pose proof (pow2_pos F ltac:(lia)) as PF. destruct (sf_EB E ltac:(lia)) as [EB B3].
  assert (HE15 : 2 ^ E <= 2 ^ 14) by (apply pow2_le; lia). change (2 ^ 14) with 16384 in HE15.
  pose proof (U_W U W HU) as UW.
  replace (e =? 2 ^ E - 1) with false by (symmetry; apply Z.eqb_neq; lia). replace (e' =? 2 ^ E - 1) with false by (symmetry; apply Z.eqb_neq; lia).
      destruct ((e =? 0) && (f =? 0)) eqn:Z0.
      { rewrite (decode_fin_zero E F U W HW HE HF HU H64 Hpow s) by (assumption || lia). eexists _, _. split; [reflexivity|]. apply fl3_zero. cbn [rv]. ring. }
      destruct (norm_operand E F U W HW HE HF HU s e f ltac:(lia) Hf Z0) as (xa & ya & Na & Ba & Xa & ma & qa & Da & Pa & Qa & Va).
      rewrite Na. cbn [bind].
      destruct ((e' =? 0) && (g =? 0)) eqn:Z1.
      { rewrite (decode_fin_zero E F U W HW HE HF HU H64 Hpow t) by (assumption || lia). eexists _, _. split; [reflexivity|]. apply fl3_zero. cbn [rv]. ring. }
      destruct (norm_operand E F U W HW HE HF HU t e' g ltac:(lia) Hg Z1) as (xb & yb & Nb & Bb & Xb & mb & qb & Db & Pb & Qb & Vb).
      rewrite Nb. cbn [bind fst snd]. rewrite Da, Db. replace (rv (Num s ma qa) * rv (Num t mb qb))%R with (V (xorb s t) (ma * mb) 1 (qa + qb)) by (rewrite !rv_sgn; unfold V; rewrite mult_IZR, bpow_plus; destruct s, t; cbn [xorb sgnR]; field).
      replace (2 ^ (E - 1) - 1) with (bias E) by reflexivity.
      rewrite i16_ok by (change (2 ^ 15) with 32768; lia). cbn [bind].
      rewrite Hms by assumption. cbn [bind].
      remember (Z.lor ya (2 ^ F)) as A eqn:EA. remember (Z.lor yb (2 ^ F)) as B eqn:EBB.
      rewrite <- HW.
      assert (HA0 : 0 < A * B) by (apply Z.mul_pos_pos; lia).
      assert (AB1 : 2 ^ F * 2 ^ F <= A * B) by (apply Z.mul_le_mono_nonneg; lia).
      assert (AB2 : A * B < 2 ^ (F + 1) * 2 ^ (F + 1)) by (apply Z.mul_lt_mono_nonneg; lia).
      rewrite <- pow2_add in AB1, AB2 by lia.
      remember (A * B * 2 ^ (2 * E - 1)) as n eqn:En.
      pose proof (pow2_pos (2 * E - 1) ltac:(lia)) as PE2. pose proof (pow2_pos W ltac:(lia)) as PW.
      assert (N1 : 2 ^ (W - 3) * 2 ^ W <= n).
      { rewrite <- pow2_add by lia. replace (W - 3 + W) with (F + F + (2 * E - 1)) by lia. rewrite pow2_add by lia. rewrite En.
        apply Z.mul_le_mono_nonneg_r; lia. }
      assert (N2 : n < 2 ^ (W - 1) * 2 ^ W).
      { rewrite <- pow2_add by lia. replace (W - 1 + W) with (F + 1 + (F + 1) + (2 * E - 1)) by lia. rewrite pow2_add by lia. rewrite En.
        apply Z.mul_lt_mono_pos_r; lia. }
      assert (Hn : 0 < n) by (rewrite En; apply Z.mul_pos_pos; lia).
      assert (Hval : V (xorb s t) (ma * mb) 1 (qa + qb) =
        V (xorb s t) n (2 ^ W) (xa + xb - bias E + 1 - bias E - (W - 2))).
      { apply V_same; try lia.
        apply (samev_trans _ _ _ (A * B) 1 (qa + qb - (qa - (xa - bias E - F) + (qb - (xb - bias E - F))))); [lia| |].
        - replace (A * B) with (ma * mb * 2 ^ (qa - (xa - bias E - F) + (qb - (xb - bias E - F)))).
          + apply samev_num. lia.
          + rewrite Va, Vb, pow2_add by lia. ring.
        - replace (qa + qb - (qa - (xa - bias E - F) + (qb - (xb - bias E - F)))) with (xa + xb - 2 * bias E - 2 * F) by lia.
          apply (samev_trans _ _ _ n 1 (xa + xb - 2 * bias E - 2 * F - (2 * E - 1))); [lia|rewrite En; apply samev_num; lia|].
          pose proof (samev_den n 1 (xa + xb - 2 * bias E - 2 * F - (2 * E - 1)) W ltac:(lia)) as S. rewrite Z.mul_1_l in S.
          replace (xa + xb - bias E + 1 - bias E - (W - 2)) with (xa + xb - 2 * bias E - 2 * F - (2 * E - 1) + W) by lia. exact S. }
      rewrite Hval. clear Hval Va Vb Na Nb Da Db En EA EBB AB1 AB2 HA0 Ba Bb Qa Qb Pa Pb Z0 Z1.
      assert (J1 : 2 ^ (W - 3) <= jam n (2 ^ W)) by (apply jam_ge; lia).
      assert (J2 : jam n (2 ^ W) < 2 ^ (W - 1)) by (apply jam_lt; [lia|lia|apply even_pow2; lia|lia]).
      assert (W2 : 2 ^ (W - 2) = 2 * 2 ^ (W - 3)) by (rewrite <- pow2_S by lia; f_equal; lia).
      assert (W1 : 2 ^ (W - 1) = 2 * 2 ^ (W - 2)) by (rewrite <- pow2_S by lia; f_equal; lia).
      assert (W0 : 2 ^ W = 2 * 2 ^ (W - 1)) by (rewrite <- pow2_S by lia; f_equal; lia).
      pose proof (pow2_pos (W - 3) ltac:(lia)) as PW3.
      destruct (Z.ltb_spec (jam n (2 ^ W)) (2 ^ (W - 2))) as [L|L].
      * rewrite ushl_ok by lia. cbn [bind].
        destruct (roundPackF_ok E F U C W HW ltac:(lia) HF HU HC Hpow (xorb s t) (xa + xb - bias E - 1) (jam n (2 ^ W) * 2 ^ 1) n (2 ^ W) 1) as (r & fl & R1 & R2); try lia.
        exists r, fl. split; [exact R1|]. eapply fl3_eq; [|exact R2]. f_equal. lia.
      * destruct (roundPackF_ok E F U C W HW ltac:(lia) HF HU HC Hpow (xorb s t) (xa + xb - bias E) (jam n (2 ^ W)) n (2 ^ W) 0) as (r & fl & R1 & R2); try lia.
        exists r, fl. split; [exact R1|]. eapply fl3_eq; [|exact R2]. f_equal. lia.
Qed.
End Mul.

Section Div.
Context (E F U C W : Z).
Context (HW : W = E + F + 1) (HE : 4 <= E <= 15) (HF : 1 <= F) (HU : W <= U) (HC : 16 <= C) (H64 : W <= 64).
Context (Hpow : exists w, 0 <= w /\ W = 2 ^ w) (HE14 : E <= 14).
Context (divsig : Z -> Z -> option Z).
Context (Hds : forall a b, 2 ^ F <= a < 2 ^ (F + 1) -> 2 ^ F <= b < 2 ^ (F + 1) ->
  exists r, divsig a b = Some r /\ 2 ^ (W - 2) <= r < 2 ^ (W - 1) /\
    jam (2 * r) (2 ^ (E - 2)) = jam (2 * div_num W a b) (b * 2 ^ (E - 2))).
Local Notation fl3_zero := (fl3_zero E F HE HF).

Lemma sf_divF_fin s e f t e' g : 0 <= e < 2 ^ E - 1 -> 0 <= f < 2 ^ F -> 0 <= e' < 2 ^ E - 1 -> 0 <= g < 2 ^ F ->
  (e' =? 0) && (g =? 0) = false ->
  okf E F (sf_divF E F U C divsig (word E F s e f) (word E F t e' g)) (rv (decode754 E F (word E F s e f)) / rv (decode754 E F (word E F t e' g))).
Proof.
  intros He Hf He' Hg Z1. unfold sf_divF. cbv zeta. rewrite !expUI_word, !fracUI_word, !signUI_word by lia.
  pose proof (pow2_pos F ltac:(lia)) as PF. destruct (sf_EB E ltac:(lia)) as [EB B3].
  assert (HE15 : 2 ^ E <= 2 ^ 14) by (apply pow2_le; lia). change (2 ^ 14) with 16384 in HE15.
  replace (e =? 2 ^ E - 1) with false by (symmetry; apply Z.eqb_neq; lia). replace (e' =? 2 ^ E - 1) with false by (symmetry; apply Z.eqb_neq; lia).
  rewrite Z1.
      destruct (norm_operand E F U W HW HE HF HU t e' g ltac:(lia) Hg Z1) as (xb & yb & Nb & Bb & Xb & mb & qb & Db & Pb & Qb & Vb).
      rewrite Nb. cbn [bind].
      destruct ((e =? 0) && (f =? 0)) eqn:Z0.
      { rewrite (decode_fin_zero E F U W HW HE HF HU H64 Hpow s) by (assumption || lia). eexists _, _. split; [reflexivity|]. apply fl3_zero. cbn [rv]. unfold Rdiv. ring. }
      destruct (norm_operand E F U W HW HE HF HU s e f ltac:(lia) Hf Z0) as (xa & ya & Na & Ba & Xa & ma & qa & Da & Pa & Qa & Va).
      rewrite Na. cbn [bind fst snd]. rewrite Da, Db.
      assert (XV : (rv (Num s ma qa) / rv (Num t mb qb))%R = V (xorb s t) ma mb (qa - qb)).
      { rewrite !rv_sgn. unfold V, Z.sub. rewrite bpow_plus, bpow_opp. assert (IZR mb <> 0)%R by (apply IZR_neq; lia). pose proof (bpow_gt_0 radix2 qb). destruct s, t; cbn [xorb sgnR]; field; split; lra. }
      rewrite XV.
      replace (2 ^ (E - 1) - 2) with (bias E - 1) by (unfold bias; lia).
      rewrite i16_ok by (change (2 ^ 15) with 32768; lia). cbn [bind].
      remember (Z.lor ya (2 ^ F)) as A eqn:EA. remember (Z.lor yb (2 ^ F)) as B eqn:EBB.
      destruct (Hds A B Ba Bb) as (r & Dr & Br & Jr). rewrite Dr. cbn [bind].
      remember (if A <? B then xa - xb + (bias E - 1) - 1 else xa - xb + (bias E - 1)) as exp eqn:Eexp.
      assert (Hexp : - 2 ^ 15 <= exp < 2 ^ 15) by (change (2 ^ 15) with 32768; rewrite Eexp; destruct (A <? B); lia).
      assert (Pn : 0 < div_num W A B).
      { unfold div_num. apply Z.mul_pos_pos; [lia|]. apply pow2_pos. destruct (A <? B); lia. }
      destruct (roundPackF_gen E F U C W HW ltac:(lia) HF HU HC Hpow (xorb s t) exp r (div_num W A B) B Pn ltac:(lia) Hexp Jr Br) as (x & fl & R1 & R2).
      exists x, fl. split; [exact R1|]. eapply fl3_eq; [|exact R2]. symmetry. apply V_same; try lia.
      pose proof (pow2_pos (qa - (xa - bias E - F)) ltac:(lia)) as P1. pose proof (pow2_pos (qb - (xb - bias E - F)) ltac:(lia)) as P2.
      apply (samev_trans _ _ _ (ma * 2 ^ (qa - (xa - bias E - F))) mb (qa - qb - (qa - (xa - bias E - F)))); [lia|apply samev_num; lia|].
      rewrite <- Va.
      apply (samev_trans _ _ _ A (mb * 2 ^ (qb - (xb - bias E - F))) (qa - qb - (qa - (xa - bias E - F)) + (qb - (xb - bias E - F)))); [apply Z.mul_pos_pos; lia|apply samev_den; lia|].
      rewrite <- Vb. unfold div_num.
      replace (exp + 1 - bias E - (W - 2)) with (qa - qb - (qa - (xa - bias E - F)) + (qb - (xb - bias E - F)) - (if A <? B then W - 1 else W - 2))
        by (rewrite Eexp; destruct (A <? B); lia).
      apply samev_num. destruct (A <? B); lia.
Qed.
End Div.
