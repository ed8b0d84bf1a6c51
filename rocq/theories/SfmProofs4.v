(** SoftFloat in every rounding mode: multiplication, division; the binary32 and binary64 functions. Follows SfProofs6.v,
    SfProofs8.v and SfProofs10.v. *)
From Coq Require Import ZArith Bool Lia.
From Verif Require Import Spec Spec754 Spec754Mode Fw FwLemmas SpecLemmas ValueLemmas Sf754Lemmas SoftFloat SoftFloatMode SpecSfMode SfProofs1 SfProofs2 SfProofs3 SfProofs4 SfProofs6 SfProofs8 SfProofs9 SfProofs10 SfmProofs1 SfmProofs2 SfmProofs3.
Open Scope Z_scope.

Section Mul.
Context (md : rmode) (odd : bool) (Hodd : md = Odd -> odd = true).
Context (E F U C W : Z).
Context (HW : W = E + F + 1) (HE : 4 <= E <= 15) (HF : 1 <= F) (HU : W <= U) (HC : 16 <= C) (H64 : W <= 64).
Context (Hpow : exists w, 0 <= w /\ W = 2 ^ w) (HE14 : E <= 14).
Context (mulsig : Z -> Z -> option Z).
Context (Hms : forall a b, 2 ^ F <= a < 2 ^ (F + 1) -> 2 ^ F <= b < 2 ^ (F + 1) -> mulsig a b = Some (jam (a * b * 2 ^ (2 * E - 1)) (2 ^ W))).

Theorem sf_mulM_ok a b : 0 <= a < 2 ^ W -> 0 <= b < 2 ^ W ->
  okr E F W (sf_mulM (enum_of md) odd E F U C mulsig a b) (mul754m md E F (decode754 E F a) (decode754 E F b)).
Proof.
  intros Ha Hb. rewrite HW in Ha, Hb.
  destruct (word_split E F ltac:(lia) HF a Ha) as (s & e & f & -> & He & Hf).
  destruct (word_split E F ltac:(lia) HF b Hb) as (t & e' & g & -> & He' & Hg).
  rewrite <- HW in Ha, Hb.
  unfold sf_mulM. cbv zeta. rewrite !expUI_word, !fracUI_word, !signUI_word by lia.
  pose proof (pow2_pos F ltac:(lia)) as PF. destruct (sf_EB E ltac:(lia)) as [EB B3].
  assert (HE15 : 2 ^ E <= 2 ^ 14) by (apply pow2_le; lia). change (2 ^ 14) with 16384 in HE15.
  pose proof (U_W U W HU) as UW.
  destruct (Z.eqb_spec e (2 ^ E - 1)) as [EX|EX].
  - subst e. rewrite (decode_special E F HE HF s f Hf). destruct (Z.eqb_spec f 0) as [F0|F0]; cbn [negb orb].
    + destruct (Z.eqb_spec e' (2 ^ E - 1)) as [EY|EY]; cbn [andb].
      * subst e'. rewrite (decode_special E F HE HF t g Hg). destruct (Z.eqb_spec g 0) as [G0|G0]; cbn [negb].
        -- rewrite lor_zero by lia. replace (2 ^ E - 1 =? 0) with false by (symmetry; apply Z.eqb_neq; lia). cbn [andb].
           apply okr_inf; assumption.
        -- apply okr_nan; try assumption. right. apply decode_nan_word; lia.
      * rewrite lor_zero by lia. destruct ((e' =? 0) && (g =? 0)) eqn:Z0.
        -- rewrite (decode_fin_zero E F U W HW HE HF HU H64 Hpow t) by (assumption || lia). apply okr_default; assumption.
        -- destruct (decode_fin_num E F U W HW HE HF HU t e' g ltac:(lia) Hg Z0) as (m & q & ->). apply okr_inf; assumption.
    + apply okr_nan; try assumption. left. apply decode_nan_word; lia.
  - destruct (Z.eqb_spec e' (2 ^ E - 1)) as [EY|EY].
    + subst e'. rewrite (decode_special E F HE HF t g Hg). destruct (Z.eqb_spec g 0) as [G0|G0]; cbn [negb].
      * rewrite lor_zero by lia. destruct ((e =? 0) && (f =? 0)) eqn:Z0.
        -- rewrite (decode_fin_zero E F U W HW HE HF HU H64 Hpow s) by (assumption || lia). apply okr_default; assumption.
        -- destruct (decode_fin_num E F U W HW HE HF HU s e f ltac:(lia) Hf Z0) as (m & q & ->). apply okr_inf; assumption.
      * replace (mul754m md E F (decode754 E F (word E F s e f)) NaN) with NaN by (now destruct (decode754 E F (word E F s e f))).
        apply okr_nan; try assumption. right. apply decode_nan_word; lia.
    + destruct ((e =? 0) && (f =? 0)) eqn:Z0.
      { rewrite (decode_fin_zero E F U W HW HE HF HU H64 Hpow s) by (assumption || lia).
        destruct ((e' =? 0) && (g =? 0)) eqn:Z1.
        - rewrite (decode_fin_zero E F U W HW HE HF HU H64 Hpow t) by (assumption || lia). apply okr_zero; assumption.
        - destruct (decode_fin_num E F U W HW HE HF HU t e' g ltac:(lia) Hg Z1) as (m & q & ->). apply okr_zero; assumption. }
      destruct (norm_operand E F U W HW HE HF HU s e f ltac:(lia) Hf Z0) as (xa & ya & Na & Ba & Xa & ma & qa & Da & Pa & Qa & Va).
      rewrite Na. cbn [bind].
      destruct ((e' =? 0) && (g =? 0)) eqn:Z1.
      { rewrite (decode_fin_zero E F U W HW HE HF HU H64 Hpow t) by (assumption || lia). rewrite Da. apply okr_zero; assumption. }
      destruct (norm_operand E F U W HW HE HF HU t e' g ltac:(lia) Hg Z1) as (xb & yb & Nb & Bb & Xb & mb & qb & Db & Pb & Qb & Vb).
      rewrite Nb. cbn [bind fst snd]. rewrite Da, Db. unfold mul754m. cbn [mul_gen].
      replace (2 ^ (E - 1) - 1) with (bias E) by reflexivity.
      rewrite i16_ok by (change (2 ^ 15) with 32768; lia). cbn [bind].
      rewrite Hms by assumption. cbn [bind].
      remember (Z.lor ya (2 ^ F)) as A eqn:EA. remember (Z.lor yb (2 ^ F)) as B eqn:EBB.
      rewrite <- HW.
      assert (HA0 : 0 < A * B) by (apply Z.mul_pos_pos; lia).
      assert (AB1 : 2 ^ F * 2 ^ F <= A * B) by (apply Z.mul_le_mono_nonneg; lia).
      assert (AB2 : A * B < 2 ^ (F + 1) * 2 ^ (F + 1)) by (apply Z.mul_lt_mono_nonneg; lia).
      rewrite <- pow2_add in AB1, AB2 by lia.
      remember (A * B * 2 ^ (2 * E - 1)) as n eqn:En.
      pose proof (pow2_pos (2 * E - 1) ltac:(lia)) as PE2. pose proof (pow2_pos W ltac:(lia)) as PW.
      assert (N1 : 2 ^ (W - 3) * 2 ^ W <= n).
      { rewrite <- pow2_add by lia. replace (W - 3 + W) with (F + F + (2 * E - 1)) by lia. rewrite pow2_add by lia. rewrite En.
        apply Z.mul_le_mono_nonneg_r; lia. }
      assert (N2 : n < 2 ^ (W - 1) * 2 ^ W).
      { rewrite <- pow2_add by lia. replace (W - 1 + W) with (F + 1 + (F + 1) + (2 * E - 1)) by lia. rewrite pow2_add by lia. rewrite En.
        apply Z.mul_lt_mono_pos_r; lia. }
      assert (Hn : 0 < n) by (rewrite En; apply Z.mul_pos_pos; lia).
      assert (Hval : round754m md E F (xorb s t) (ma * mb) 1 (qa + qb) =
        round754m md E F (xorb s t) n (2 ^ W) (xa + xb - bias E + 1 - bias E - (W - 2))).
      { apply round754m_same; try lia.
        apply (samev_trans _ _ _ (A * B) 1 (qa + qb - (qa - (xa - bias E - F) + (qb - (xb - bias E - F))))); [lia| |].
        - replace (A * B) with (ma * mb * 2 ^ (qa - (xa - bias E - F) + (qb - (xb - bias E - F)))).
          + apply samev_num. lia.
          + rewrite Va, Vb, pow2_add by lia. ring.
        - replace (qa + qb - (qa - (xa - bias E - F) + (qb - (xb - bias E - F)))) with (xa + xb - 2 * bias E - 2 * F) by lia.
          apply (samev_trans _ _ _ n 1 (xa + xb - 2 * bias E - 2 * F - (2 * E - 1))); [lia|rewrite En; apply samev_num; lia|].
          pose proof (samev_den n 1 (xa + xb - 2 * bias E - 2 * F - (2 * E - 1)) W ltac:(lia)) as S. rewrite Z.mul_1_l in S.
          replace (xa + xb - bias E + 1 - bias E - (W - 2)) with (xa + xb - 2 * bias E - 2 * F - (2 * E - 1) + W) by lia. exact S. }
      rewrite Hval. clear Hval Va Vb Na Nb Da Db En EA EBB AB1 AB2 HA0 Ba Bb Qa Qb Pa Pb Z0 Z1.
      assert (J1 : 2 ^ (W - 3) <= jam n (2 ^ W)) by (apply jam_ge; lia).
      assert (J2 : jam n (2 ^ W) < 2 ^ (W - 1)) by (apply jam_lt; [lia|lia|apply even_pow2; lia|lia]).
      assert (W2 : 2 ^ (W - 2) = 2 * 2 ^ (W - 3)) by (rewrite <- pow2_S by lia; f_equal; lia).
      assert (W1 : 2 ^ (W - 1) = 2 * 2 ^ (W - 2)) by (rewrite <- pow2_S by lia; f_equal; lia).
      assert (W0 : 2 ^ W = 2 * 2 ^ (W - 1)) by (rewrite <- pow2_S by lia; f_equal; lia).
      pose proof (pow2_pos (W - 3) ltac:(lia)) as PW3.
      destruct (Z.ltb_spec (jam n (2 ^ W)) (2 ^ (W - 2))) as [L|L].
      * rewrite ushl_ok by lia. cbn [bind].
        destruct (roundPackM_ok md odd Hodd E F U C W HW ltac:(lia) HF HU HC Hpow (xorb s t) (xa + xb - bias E - 1) (jam n (2 ^ W) * 2 ^ 1) n (2 ^ W) 1) as (r & R1 & R2 & R3); try lia.
        exists r. split; [exact R1|]. split; [exact R2|]. rewrite R3. f_equal. lia.
      * destruct (roundPackM_ok md odd Hodd E F U C W HW ltac:(lia) HF HU HC Hpow (xorb s t) (xa + xb - bias E) (jam n (2 ^ W)) n (2 ^ W) 0) as (r & R1 & R2 & R3); try lia.
        exists r. split; [exact R1|]. split; [exact R2|]. rewrite R3. f_equal. lia.
Qed.
End Mul.

Section Div.
Context (md : rmode) (odd : bool) (Hodd : md = Odd -> odd = true).
Context (E F U C W : Z).
Context (HW : W = E + F + 1) (HE : 4 <= E <= 15) (HF : 1 <= F) (HU : W <= U) (HC : 16 <= C) (H64 : W <= 64).
Context (Hpow : exists w, 0 <= w /\ W = 2 ^ w) (HE14 : E <= 14).
Context (divsig : Z -> Z -> option Z).

Context (Hds : forall a b, 2 ^ F <= a < 2 ^ (F + 1) -> 2 ^ F <= b < 2 ^ (F + 1) ->
  exists r, divsig a b = Some r /\ 2 ^ (W - 2) <= r < 2 ^ (W - 1) /\
    jam (2 * r) (2 ^ (E - 2)) = jam (2 * div_num W a b) (b * 2 ^ (E - 2))).

Theorem sf_divM_ok a b : 0 <= a < 2 ^ W -> 0 <= b < 2 ^ W ->
  okr E F W (sf_divM (enum_of md) odd E F U C divsig a b) (div754m md E F (decode754 E F a) (decode754 E F b)).
Proof.
  intros Ha Hb. rewrite HW in Ha, Hb.
  destruct (word_split E F ltac:(lia) HF a Ha) as (s & e & f & -> & He & Hf).
  destruct (word_split E F ltac:(lia) HF b Hb) as (t & e' & g & -> & He' & Hg).
  rewrite <- HW in Ha, Hb.
  unfold sf_divM. cbv zeta. rewrite !expUI_word, !fracUI_word, !signUI_word by lia.
  pose proof (pow2_pos F ltac:(lia)) as PF. destruct (sf_EB E ltac:(lia)) as [EB B3].
  assert (HE15 : 2 ^ E <= 2 ^ 14) by (apply pow2_le; lia). change (2 ^ 14) with 16384 in HE15.
  destruct (Z.eqb_spec e (2 ^ E - 1)) as [EX|EX].
  - subst e. rewrite (decode_special E F HE HF s f Hf). destruct (Z.eqb_spec f 0) as [F0|F0]; cbn [negb].
    + destruct (Z.eqb_spec e' (2 ^ E - 1)) as [EY|EY].
      * subst e'. rewrite (decode_special E F HE HF t g Hg). destruct (Z.eqb_spec g 0) as [G0|G0]; cbn [negb].
        -- apply okr_default; assumption.
        -- apply okr_nan; try assumption. right. apply decode_nan_word; lia.
      * destruct ((e' =? 0) && (g =? 0)) eqn:Z0.
        -- rewrite (decode_fin_zero E F U W HW HE HF HU H64 Hpow t) by (assumption || lia). apply okr_inf; assumption.
        -- destruct (decode_fin_num E F U W HW HE HF HU t e' g ltac:(lia) Hg Z0) as (m & q & ->). apply okr_inf; assumption.
    + apply okr_nan; try assumption. left. apply decode_nan_word; lia.
  - destruct (Z.eqb_spec e' (2 ^ E - 1)) as [EY|EY].
    + subst e'. rewrite (decode_special E F HE HF t g Hg). destruct (Z.eqb_spec g 0) as [G0|G0]; cbn [negb].
      * destruct ((e =? 0) && (f =? 0)) eqn:Z0.
        -- rewrite (decode_fin_zero E F U W HW HE HF HU H64 Hpow s) by (assumption || lia). apply okr_zero; assumption.
        -- destruct (decode_fin_num E F U W HW HE HF HU s e f ltac:(lia) Hf Z0) as (m & q & ->). apply okr_zero; assumption.
      * replace (div754m md E F (decode754 E F (word E F s e f)) NaN) with NaN by (now destruct (decode754 E F (word E F s e f))).
        apply okr_nan; try assumption. right. apply decode_nan_word; lia.
    + destruct ((e' =? 0) && (g =? 0)) eqn:Z1.
      { rewrite (decode_fin_zero E F U W HW HE HF HU H64 Hpow t) by (assumption || lia). rewrite lor_zero by lia.
        destruct ((e =? 0) && (f =? 0)) eqn:Z0.
        - rewrite (decode_fin_zero E F U W HW HE HF HU H64 Hpow s) by (assumption || lia). apply okr_default; assumption.
        - destruct (decode_fin_num E F U W HW HE HF HU s e f ltac:(lia) Hf Z0) as (m & q & ->). apply okr_inf; assumption. }
      destruct (norm_operand E F U W HW HE HF HU t e' g ltac:(lia) Hg Z1) as (xb & yb & Nb & Bb & Xb & mb & qb & Db & Pb & Qb & Vb).
      rewrite Nb. cbn [bind].
      destruct ((e =? 0) && (f =? 0)) eqn:Z0.
      { rewrite (decode_fin_zero E F U W HW HE HF HU H64 Hpow s) by (assumption || lia). rewrite Db. apply okr_zero; assumption. }
      destruct (norm_operand E F U W HW HE HF HU s e f ltac:(lia) Hf Z0) as (xa & ya & Na & Ba & Xa & ma & qa & Da & Pa & Qa & Va).
      rewrite Na. cbn [bind fst snd]. rewrite Da, Db. unfold div754m. cbn [div_gen].
      replace (2 ^ (E - 1) - 2) with (bias E - 1) by (unfold bias; lia).
      rewrite i16_ok by (change (2 ^ 15) with 32768; lia). cbn [bind].
      remember (Z.lor ya (2 ^ F)) as A eqn:EA. remember (Z.lor yb (2 ^ F)) as B eqn:EBB.
      destruct (Hds A B Ba Bb) as (r & Dr & Br & Jr). rewrite Dr. cbn [bind].
      remember (if A <? B then xa - xb + (bias E - 1) - 1 else xa - xb + (bias E - 1)) as exp eqn:Eexp.
      assert (Hexp : - 2 ^ 15 <= exp < 2 ^ 15) by (change (2 ^ 15) with 32768; rewrite Eexp; destruct (A <? B); lia).
      assert (Pn : 0 < div_num W A B).
      { unfold div_num. apply Z.mul_pos_pos; [lia|]. apply pow2_pos. destruct (A <? B); lia. }
      destruct (roundPackM_gen md odd Hodd E F U C W HW ltac:(lia) HF HU HC Hpow (xorb s t) exp r (div_num W A B) B Pn ltac:(lia) Hexp Jr Br) as (x & R1 & R2 & R3).
      exists x. split; [exact R1|]. split; [exact R2|]. rewrite R3. symmetry. apply round754m_same; try lia.
      pose proof (pow2_pos (qa - (xa - bias E - F)) ltac:(lia)) as P1. pose proof (pow2_pos (qb - (xb - bias E - F)) ltac:(lia)) as P2.
      apply (samev_trans _ _ _ (ma * 2 ^ (qa - (xa - bias E - F))) mb (qa - qb - (qa - (xa - bias E - F)))); [lia|apply samev_num; lia|].
      rewrite <- Va.
      apply (samev_trans _ _ _ A (mb * 2 ^ (qb - (xb - bias E - F))) (qa - qb - (qa - (xa - bias E - F)) + (qb - (xb - bias E - F)))); [apply Z.mul_pos_pos; lia|apply samev_den; lia|].
      rewrite <- Vb. unfold div_num.
      replace (exp + 1 - bias E - (W - 2)) with (qa - qb - (qa - (xa - bias E - F)) + (qb - (xb - bias E - F)) - (if A <? B then W - 1 else W - 2))
        by (rewrite Eexp; destruct (A <? B); lia).
      apply samev_num. destruct (A <? B); lia.
Qed.
End Div.

Lemma f32_addM_ok md odd U a b : (md = Odd -> odd = true) -> 32 <= U -> 0 <= a < 2 ^ 32 -> 0 <= b < 2 ^ 32 ->
  exists r, f32_addM (enum_of md) odd U a b = Some r /\ 0 <= r < 2 ^ 32 /\ decode754 8 23 r = add754m md 8 23 (decode754 8 23 a) (decode754 8 23 b).
Proof. intros Ho HU Ha Hb. apply (sf_addM_ok md odd Ho 8 23 U 32 32); try assumption; try lia. exact pow32. Qed.
Lemma f64_addM_ok md odd a b : (md = Odd -> odd = true) -> 0 <= a < 2 ^ 64 -> 0 <= b < 2 ^ 64 ->
  exists r, f64_addM (enum_of md) odd a b = Some r /\ 0 <= r < 2 ^ 64 /\ decode754 11 52 r = add754m md 11 52 (decode754 11 52 a) (decode754 11 52 b).
Proof. intros Ho Ha Hb. apply (sf_addM_ok md odd Ho 11 52 64 16 64); try assumption; try lia. exact pow64. Qed.
Lemma f32_mulM_ok md odd U a b : (md = Odd -> odd = true) -> 32 <= U -> 0 <= a < 2 ^ 32 -> 0 <= b < 2 ^ 32 ->
  exists r, f32_mulM (enum_of md) odd U a b = Some r /\ 0 <= r < 2 ^ 32 /\ decode754 8 23 r = mul754m md 8 23 (decode754 8 23 a) (decode754 8 23 b).
Proof. intros Ho HU Ha Hb. apply (sf_mulM_ok md odd Ho 8 23 U 32 32); try assumption; try lia; [exact pow32|]. intros. apply (f32_mulsig_ok U); assumption. Qed.
Lemma f64_mulM_ok md odd a b : (md = Odd -> odd = true) -> 0 <= a < 2 ^ 64 -> 0 <= b < 2 ^ 64 ->
  exists r, f64_mulM (enum_of md) odd a b = Some r /\ 0 <= r < 2 ^ 64 /\ decode754 11 52 r = mul754m md 11 52 (decode754 11 52 a) (decode754 11 52 b).
Proof. intros Ho Ha Hb. apply (sf_mulM_ok md odd Ho 11 52 64 16 64); try assumption; try lia; [exact pow64|]. intros. apply f64_mulsig_ok; assumption. Qed.
Lemma f32_divM_ok md odd U a b : (md = Odd -> odd = true) -> 32 <= U -> 0 <= a < 2 ^ 32 -> 0 <= b < 2 ^ 32 ->
  exists r, f32_divM (enum_of md) odd U a b = Some r /\ 0 <= r < 2 ^ 32 /\ decode754 8 23 r = div754m md 8 23 (decode754 8 23 a) (decode754 8 23 b).
Proof. intros Ho HU Ha Hb. apply (sf_divM_ok md odd Ho 8 23 U 32 32); try assumption; try lia; [exact pow32|]. intros. apply (f32_divsig_ok U); assumption. Qed.
Lemma f64_divM_ok md odd a b : (md = Odd -> odd = true) -> 0 <= a < 2 ^ 64 -> 0 <= b < 2 ^ 64 ->
  exists r, f64_divM (enum_of md) odd a b = Some r /\ 0 <= r < 2 ^ 64 /\ decode754 11 52 r = div754m md 11 52 (decode754 11 52 a) (decode754 11 52 b).
Proof. intros Ho Ha Hb. apply (sf_divM_ok md odd Ho 11 52 64 16 64); try assumption; try lia; [exact pow64|]. intros. apply f64_divsig_ok; assumption. Qed.

(** At softfloat_round_near_even the functions are those of SoftFloat.v. *)
Lemma bind_ext {A B} (x : option A) (f g : A -> option B) : (forall a, f a = g a) -> bind x f = bind x g.
Proof. intros H. destruct x; [apply H|reflexivity]. Qed.

Lemma packUI_wf E F s exp sig : 0 <= packUI E F s exp sig < 2 ^ (E + F + 1) \/ E + F + 1 < 0.
Proof.
  destruct (Z_lt_ge_dec (E + F + 1) 0) as [|H]; [now right|left]. unfold packUI, uw. apply Z.mod_pos_bound. apply pow2_pos. lia.
Qed.

Section NearEven.
Context (odd : bool) (E F U C : Z) (HE : 2 <= E) (HF : 0 <= F) (HU : E + F + 1 <= U).

Lemma roundPackM_0 s exp sig : roundPackM 0 odd E F U C s exp sig = roundPack E F U C s exp sig.
Proof.
  unfold roundPackM, roundPack. cbv zeta. change (0 =? softfloat_round_near_even) with true. change (0 =? softfloat_round_odd) with false.
  cbn [negb andb]. rewrite !andb_false_r, !andb_true_r.
  destruct (_ <=? exp mod _); [|reflexivity]. destruct (exp <? 0); [reflexivity|]. destruct (_ || _); [|reflexivity].
  pose proof (pow2_pos (E - 1 - 1) ltac:(lia)). replace (2 ^ (E - 1 - 1) =? 0) with false by (symmetry; apply Z.eqb_neq; lia).
  cbn [Z.b2z]. rewrite Z.sub_0_r. unfold uw at 1. destruct (packUI_wf E F s (2 ^ E - 1) 0) as [P|P]; [|lia].
  assert (2 ^ (E + F + 1) <= 2 ^ U) by (apply pow2_le; lia). rewrite Z.mod_small by lia. reflexivity.
Qed.
Ltac eqm l := repeat lazymatch goal with
  | |- roundPackM _ _ _ _ _ _ _ _ _ = _ => apply l
  | |- normRoundPackM _ _ _ _ _ _ _ _ _ = _ => apply l
  | |- (if ?b then _ else _) = (if ?b then _ else _) => destruct b
  | |- bind _ _ = bind _ _ => apply bind_ext; intros
  | _ => reflexivity
  end.
Lemma normRoundPackM_0 s exp sig : normRoundPackM 0 odd E F U C s exp sig = normRoundPack E F U C s exp sig.
Proof. unfold normRoundPackM, normRoundPack. cbv zeta. eqm roundPackM_0. Qed.
Lemma addMagsM_0 q a b : addMagsM 0 odd E F U C q a b = addMags E F U C q a b.
Proof. unfold addMagsM, addMags. cbv zeta. eqm roundPackM_0. Qed.
Lemma subMagsM_0 a b : subMagsM 0 odd E F U C a b = subMags E F U C a b.
Proof. unfold subMagsM, subMags. cbv zeta. eqm normRoundPackM_0. Qed.
Lemma sf_addM_0 q a b : sf_addM 0 odd E F U C q a b = sf_add E F U C q a b.
Proof. unfold sf_addM, sf_add. rewrite addMagsM_0, subMagsM_0. reflexivity. Qed.
Lemma sf_mulM_0 f a b : sf_mulM 0 odd E F U C f a b = sf_mul E F U C f a b.
Proof. unfold sf_mulM, sf_mul. cbv zeta. eqm roundPackM_0. Qed.
Lemma sf_divM_0 f a b : sf_divM 0 odd E F U C f a b = sf_div E F U C f a b.
Proof. unfold sf_divM, sf_div. cbv zeta. eqm roundPackM_0. Qed.
End NearEven.

(** Without SOFTFLOAT_ROUND_ODD, softfloat_round_odd is softfloat_round_minMag. *)
Section OddMinMag.
Context (E F U C : Z).
Lemma roundPackM_5 s exp sig : roundPackM 5 false E F U C s exp sig = roundPackM 1 false E F U C s exp sig.
Proof. unfold roundPackM. destruct s; reflexivity. Qed.
Ltac eqm l := repeat lazymatch goal with
  | |- roundPackM _ _ _ _ _ _ _ _ _ = _ => apply l
  | |- normRoundPackM _ _ _ _ _ _ _ _ _ = _ => apply l
  | |- (if ?b then _ else _) = (if ?b then _ else _) => destruct b
  | |- bind _ _ = bind _ _ => apply bind_ext; intros
  | _ => reflexivity
  end.
Lemma normRoundPackM_5 s exp sig : normRoundPackM 5 false E F U C s exp sig = normRoundPackM 1 false E F U C s exp sig.
Proof. unfold normRoundPackM. cbv zeta. eqm roundPackM_5. Qed.
Lemma sf_addM_5 q a b : sf_addM 5 false E F U C q a b = sf_addM 1 false E F U C q a b.
Proof.
  unfold sf_addM. destruct (signUI E F _); [unfold subMagsM; cbv zeta; eqm normRoundPackM_5|unfold addMagsM; cbv zeta; eqm roundPackM_5].
Qed.
Lemma sf_mulM_5 f a b : sf_mulM 5 false E F U C f a b = sf_mulM 1 false E F U C f a b.
Proof. unfold sf_mulM. cbv zeta. eqm roundPackM_5. Qed.
Lemma sf_divM_5 f a b : sf_divM 5 false E F U C f a b = sf_divM 1 false E F U C f a b.
Proof. unfold sf_divM. cbv zeta. eqm roundPackM_5. Qed.
End OddMinMag.

Lemma delivered_ok odd U a b : 32 <= U ->
  f32_addM softfloat_round_near_even odd U a b = f32_add U a b /\
  f32_mulM softfloat_round_near_even odd U a b = f32_mul U a b /\
  f32_divM softfloat_round_near_even odd U a b = f32_div U a b /\
  f64_addM softfloat_round_near_even odd a b = f64_add a b /\
  f64_mulM softfloat_round_near_even odd a b = f64_mul a b /\
  f64_divM softfloat_round_near_even odd a b = f64_div a b.
Proof.
  intros HU. split; [apply sf_addM_0; lia|]. split; [apply sf_mulM_0; lia|]. split; [apply sf_divM_0; lia|].
  split; [apply sf_addM_0; lia|]. split; [apply sf_mulM_0; lia|apply sf_divM_0; lia].
Qed.
Lemma odd_without_macro_ok U a b :
  f32_addM softfloat_round_odd false U a b = f32_addM softfloat_round_minMag false U a b /\
  f32_mulM softfloat_round_odd false U a b = f32_mulM softfloat_round_minMag false U a b /\
  f32_divM softfloat_round_odd false U a b = f32_divM softfloat_round_minMag false U a b.
Proof. split; [apply sf_addM_5|]. split; [apply sf_mulM_5|apply sf_divM_5]. Qed.
Lemma odd_refuted : ~ (forall odd U a b, 32 <= U -> 0 <= a < 2 ^ 32 -> 0 <= b < 2 ^ 32 ->
  exists r, f32_addM softfloat_round_odd odd U a b = Some r /\ decode754 8 23 r = add754m Odd 8 23 (decode754 8 23 a) (decode754 8 23 b)).
Proof.
  intros H. destruct (H false 32 0x3F800000 0x33800000 ltac:(lia) ltac:(lia) ltac:(lia)) as (r & R1 & R2).
  vm_compute in R1. injection R1 as <-. vm_compute in R2. discriminate R2.
Qed.
