(** SoftFloat: multiplication; the frame of division. *)
From Coq Require Import ZArith Bool Lia.
From Verif Require Import Spec Spec754 Fw FwLemmas SpecLemmas ValueLemmas Sf754Lemmas SoftFloat SfProofs1 SfProofs2 SfProofs3 SfProofs4.
Open Scope Z_scope.

Lemma lor_hidden F y : 0 <= F -> 0 <= y < 2 * 2 ^ F -> Z.lor y (2 ^ F) = if y <? 2 ^ F then y + 2 ^ F else y.
Proof.
  intros HF Hy. pose proof (pow2_pos F HF) as PF.
  destruct (Z.ltb_spec y (2 ^ F)) as [L|L].
  - rewrite Z.lor_comm. rewrite <- (Z.mul_1_l (2 ^ F)) at 1. rewrite lor_join by lia. ring.
  - replace y with (1 * 2 ^ F + (y - 2 ^ F)) at 1 by ring. rewrite <- lor_join by lia. rewrite Z.mul_1_l.
    rewrite (Z.lor_comm (2 ^ F)), <- Z.lor_assoc, Z.lor_diag.
    rewrite Z.lor_comm. rewrite <- (Z.mul_1_l (2 ^ F)) at 1. rewrite lor_join by lia. ring.
Qed.

Section Mul.
Context (E F U C W : Z).
Context (HW : W = E + F + 1) (HE : 4 <= E <= 15) (HF : 1 <= F) (HU : W <= U) (HC : 16 <= C) (H64 : W <= 64).
Context (Hpow : exists w, 0 <= w /\ W = 2 ^ w) (HE14 : E <= 14).

Lemma norm_operand s e f : 0 <= e < 2 ^ E - 1 -> 0 <= f < 2 ^ F -> (e =? 0) && (f =? 0) = false ->
  exists x y, (if e =? 0 then normSubnormalSig E F U f else Some (e, f)) = Some (x, y) /\
    2 ^ F <= Z.lor y (2 ^ F) < 2 ^ (F + 1) /\ - F <= x < 2 ^ E - 1 /\
    exists m q, decode754 E F (word E F s e f) = Num s m q /\ 0 < m /\ x - bias E - F <= q /\
      Z.lor y (2 ^ F) = m * 2 ^ (q - (x - bias E - F)).
Proof.
  intros He Hf Hz. pose proof (pow2_pos F ltac:(lia)) as PF. rewrite decode_fin by lia. rewrite pow2_S by lia.
  assert (UW : 2 ^ (F + 1) <= 2 ^ U) by (apply pow2_le; lia). rewrite pow2_S in UW by lia.
  destruct (Z.eqb_spec e 0) as [->|E0].
  - cbn [andb] in Hz. apply Z.eqb_neq in Hz. unfold normSubnormalSig. cbv zeta.
    assert (FW : 2 ^ F <= 2 ^ (E + F + 1)) by (apply pow2_le; lia).
    rewrite clzW_eq by lia.
    pose proof (Z.log2_nonneg f) as Ln. assert (Lu : Z.log2 f < F) by (apply Z.log2_lt_pow2; lia).
    pose proof (log2_shift f F ltac:(lia) ltac:(lia)) as [M1 M2]. rewrite pow2_S in M2 by lia.
    replace (E + F - Z.log2 f - E) with (F - Z.log2 f) by lia.
    rewrite ushl_ok by lia. cbn [bind]. exists (1 - (F - Z.log2 f)), (f * 2 ^ (F - Z.log2 f)).
    rewrite lor_hidden by lia. replace (f * 2 ^ (F - Z.log2 f) <? 2 ^ F) with false by (symmetry; apply Z.ltb_ge; lia).
    split; [reflexivity|]. split; [lia|]. split; [lia|].
    exists f, (1 - bias E - F). unfold fin_val. replace (f =? 0) with false by (symmetry; apply Z.eqb_neq; lia).
    split; [reflexivity|]. split; [lia|]. split; [lia|]. do 2 f_equal. lia.
  - exists e, f. rewrite lor_hidden by lia. replace (f <? 2 ^ F) with true by (symmetry; apply Z.ltb_lt; lia).
    split; [reflexivity|]. split; [lia|]. split; [lia|].
    exists (2 ^ F + f), (e - bias E - F). unfold fin_val. replace (2 ^ F + f =? 0) with false by (symmetry; apply Z.eqb_neq; lia).
    split; [reflexivity|]. split; [lia|]. split; [lia|]. rewrite Z.sub_diag, Z.pow_0_r. ring.
Qed.

Lemma decode_fin_zero s e f : 0 <= e < 2 ^ E - 1 -> 0 <= f < 2 ^ F -> (e =? 0) && (f =? 0) = true ->
  decode754 E F (word E F s e f) = Zero s.
Proof.
  intros He Hf Hz. apply andb_prop in Hz. destruct Hz as [Z1 Z2]. apply Z.eqb_eq in Z1, Z2. subst.
  rewrite decode_fin by lia. reflexivity.
Qed.

Lemma decode_fin_num s e f : 0 <= e < 2 ^ E - 1 -> 0 <= f < 2 ^ F -> (e =? 0) && (f =? 0) = false ->
  exists m q, decode754 E F (word E F s e f) = Num s m q.
Proof. intros He Hf Hz. destruct (norm_operand s e f He Hf Hz) as (x & y & _ & _ & _ & m & q & H & _). eauto. Qed.

Context (mulsig : Z -> Z -> option Z).
Context (Hms : forall a b, 2 ^ F <= a < 2 ^ (F + 1) -> 2 ^ F <= b < 2 ^ (F + 1) -> mulsig a b = Some (jam (a * b * 2 ^ (2 * E - 1)) (2 ^ W))).

Theorem sf_mul_ok a b : 0 <= a < 2 ^ W -> 0 <= b < 2 ^ W ->
  okr E F W (sf_mul E F U C mulsig a b) (mul754 E F (decode754 E F a) (decode754 E F b)).
Proof.
  intros Ha Hb. rewrite HW in Ha, Hb.
  destruct (word_split E F ltac:(lia) HF a Ha) as (s & e & f & -> & He & Hf).
  destruct (word_split E F ltac:(lia) HF b Hb) as (t & e' & g & -> & He' & Hg).
  rewrite <- HW in Ha, Hb.
  unfold sf_mul. cbv zeta. rewrite !expUI_word, !fracUI_word, !signUI_word by lia.
  pose proof (pow2_pos F ltac:(lia)) as PF. destruct (sf_EB E ltac:(lia)) as [EB B3].
  assert (HE15 : 2 ^ E <= 2 ^ 14) by (apply pow2_le; lia). change (2 ^ 14) with 16384 in HE15.
  pose proof (U_W U W HU) as UW.
  destruct (Z.eqb_spec e (2 ^ E - 1)) as [EX|EX].
  - subst e. rewrite (decode_special E F HE HF s f Hf). destruct (Z.eqb_spec f 0) as [F0|F0]; cbn [negb orb].
    + destruct (Z.eqb_spec e' (2 ^ E - 1)) as [EY|EY]; cbn [andb].
      * subst e'. rewrite (decode_special E F HE HF t g Hg). destruct (Z.eqb_spec g 0) as [G0|G0]; cbn [negb].
        -- rewrite lor_zero by lia. replace (2 ^ E - 1 =? 0) with false by (symmetry; apply Z.eqb_neq; lia). cbn [andb].
           apply okr_inf; assumption.
        -- apply okr_nan; try assumption. right. apply decode_nan_word; lia.
      * rewrite lor_zero by lia. destruct ((e' =? 0) && (g =? 0)) eqn:Z0.
        -- rewrite (decode_fin_zero t) by (assumption || lia). apply okr_default; assumption.
        -- destruct (decode_fin_num t e' g ltac:(lia) Hg Z0) as (m & q & ->). apply okr_inf; assumption.
    + apply okr_nan; try assumption. left. apply decode_nan_word; lia.
  - destruct (Z.eqb_spec e' (2 ^ E - 1)) as [EY|EY].
    + subst e'. rewrite (decode_special E F HE HF t g Hg). destruct (Z.eqb_spec g 0) as [G0|G0]; cbn [negb].
      * rewrite lor_zero by lia. destruct ((e =? 0) && (f =? 0)) eqn:Z0.
        -- rewrite (decode_fin_zero s) by (assumption || lia). apply okr_default; assumption.
        -- destruct (decode_fin_num s e f ltac:(lia) Hf Z0) as (m & q & ->). apply okr_inf; assumption.
      * replace (mul754 E F (decode754 E F (word E F s e f)) NaN) with NaN by (now destruct (decode754 E F (word E F s e f))).
        apply okr_nan; try assumption. right. apply decode_nan_word; lia.
    + destruct ((e =? 0) && (f =? 0)) eqn:Z0.
      { rewrite (decode_fin_zero s) by (assumption || lia).
        destruct ((e' =? 0) && (g =? 0)) eqn:Z1.
        - rewrite (decode_fin_zero t) by (assumption || lia). apply okr_zero; assumption.
        - destruct (decode_fin_num t e' g ltac:(lia) Hg Z1) as (m & q & ->). apply okr_zero; assumption. }
      destruct (norm_operand s e f ltac:(lia) Hf Z0) as (xa & ya & Na & Ba & Xa & ma & qa & Da & Pa & Qa & Va).
      rewrite Na. cbn [bind].
      destruct ((e' =? 0) && (g =? 0)) eqn:Z1.
      { rewrite (decode_fin_zero t) by (assumption || lia). rewrite Da. apply okr_zero; assumption. }
      destruct (norm_operand t e' g ltac:(lia) Hg Z1) as (xb & yb & Nb & Bb & Xb & mb & qb & Db & Pb & Qb & Vb).
      rewrite Nb. cbn [bind fst snd]. rewrite Da, Db. unfold mul754. cbn [mul_gen].
      replace (2 ^ (E - 1) - 1) with (bias E) by reflexivity.
      rewrite i16_ok by (change (2 ^ 15) with 32768; lia). cbn [bind].
      rewrite Hms by assumption. cbn [bind].
      remember (Z.lor ya (2 ^ F)) as A eqn:EA. remember (Z.lor yb (2 ^ F)) as B eqn:EBB.
      rewrite <- HW.
      assert (HA0 : 0 < A * B) by (apply Z.mul_pos_pos; lia).
      assert (AB1 : 2 ^ F * 2 ^ F <= A * B) by (apply Z.mul_le_mono_nonneg; lia).
      assert (AB2 : A * B < 2 ^ (F + 1) * 2 ^ (F + 1)) by (apply Z.mul_lt_mono_nonneg; lia).
      rewrite <- pow2_add in AB1, AB2 by lia.
      remember (A * B * 2 ^ (2 * E - 1)) as n eqn:En.
      pose proof (pow2_pos (2 * E - 1) ltac:(lia)) as PE2. pose proof (pow2_pos W ltac:(lia)) as PW.
      assert (N1 : 2 ^ (W - 3) * 2 ^ W <= n).
      { rewrite <- pow2_add by lia. replace (W - 3 + W) with (F + F + (2 * E - 1)) by lia. rewrite pow2_add by lia. rewrite En.
        apply Z.mul_le_mono_nonneg_r; lia. }
      assert (N2 : n < 2 ^ (W - 1) * 2 ^ W).
      { rewrite <- pow2_add by lia. replace (W - 1 + W) with (F + 1 + (F + 1) + (2 * E - 1)) by lia. rewrite pow2_add by lia. rewrite En.
        apply Z.mul_lt_mono_pos_r; lia. }
      assert (Hn : 0 < n) by (rewrite En; apply Z.mul_pos_pos; lia).
      assert (Hval : round754 E F (xorb s t) (ma * mb) 1 (qa + qb) =
        round754 E F (xorb s t) n (2 ^ W) (xa + xb - bias E + 1 - bias E - (W - 2))).
      { apply round754_same; try lia.
        apply (samev_trans _ _ _ (A * B) 1 (qa + qb - (qa - (xa - bias E - F) + (qb - (xb - bias E - F))))); [lia| |].
        - replace (A * B) with (ma * mb * 2 ^ (qa - (xa - bias E - F) + (qb - (xb - bias E - F)))).
          + apply samev_num. lia.
          + rewrite Va, Vb, pow2_add by lia. ring.
        - replace (qa + qb - (qa - (xa - bias E - F) + (qb - (xb - bias E - F)))) with (xa + xb - 2 * bias E - 2 * F) by lia.
          apply (samev_trans _ _ _ n 1 (xa + xb - 2 * bias E - 2 * F - (2 * E - 1))); [lia|rewrite En; apply samev_num; lia|].
          pose proof (samev_den n 1 (xa + xb - 2 * bias E - 2 * F - (2 * E - 1)) W ltac:(lia)) as S. rewrite Z.mul_1_l in S.
          replace (xa + xb - bias E + 1 - bias E - (W - 2)) with (xa + xb - 2 * bias E - 2 * F - (2 * E - 1) + W) by lia. exact S. }
      rewrite Hval. clear Hval Va Vb Na Nb Da Db En EA EBB AB1 AB2 HA0 Ba Bb Qa Qb Pa Pb Z0 Z1.
      assert (J1 : 2 ^ (W - 3) <= jam n (2 ^ W)) by (apply jam_ge; lia).
      assert (J2 : jam n (2 ^ W) < 2 ^ (W - 1)) by (apply jam_lt; [lia|lia|apply even_pow2; lia|lia]).
      assert (W2 : 2 ^ (W - 2) = 2 * 2 ^ (W - 3)) by (rewrite <- pow2_S by lia; f_equal; lia).
      assert (W1 : 2 ^ (W - 1) = 2 * 2 ^ (W - 2)) by (rewrite <- pow2_S by lia; f_equal; lia).
      assert (W0 : 2 ^ W = 2 * 2 ^ (W - 1)) by (rewrite <- pow2_S by lia; f_equal; lia).
      pose proof (pow2_pos (W - 3) ltac:(lia)) as PW3.
      destruct (Z.ltb_spec (jam n (2 ^ W)) (2 ^ (W - 2))) as [L|L].
      * rewrite ushl_ok by lia. cbn [bind].
        destruct (roundPack_ok E F U C W HW ltac:(lia) HF HU HC Hpow (xorb s t) (xa + xb - bias E - 1) (jam n (2 ^ W) * 2 ^ 1) n (2 ^ W) 1) as (r & R1 & R2 & R3); try lia.
        exists r. split; [exact R1|]. split; [exact R2|]. rewrite R3. f_equal. lia.
      * destruct (roundPack_ok E F U C W HW ltac:(lia) HF HU HC Hpow (xorb s t) (xa + xb - bias E) (jam n (2 ^ W)) n (2 ^ W) 0) as (r & R1 & R2 & R3); try lia.
        exists r. split; [exact R1|]. split; [exact R2|]. rewrite R3. f_equal. lia.
Qed.
End Mul.

Lemma jam_bits p k : 0 <= k -> Z.lor (Z.shiftr p k) (Z.b2z (negb (Z.land p (2 ^ k - 1) =? 0))) = jam p (2 ^ k).
Proof. intros Hk. unfold jam. rewrite land_low, Z.shiftr_div_pow2 by lia. reflexivity. Qed.

Lemma f32_mulsig_ok U a b : 32 <= U -> 2 ^ 23 <= a < 2 ^ (23 + 1) -> 2 ^ 23 <= b < 2 ^ (23 + 1) ->
  f32_mulsig U a b = Some (jam (a * b * 2 ^ (2 * 8 - 1)) (2 ^ 32)).
Proof.
  intros HU Ha Hb. unfold f32_mulsig. change (23 + 1) with 24 in *. change (2 * 8 - 1) with 15.
  replace (a <? 2 ^ 24) with true by (symmetry; apply Z.ltb_lt; lia).
  replace (b <? 2 ^ 24) with true by (symmetry; apply Z.ltb_lt; lia). cbn [assert_ bind].
  assert (AB : 0 < a * b < 2 ^ 48).
  { split; [apply Z.mul_pos_pos; lia|]. change (2 ^ 48) with (2 ^ 24 * 2 ^ 24). apply Z.mul_lt_mono_nonneg; lia. }
  unfold uw. rewrite (Z.mod_small (a * b)) by (change (2 ^ 48) with 281474976710656 in AB; change (2 ^ 64) with 18446744073709551616; lia).
  rewrite ushl_ok.
  2: lia.
  2: { change (2 ^ 48) with 281474976710656 in AB. change (2 ^ 15) with 32768. change (2 ^ 64) with 18446744073709551616. lia. }
  cbn [bind]. unfold shortShiftRightJam64. rewrite jam_bits by lia. rewrite Z.mod_small; [reflexivity|].
  split; [apply jam_nonneg; [change (2 ^ 15) with 32768; lia|reflexivity]|].
  apply Z.lt_le_trans with (2 ^ 32); [|apply pow2_le; lia].
  apply jam_lt; [change (2 ^ 15) with 32768; lia|reflexivity|reflexivity|].
  change (2 ^ 48) with 281474976710656 in AB. change (2 ^ 15) with 32768. change (2 ^ 32) with 4294967296. lia.
Qed.

Lemma f64_mulsig_ok a b : 2 ^ 52 <= a < 2 ^ (52 + 1) -> 2 ^ 52 <= b < 2 ^ (52 + 1) ->
  f64_mulsig a b = Some (jam (a * b * 2 ^ (2 * 11 - 1)) (2 ^ 64)).
Proof.
  intros Ha Hb. change (52 + 1) with 53 in *. change (2 * 11 - 1) with 21. unfold f64_mulsig.
  change (2 ^ 52) with 4503599627370496 in *. change (2 ^ 53) with 9007199254740992 in *.
  rewrite !ushl_ok by (try change (2 ^ 10) with 1024; try change (2 ^ 11) with 2048; change (2 ^ 64) with 18446744073709551616; lia).
  cbn [bind]. change (2 ^ 10) with 1024. change (2 ^ 11) with 2048. change (2 ^ 21) with 2097152.
  replace (a * 1024 * (b * 2048)) with (a * b * 2097152) by ring.
  assert (AB : 0 < a * b < 9007199254740992 * 9007199254740992) by (split; [apply Z.mul_pos_pos; lia|apply Z.mul_lt_mono_nonneg; lia]).
  assert (AB2 : 0 < a * b * 2097152 < 2 ^ 128) by (change (2 ^ 128) with (9007199254740992 * 9007199254740992 * 4194304); lia).
  remember (a * b * 2097152) as p eqn:Ep. clear Ep AB Ha Hb.
  unfold uw. rewrite (Z.mod_small p) by lia. rewrite !Z.shiftr_div_pow2 by lia.
  rewrite Z.shiftl_mul_pow2 by lia. rewrite lor_join by (try apply Z.mod_pos_bound; lia).
  change (32 * 3) with 96. change (32 * 2) with 64. change (32 * 1) with 32. change (32 * 0) with 0.
  rewrite Z.pow_0_r, Z.div_1_r.
  assert (HQ : (p / 2 ^ 96) mod 2 ^ 32 * 2 ^ 32 + (p / 2 ^ 64) mod 2 ^ 32 = p / 2 ^ 64).
  { replace (p / 2 ^ 96) with (p / 2 ^ 64 / 2 ^ 32) by (rewrite Z.div_div by lia; reflexivity).
    assert (0 <= p / 2 ^ 64 < 2 ^ 64) by (split; [apply Z.div_pos; lia|apply Z.div_lt_upper_bound; [lia|change (2 ^ 64 * 2 ^ 64) with (2 ^ 128); lia]]).
    rewrite (Z.mod_small (p / 2 ^ 64 / 2 ^ 32)).
    - pose proof (Z.div_mod (p / 2 ^ 64) (2 ^ 32) ltac:(lia)). lia.
    - split; [apply Z.div_pos; lia|apply Z.div_lt_upper_bound; [lia|change (2 ^ 32 * 2 ^ 32) with (2 ^ 64); lia]]. }
  rewrite HQ. unfold jam.
  assert (HR : p mod 2 ^ 64 = 2 ^ 32 * ((p / 2 ^ 32) mod 2 ^ 32) + p mod 2 ^ 32).
  { change (2 ^ 64) with (2 ^ 32 * 2 ^ 32). rewrite Z.rem_mul_r by lia. lia. }
  rewrite HR. pose proof (Z.mod_pos_bound p (2 ^ 32) ltac:(lia)) as B0. pose proof (Z.mod_pos_bound (p / 2 ^ 32) (2 ^ 32) ltac:(lia)) as B1.
  destruct (Z.eqb_spec ((p / 2 ^ 32) mod 2 ^ 32) 0) as [Z1|Z1], (Z.eqb_spec (p mod 2 ^ 32) 0) as [Z2|Z2]; cbn [negb orb].
  - rewrite Z1, Z2. cbn [Z.mul Z.add Z.eqb negb Z.b2z]. now rewrite Z.lor_0_r.
  - rewrite Z1. replace (2 ^ 32 * 0 + p mod 2 ^ 32 =? 0) with false by (symmetry; apply Z.eqb_neq; lia). reflexivity.
  - replace (2 ^ 32 * ((p / 2 ^ 32) mod 2 ^ 32) + p mod 2 ^ 32 =? 0) with false by (symmetry; apply Z.eqb_neq; lia). reflexivity.
  - replace (2 ^ 32 * ((p / 2 ^ 32) mod 2 ^ 32) + p mod 2 ^ 32 =? 0) with false by (symmetry; apply Z.eqb_neq; lia). reflexivity.
Qed.
