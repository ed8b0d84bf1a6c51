(** The 64-bit pair of FwPair.v read as the number hi * 2^64 + lo. *)
From Coq Require Import ZArith Bool Lia.
From Verif Require Import Fw FwLemmas FwPair FwWordProofs.
Open Scope Z_scope.

Definition pval (p : pair128) : Z := hi p * 2 ^ 64 + lo p.

Lemma u64_bound x : 0 <= u64 x < 2 ^ 64.
Proof. apply mod_pow_bound. lia. Qed.
Lemma pval_bound p : okp p -> 0 <= pval p < 2 ^ 128.
Proof. intros [H1 H2]. unfold pval. apply (join_bound (hi p) (lo p) 64 64); lia. Qed.
Lemma mod128 x h l : 0 <= h < 2 ^ 64 -> 0 <= l < 2 ^ 64 -> (exists k, x = k * 2 ^ 128 + (h * 2 ^ 64 + l)) ->
  h * 2 ^ 64 + l = x mod 2 ^ 128.
Proof.
  intros Hh Hl [k ->]. pose proof (join_bound h l 64 64 ltac:(lia) ltac:(lia) Hh Hl) as B. change (64 + 64) with 128 in B.
  apply Z.mod_unique_pos with k; lia.
Qed.
Lemma u64_split x : exists k, x = k * 2 ^ 64 + u64 x.
Proof. exists (x / 2 ^ 64). unfold u64. pose proof (Z.div_mod x (2 ^ 64) ltac:(lia)). lia. Qed.

Lemma p_add_ok a b : okp a -> okp b -> okp (p_add a b) /\ pval (p_add a b) = (pval a + pval b) mod 2 ^ 128.
Proof.
  intros [A1 A2] [B1 B2]. unfold p_add. set (c := Z.b2z _). split; [split; cbn [hi lo]; apply u64_bound|].
  unfold pval at 1. cbn [hi lo]. apply mod128; try apply u64_bound.
  destruct (u64_split (hi a + hi b + c)) as [k Ek]. exists k. unfold pval. change (2 ^ 128) with (2 ^ 64 * 2 ^ 64).
  assert (Ec : lo a + lo b = c * 2 ^ 64 + u64 (lo a + lo b)).
  { unfold c. pose proof (u64_bound (lo a + lo b)). destruct (u64_split (lo a + lo b)) as [j Ej].
    destruct (Z.ltb_spec (u64 (lo a + lo b)) (lo a)); cbn [Z.b2z]; nia. }
  remember (u64 (hi a + hi b + c)) as H. remember (u64 (lo a + lo b)) as L. clearbody c.
  replace (hi a * 2 ^ 64 + lo a + (hi b * 2 ^ 64 + lo b)) with ((hi a + hi b + c) * 2 ^ 64 + L) by lia.
  rewrite Ek. lia.
Qed.
Lemma p_sub_ok a b : okp a -> okp b -> okp (p_sub a b) /\ pval (p_sub a b) = (pval a - pval b) mod 2 ^ 128.
Proof.
  intros [A1 A2] [B1 B2]. unfold p_sub. set (c := Z.b2z _). split; [split; cbn [hi lo]; apply u64_bound|].
  unfold pval at 1. cbn [hi lo]. apply mod128; try apply u64_bound.
  destruct (u64_split (hi a - hi b - c)) as [k Ek]. exists k. unfold pval. change (2 ^ 128) with (2 ^ 64 * 2 ^ 64).
  assert (Ec : lo a - lo b = - c * 2 ^ 64 + u64 (lo a - lo b)).
  { unfold c. pose proof (u64_bound (lo a - lo b)). destruct (u64_split (lo a - lo b)) as [j Ej].
    destruct (Z.ltb_spec (lo a) (u64 (lo a - lo b))); cbn [Z.b2z]; nia. }
  remember (u64 (hi a - hi b - c)) as H. remember (u64 (lo a - lo b)) as L. clearbody c.
  replace (hi a * 2 ^ 64 + lo a - (hi b * 2 ^ 64 + lo b)) with ((hi a - hi b - c) * 2 ^ 64 + L) by lia.
  rewrite Ek. lia.
Qed.

Lemma testbit_join h l k i : 0 <= k -> 0 <= l < 2 ^ k -> 0 <= i ->
  Z.testbit (h * 2 ^ k + l) i = if i <? k then Z.testbit l i else Z.testbit h (i - k).
Proof.
  intros Hk Hl Hi. rewrite <- lor_join by lia. rewrite Z.lor_spec, Z.shiftl_spec by lia.
  destruct (Z.ltb_spec i k).
  - rewrite Z.testbit_neg_r by lia. reflexivity.
  - rewrite (testbit_small k l i) by lia. apply orb_false_r.
Qed.
Lemma p_or_ok a b : okp a -> okp b -> okp (p_or a b) /\ pval (p_or a b) = Z.lor (pval a) (pval b).
Proof.
  intros [A1 A2] [B1 B2]. assert (K : okp (p_or a b)) by (split; cbn [p_or hi lo]; apply lor_wf; lia).
  split; [exact K|]. destruct K as [K1 K2]. apply Z.bits_inj'. intros i Hi. unfold pval.
  rewrite Z.lor_spec, !testbit_join by (assumption || lia). cbn [p_or hi lo]. rewrite !Z.lor_spec. destruct (i <? 64); reflexivity.
Qed.
Lemma p_and_ok a b : okp a -> okp b -> okp (p_and a b) /\ pval (p_and a b) = Z.land (pval a) (pval b).
Proof.
  intros [A1 A2] [B1 B2]. assert (K : okp (p_and a b)) by (split; cbn [p_and hi lo]; apply land_wf; lia).
  split; [exact K|]. destruct K as [K1 K2]. apply Z.bits_inj'. intros i Hi. unfold pval.
  rewrite Z.land_spec, !testbit_join by (assumption || lia). cbn [p_and hi lo]. rewrite !Z.land_spec. destruct (i <? 64); reflexivity.
Qed.
Lemma p_xor_ok a b : okp a -> okp b -> okp (p_xor a b) /\ pval (p_xor a b) = Z.lxor (pval a) (pval b).
Proof.
  intros [A1 A2] [B1 B2]. assert (K : okp (p_xor a b)) by (split; cbn [p_xor hi lo]; apply lxor_wf; lia).
  split; [exact K|]. destruct K as [K1 K2]. apply Z.bits_inj'. intros i Hi. unfold pval.
  rewrite Z.lxor_spec, !testbit_join by (assumption || lia). cbn [p_xor hi lo]. rewrite !Z.lxor_spec. destruct (i <? 64); reflexivity.
Qed.

Lemma u64_shiftl_low x s : 0 <= s <= 64 -> u64 (Z.shiftl x (64 - s)) = x mod 2 ^ s * 2 ^ (64 - s).
Proof.
  intros. unfold u64. rewrite Z.shiftl_mul_pow2 by lia. replace (2 ^ 64) with (2 ^ s * 2 ^ (64 - s))
    by (rewrite <- pow2_add by lia; f_equal; lia).
  pose proof (pow2_pos s ltac:(lia)). pose proof (pow2_pos (64 - s) ltac:(lia)). apply Z.mul_mod_distr_r; lia.
Qed.
Lemma p_shr_ok a s : okp a -> 0 <= s < 128 -> okp (p_shr a s) /\ pval (p_shr a s) = pval a / 2 ^ s.
Proof.
  intros [A1 A2] Hs. unfold p_shr. destruct (Z.eqb_spec s 0) as [->|N].
  { rewrite Z.pow_0_r, Z.div_1_r. split; [split; assumption|reflexivity]. }
  pose proof (pow2_pos s ltac:(lia)) as Hp.
  destruct (Z.ltb_spec s 64) as [L|L].
  - pose proof (pow2_pos (64 - s) ltac:(lia)) as Hq.
    assert (P : 2 ^ 64 = 2 ^ s * 2 ^ (64 - s)) by (rewrite <- pow2_add by lia; f_equal; lia).
    assert (E : Z.lor (Z.shiftr (lo a) s) (u64 (Z.shiftl (hi a) (64 - s))) = (hi a mod 2 ^ s) * 2 ^ (64 - s) + lo a / 2 ^ s).
    { rewrite Z.lor_comm, u64_shiftl_low by lia. rewrite <- Z.shiftl_mul_pow2 by lia.
      rewrite Z.shiftr_div_pow2 by lia. rewrite lor_join; [|lia|]. 1: rewrite Z.shiftl_mul_pow2 by lia; reflexivity.
      apply div_pow_lt; try lia. replace (s + (64 - s)) with 64 by lia. lia. }
    rewrite E.
    assert (B1 : 0 <= lo a / 2 ^ s < 2 ^ (64 - s)) by (apply div_pow_lt; try lia; replace (s + (64 - s)) with 64 by lia; lia).
    pose proof (mod_pow_bound (hi a) s ltac:(lia)) as B2.
    pose proof (join_bound_w (hi a mod 2 ^ s) (lo a / 2 ^ s) s (64 - s) 64 ltac:(lia) ltac:(lia) B2 B1 ltac:(lia)) as B3.
    split; [split; cbn [hi lo]; [apply shiftr_wf; lia|exact B3]|].
    unfold pval. cbn [hi lo]. rewrite Z.shiftr_div_pow2 by lia. rewrite P.
    pose proof (Z.div_mod (hi a) (2 ^ s) ltac:(lia)) as Hd.
    replace (hi a * (2 ^ s * 2 ^ (64 - s)) + lo a) with ((hi a * 2 ^ (64 - s)) * 2 ^ s + lo a) by lia.
    rewrite Z.div_add_l by lia. rewrite Hd at 3. lia.
  - replace (2 ^ s) with (2 ^ 64 * 2 ^ (s - 64)) by (rewrite <- pow2_add by lia; f_equal; lia).
    pose proof (pow2_pos (s - 64) ltac:(lia)).
    split; [split; cbn [hi lo]; [lia|apply shiftr_wf; lia]|].
    unfold pval. cbn [hi lo]. rewrite <- Z.div_div by lia. rewrite Z.div_add_l by lia.
    rewrite (Z.div_small (lo a)) by lia. rewrite Z.shiftr_div_pow2 by lia. rewrite Z.add_0_r. lia.
Qed.
Lemma p_shl_ok a s : okp a -> 0 <= s < 128 -> okp (p_shl a s) /\ pval (p_shl a s) = (pval a * 2 ^ s) mod 2 ^ 128.
Proof.
  intros [A1 A2] Hs. unfold p_shl. destruct (Z.eqb_spec s 0) as [->|N].
  { rewrite Z.pow_0_r, Z.mul_1_r. split; [split; assumption|]. symmetry. apply Z.mod_small. apply pval_bound. split; assumption. }
  destruct (Z.ltb_spec s 64) as [L|L].
  - pose proof (pow2_pos s ltac:(lia)) as Hp. pose proof (pow2_pos (64 - s) ltac:(lia)) as Hq.
    assert (P : 2 ^ 64 = 2 ^ (64 - s) * 2 ^ s) by (rewrite <- pow2_add by lia; f_equal; lia).
    assert (B1 : 0 <= lo a / 2 ^ (64 - s) < 2 ^ s) by (apply div_pow_lt; try lia; replace (64 - s + s) with 64 by lia; lia).
    assert (Eh : u64 (Z.shiftl (hi a) s) = hi a mod 2 ^ (64 - s) * 2 ^ s).
    { replace s with (64 - (64 - s)) at 1 by lia. rewrite u64_shiftl_low by lia. do 2 f_equal. lia. }
    assert (El : u64 (Z.shiftl (lo a) s) = lo a mod 2 ^ (64 - s) * 2 ^ s).
    { replace s with (64 - (64 - s)) at 1 by lia. rewrite u64_shiftl_low by lia. do 2 f_equal. lia. }
    assert (E : Z.lor (u64 (Z.shiftl (hi a) s)) (Z.shiftr (lo a) (64 - s)) = hi a mod 2 ^ (64 - s) * 2 ^ s + lo a / 2 ^ (64 - s)).
    { rewrite Eh. rewrite <- Z.shiftl_mul_pow2 by lia. rewrite Z.shiftr_div_pow2 by lia. rewrite lor_join by lia. rewrite Z.shiftl_mul_pow2 by lia. reflexivity. }
    rewrite E.
    pose proof (mod_pow_bound (hi a) (64 - s) ltac:(lia)) as B2.
    pose proof (join_bound_w (hi a mod 2 ^ (64 - s)) (lo a / 2 ^ (64 - s)) (64 - s) s 64 ltac:(lia) ltac:(lia) B2 B1 ltac:(lia)) as B3.
    split; [split; cbn [hi lo]; [exact B3|apply u64_bound]|].
    unfold pval at 1. cbn [hi lo]. apply mod128; [exact B3|apply u64_bound|].
    exists (hi a / 2 ^ (64 - s)). rewrite El. unfold pval. change (2 ^ 128) with (2 ^ 64 * 2 ^ 64).
    pose proof (Z.div_mod (hi a) (2 ^ (64 - s)) ltac:(lia)) as Hd. pose proof (Z.div_mod (lo a) (2 ^ (64 - s)) ltac:(lia)) as Hd2.
    remember (hi a / 2 ^ (64 - s)) as q1. remember (hi a mod 2 ^ (64 - s)) as r1.
    remember (lo a / 2 ^ (64 - s)) as q2. remember (lo a mod 2 ^ (64 - s)) as r2.
    rewrite Hd, Hd2. rewrite P. ring.
  - assert (P : 2 ^ s = 2 ^ (s - 64) * 2 ^ 64) by (rewrite <- pow2_add by lia; f_equal; lia).
    split; [split; cbn [hi lo]; [apply u64_bound|lia]|].
    unfold pval at 1. cbn [hi lo]. apply mod128; [apply u64_bound|lia|].
    destruct (u64_split (Z.shiftl (lo a) (s - 64))) as [k Ek]. exists (hi a * 2 ^ (s - 64) + k).
    rewrite Z.shiftl_mul_pow2 in * by lia. unfold pval. change (2 ^ 128) with (2 ^ 64 * 2 ^ 64). rewrite P.
    replace ((hi a * 2 ^ 64 + lo a) * (2 ^ (s - 64) * 2 ^ 64)) with (hi a * 2 ^ (s - 64) * (2 ^ 64 * 2 ^ 64) + lo a * 2 ^ (s - 64) * 2 ^ 64) by ring.
    rewrite Ek at 1. ring.
Qed.

Lemma pval_lt a b : okp a -> okp b -> (pval a < pval b <-> hi a < hi b \/ hi a = hi b /\ lo a < lo b).
Proof. intros [A1 A2] [B1 B2]. unfold pval. lia. Qed.
Lemma pval_eq a b : okp a -> okp b -> (pval a = pval b <-> hi a = hi b /\ lo a = lo b).
Proof. intros [A1 A2] [B1 B2]. unfold pval. lia. Qed.
Lemma p_cmp_ok a b : okp a -> okp b ->
  p_eq a b = (pval a =? pval b) /\ p_lt a b = (pval a <? pval b) /\ p_le a b = (pval a <=? pval b) /\
  p_gt a b = (pval b <? pval a) /\ p_ge a b = (pval b <=? pval a).
Proof.
  intros A B. pose proof (pval_lt a b A B). pose proof (pval_lt b a B A). pose proof (pval_eq a b A B).
  assert (R : forall c (x y : Z), (c = true <-> x < y) -> c = (x <? y)).
  { intros c x y Hc. destruct c, (Z.ltb_spec x y); try reflexivity; [|apply Hc]; lia. }
  assert (R2 : forall c (x y : Z), (c = true <-> x <= y) -> c = (x <=? y)).
  { intros c x y Hc. destruct c, (Z.leb_spec x y); try reflexivity; [|apply Hc]; lia. }
  assert (R3 : p_eq a b = (pval a =? pval b)).
  { unfold p_eq. destruct (Z.eqb_spec (lo a) (lo b)), (Z.eqb_spec (hi a) (hi b)), (Z.eqb_spec (pval a) (pval b)); cbn [andb]; lia. }
  split; [exact R3|]. clear R3. unfold p_lt, p_le, p_gt, p_ge. repeat split; (apply R || apply R2); clear R R2;
    destruct (Z.ltb_spec (hi a) (hi b)), (Z.ltb_spec (hi b) (hi a)); rewrite ?Z.ltb_lt, ?Z.leb_le; lia.
Qed.

Lemma p_mask_ok W : 65 <= W <= 128 -> okp (p_mask W) /\ pval (p_mask W) = 2 ^ W - 1.
Proof.
  intros H. unfold p_mask. assert (O0 : okp (p_int 0)) by (vm_compute; intuition discriminate).
  assert (O1 : okp (p_int 1)) by (vm_compute; intuition discriminate).
  destruct (p_sub_ok _ _ O0 O1) as [Os Es]. destruct (p_shr_ok _ (128 - W) Os ltac:(lia)) as [Om Em].
  split; [exact Om|]. rewrite Em, Es. change ((pval (p_int 0) - pval (p_int 1)) mod 2 ^ 128) with (2 ^ 128 - 1).
  replace (2 ^ 128) with (2 ^ (128 - W) * 2 ^ W) by (rewrite <- pow2_add by lia; f_equal; lia).
  pose proof (pow2_pos (128 - W) ltac:(lia)). pose proof (pow2_pos W ltac:(lia)).
  symmetry. apply Z.div_unique with (2 ^ (128 - W) - 1); lia.
Qed.

(** ** Multiplication: right as long as no product of two 32-bit limbs overflows 32 bits. *)
Definition fits (a b : Z) : Prop :=
  (a mod 2 ^ 32) * (b mod 2 ^ 32) < 2 ^ 32 /\ (a / 2 ^ 32) * (b mod 2 ^ 32) < 2 ^ 32 /\
  (a mod 2 ^ 32) * (b / 2 ^ 32) < 2 ^ 32 /\ (a / 2 ^ 32) * (b / 2 ^ 32) < 2 ^ 32.

Lemma m32_ok a b : u32 a * u32 b < 2 ^ 32 -> okp (m32 a b) /\ pval (m32 a b) = u32 a * u32 b.
Proof.
  intros H. pose proof (mod_pow_bound a 32 ltac:(lia)) as Ha. pose proof (mod_pow_bound b 32 ltac:(lia)) as Hb.
  fold (u32 a) in Ha. fold (u32 b) in Hb. pose proof (Z.mul_nonneg_nonneg (u32 a) (u32 b) ltac:(lia) ltac:(lia)).
  assert (E : u32 (u32 a * u32 b) = u32 a * u32 b) by (apply Z.mod_small; lia).
  unfold m32, pval, okp. cbn [hi lo]. rewrite E. lia.
Qed.
Lemma u32_hi a : 0 <= a < 2 ^ 64 -> u32 (Z.shiftr a 32) = a / 2 ^ 32.
Proof. intros. unfold u32. rewrite Z.shiftr_div_pow2 by lia. apply Z.mod_small. apply (div_pow_lt a 32 32); lia. Qed.
Lemma mod_sum4 M p q r t : (((p + q mod M) mod M + r mod M) mod M + t mod M) mod M = (p + q + r + t) mod M.
Proof.
  rewrite Zplus_mod_idemp_l, Zplus_mod_idemp_r, <- Z.add_assoc, Zplus_mod_idemp_l.
  replace (p + q mod M + (r mod M + t)) with (p + t + q mod M + r mod M) by lia. rewrite Zplus_mod_idemp_r.
  replace (p + t + q mod M + r) with (p + t + r + q mod M) by lia. rewrite Zplus_mod_idemp_r. f_equal. lia.
Qed.
Lemma mod_sum3 M p q r : ((p + q mod M) mod M + r mod M) mod M = (p + q + r) mod M.
Proof.
  rewrite Zplus_mod_idemp_l, Zplus_mod_idemp_r.
  replace (p + q mod M + r) with (p + r + q mod M) by lia. rewrite Zplus_mod_idemp_r. f_equal. lia.
Qed.
Lemma m64_ok a b : 0 <= a < 2 ^ 64 -> 0 <= b < 2 ^ 64 -> fits a b -> okp (m64 a b) /\ pval (m64 a b) = a * b.
Proof.
  intros Ha Hb (F1 & F2 & F3 & F4). unfold m64.
  destruct (m32_ok a b F1) as [O1 E1].
  destruct (m32_ok (Z.shiftr a 32) b) as [O2 E2]; [rewrite u32_hi by lia; exact F2|].
  destruct (m32_ok a (Z.shiftr b 32)) as [O3 E3]; [rewrite u32_hi by lia; exact F3|].
  destruct (m32_ok (Z.shiftr a 32) (Z.shiftr b 32)) as [O4 E4]; [rewrite !u32_hi by lia; exact F4|].
  rewrite !u32_hi in * by lia.
  destruct (p_shl_ok _ 32 O2 ltac:(lia)) as [O5 E5]. destruct (p_shl_ok _ 32 O3 ltac:(lia)) as [O6 E6].
  destruct (p_shl_ok _ 64 O4 ltac:(lia)) as [O7 E7].
  destruct (p_add_ok _ _ O1 O5) as [O8 E8]. destruct (p_add_ok _ _ O8 O6) as [O9 E9]. destruct (p_add_ok _ _ O9 O7) as [O10 E10].
  split; [exact O10|]. rewrite E10, E9, E8, E7, E6, E5, E4, E3, E2, E1.
  unfold u32.
  pose proof (Z.div_mod a (2 ^ 32) ltac:(lia)) as Da. pose proof (Z.div_mod b (2 ^ 32) ltac:(lia)) as Db.
  rewrite mod_sum4.
  remember (a / 2 ^ 32) as ah. remember (a mod 2 ^ 32) as al. remember (b / 2 ^ 32) as bh. remember (b mod 2 ^ 32) as bl.
  replace (al * bl + ah * bl * 2 ^ 32 + al * bh * 2 ^ 32 + ah * bh * 2 ^ 64) with (a * b)
    by (rewrite Da, Db; change (2 ^ 64) with (2 ^ 32 * 2 ^ 32); ring).
  apply Z.mod_small. pose proof (Z.mul_nonneg_nonneg a b ltac:(lia) ltac:(lia)).
  change (2 ^ 128) with (2 ^ 64 * 2 ^ 64). split; [lia|]. apply Z.mul_lt_mono_nonneg; lia.
Qed.
Lemma p_mul_ok a b : okp a -> okp b -> fits (lo a) (lo b) -> fits (lo a) (hi b) -> fits (hi a) (lo b) ->
  okp (p_mul a b) /\ pval (p_mul a b) = (pval a * pval b) mod 2 ^ 128.
Proof.
  intros [A1 A2] [B1 B2] F1 F2 F3. unfold p_mul.
  destruct (m64_ok _ _ A2 B2 F1) as [O1 E1]. destruct (m64_ok _ _ A2 B1 F2) as [O2 E2]. destruct (m64_ok _ _ A1 B2 F3) as [O3 E3].
  destruct (p_shl_ok _ 64 O2 ltac:(lia)) as [O5 E5]. destruct (p_shl_ok _ 64 O3 ltac:(lia)) as [O6 E6].
  destruct (p_add_ok _ _ O1 O5) as [O8 E8]. destruct (p_add_ok _ _ O8 O6) as [O9 E9].
  split; [exact O9|]. rewrite E9, E8, E6, E5, E3, E2, E1.
  rewrite mod_sum3.
  unfold pval.
  replace ((hi a * 2 ^ 64 + lo a) * (hi b * 2 ^ 64 + lo b)) with
    (lo a * lo b + lo a * hi b * 2 ^ 64 + hi a * lo b * 2 ^ 64 + (hi a * hi b) * 2 ^ 128)
    by (change (2 ^ 128) with (2 ^ 64 * 2 ^ 64); ring).
  rewrite Z.mod_add by lia. reflexivity.
Qed.
(** Multiplication by anything is lost as soon as the low limbs' product reaches 2^32: its upper
    half is dropped. *)
Lemma p_mul_small a b : 0 <= a < 2 ^ 32 -> 0 <= b < 2 ^ 32 -> p_mul (mk 0 a) (mk 0 b) = mk 0 ((a * b) mod 2 ^ 32).
Proof.
  intros Ha Hb. unfold p_mul, m64, m32. cbn [hi lo].
  rewrite !Z.shiftr_div_pow2 by lia. rewrite !(Z.div_small a), !(Z.div_small b) by lia. change (0 / 2 ^ 32) with 0.
  assert (E : forall x, u32 0 * x = 0) by (intros; reflexivity).
  rewrite !E. rewrite !(Z.mul_comm _ (u32 0)), !E. change (u32 0) with 0.
  change (p_shl (mk 0 0) 32) with (mk 0 0). change (p_shl (mk 0 0) 64) with (mk 0 0).
  assert (Ea : forall h l, 0 <= h < 2 ^ 64 -> 0 <= l < 2 ^ 64 -> p_add (mk h l) (mk 0 0) = mk h l).
  { intros h l Hh Hl. unfold p_add. cbn [hi lo]. rewrite !Z.add_0_r. unfold u64. rewrite (Z.mod_small l) by lia.
    rewrite Z.ltb_irrefl. cbn [Z.b2z]. rewrite Z.add_0_r, Z.mod_small by lia. reflexivity. }
  assert (B : 0 <= u32 (u32 a * u32 b) < 2 ^ 64).
  { pose proof (mod_pow_bound (u32 a * u32 b) 32 ltac:(lia)). unfold u32 at 1 4. lia. }
  rewrite !Ea by lia. change (p_shl (mk 0 0) 64) with (mk 0 0). rewrite ?Ea by lia.
  unfold u32. rewrite (Z.mod_small a), (Z.mod_small b) by lia. reflexivity.
Qed.
Lemma p_mul_not_ok : ~ (forall a b, okp a -> okp b -> pval (p_mul a b) = (pval a * pval b) mod 2 ^ 128).
Proof.
  intros H. specialize (H (mk 0 65536) (mk 0 65536)).
  assert (O : okp (mk 0 65536)) by (vm_compute; intuition congruence). specialize (H O O). vm_compute in H. discriminate.
Qed.
