(** SoftFloat's integer primitives: counting leading zeros, sums, differences, products, comparisons. *)
From Coq Require Import ZArith Bool List Lia.
From Verif Require Import Fw FwLemmas SpecLemmas Sf754Lemmas SoftFloat SfProofs1 SfProofs2 SfProofs6 SfProofs8 SfPrim SpecPrim SfPrimProofs.
Open Scope Z_scope.

Definition clz8_check (a : Z) : bool :=
  match clz8 a with
  | Some n => if a =? 0 then n =? 8 else (0 <=? n) && (n <? 8) && (2 ^ (7 - n) <=? a) && (a <? 2 ^ (8 - n))
  | None => false
  end.
Lemma clz8_all : all_below 8 clz8_check 0 = true.
Proof. vm_compute. reflexivity. Qed.

Lemma clz8_ok a : uint 8 a -> exists n, clz8 a = Some n /\ 0 <= n <= 8 /\ leading_zeros 8 a n.
Proof.
  intros Ha. assert (H : clz8_check a = true).
  { apply (all_below_spec 8 clz8_check 0 clz8_all). unfold uint in Ha. change (Z.of_nat 8) with 8. lia. }
  unfold clz8_check in H. destruct (clz8 a) as [n|]; [|discriminate]. exists n. split; [reflexivity|]. unfold leading_zeros.
  destruct (Z.eqb_spec a 0) as [->|N].
  - apply Z.eqb_eq in H. split; [lia|]. left. lia.
  - apply andb_prop in H. destruct H as [H H4]. apply andb_prop in H. destruct H as [H H3]. apply andb_prop in H. destruct H as [H1 H2].
    apply Z.leb_le in H1, H3. apply Z.ltb_lt in H2, H4. split; [lia|]. right. split; [lia|]. replace (8 - 1 - n) with (7 - n) by lia. lia.
Qed.

(** From the byte with the leading one to the word. *)
Lemma lead_up W a s t n : 0 <= t -> 0 <= s -> 8 + s = W - t -> 0 < a / 2 ^ s -> leading_zeros 8 (a / 2 ^ s) n -> leading_zeros W a (t + n).
Proof.
  intros Ht Hs HW Hp [[Z0 _]|[Hn [L U]]]; [lia|]. right. split; [lia|].
  pose proof (pow2_pos s Hs) as P. replace (W - 1 - (t + n)) with (8 - 1 - n + s) by lia. replace (W - (t + n)) with (8 - n + s) by lia.
  rewrite !pow2_add by lia. pose proof (Z.div_mod a (2 ^ s) ltac:(lia)). pose proof (Z.mod_pos_bound a (2 ^ s) P). split; nia.
Qed.
Lemma lead_byte W a t n : 0 <= t -> 8 = W - t -> leading_zeros 8 a n -> leading_zeros W a (t + n).
Proof.
  intros Ht HW [[-> ->]|[Hn [L U]]]; [left; lia|]. right. split; [lia|].
  replace (W - 1 - (t + n)) with (8 - 1 - n) by lia. replace (W - (t + n)) with (8 - n) by lia. lia.
Qed.

Lemma clz16_ok a : uint 16 a -> exists n, clz16 a = Some n /\ leading_zeros 16 a n.
Proof.
  unfold uint. intros Ha. unfold clz16, uw. cbv zeta. rewrite (Z.mod_small a) by lia. rewrite Z.shiftr_div_pow2 by lia.
  change 256 with (2 ^ 8).
  destruct (Z.leb_spec (2 ^ 8) a) as [G|L].
  - assert (B : 0 < a / 2 ^ 8 < 2 ^ 8) by (split; [apply Z.div_str_pos; lia|apply Z.div_lt_upper_bound; lia]).
    destruct (clz8_ok (a / 2 ^ 8) ltac:(unfold uint; lia)) as (n & -> & Bn & H). cbn [bind].
    exists (0 + n). rewrite Z.mod_small by lia. split; [reflexivity|]. apply (lead_up 16 a 8 0 n); lia || assumption.
  - destruct (clz8_ok a ltac:(unfold uint; lia)) as (n & -> & Bn & H). cbn [bind].
    exists (8 + n). rewrite Z.mod_small by lia. split; [reflexivity|]. apply lead_byte; lia || assumption.
Qed.

(** The common end of the 32-bit and the 64-bit function. *)
Lemma clz_tail a c : uint 32 a -> 0 <= c <= 32 ->
  exists n,
  (let count' := if a <? 0x10000 then uw 8 (c + 16) else c in
   let a' := if a <? 0x10000 then uw 32 (Z.shiftl a 16) else a in
   let count'' := if a' <? 0x1000000 then uw 8 (count' + 8) else count' in
   let a'' := if a' <? 0x1000000 then uw 32 (Z.shiftl a' 8) else a' in
   do t <- clz8 (Z.shiftr a'' 24);
   Some (uw 8 (count'' + t))) = Some (c + n) /\ leading_zeros 32 a n.
Proof.
  unfold uint. intros Ha Hc. unfold uw. cbv zeta. rewrite !Z.shiftr_div_pow2, !Z.shiftl_mul_pow2 by lia.
  change 65536 with (2 ^ 16). change 16777216 with (2 ^ 24).
  rewrite !(Z.mod_small (c + 16)) by lia.
  destruct (Z.ltb_spec a (2 ^ 16)) as [L|G].
  - rewrite !(Z.mod_small (a * 2 ^ 16)) by lia. destruct (Z.ltb_spec (a * 2 ^ 16) (2 ^ 24)) as [L2|G2].
    + rewrite !(Z.mod_small (a * 2 ^ 16 * 2 ^ 8)) by lia. replace (a * 2 ^ 16 * 2 ^ 8) with (a * 2 ^ 24) by lia. rewrite Z.div_mul by lia.
      destruct (clz8_ok a ltac:(unfold uint; lia)) as (n & -> & Bn & H). cbn [bind]. rewrite !(Z.mod_small (c + 16 + 8)) by lia.
      exists (24 + n). rewrite Z.mod_small by lia. split; [f_equal; lia|]. apply lead_byte; lia || assumption.
    + assert (B : 0 < a / 2 ^ 8 < 2 ^ 8) by (split; [apply Z.div_str_pos; lia|apply Z.div_lt_upper_bound; lia]).
      replace (a * 2 ^ 16 / 2 ^ 24) with (a / 2 ^ 8) by (change (2 ^ 24) with (2 ^ 8 * 2 ^ 16); symmetry; apply Z.div_mul_cancel_r; lia).
      destruct (clz8_ok (a / 2 ^ 8) ltac:(unfold uint; lia)) as (n & -> & Bn & H). cbn [bind].
      exists (16 + n). rewrite Z.mod_small by lia. split; [f_equal; lia|]. apply (lead_up 32 a 8 16 n); lia || assumption.
  - destruct (Z.ltb_spec a (2 ^ 24)) as [L2|G2].
    + rewrite !(Z.mod_small (a * 2 ^ 8)) by lia.
      assert (B : 0 < a / 2 ^ 16 < 2 ^ 8) by (split; [apply Z.div_str_pos; lia|apply Z.div_lt_upper_bound; lia]).
      replace (a * 2 ^ 8 / 2 ^ 24) with (a / 2 ^ 16) by (change (2 ^ 24) with (2 ^ 16 * 2 ^ 8); symmetry; apply Z.div_mul_cancel_r; lia).
      destruct (clz8_ok (a / 2 ^ 16) ltac:(unfold uint; lia)) as (n & -> & Bn & H). cbn [bind]. rewrite !(Z.mod_small (c + 8)) by lia.
      exists (8 + n). rewrite Z.mod_small by lia. split; [f_equal; lia|]. apply (lead_up 32 a 16 8 n); lia || assumption.
    + assert (B : 0 < a / 2 ^ 24 < 2 ^ 8) by (split; [apply Z.div_str_pos; lia|apply Z.div_lt_upper_bound; lia]).
      destruct (clz8_ok (a / 2 ^ 24) ltac:(unfold uint; lia)) as (n & -> & Bn & H). cbn [bind].
      exists (0 + n). rewrite Z.mod_small by lia. split; [f_equal; lia|]. apply (lead_up 32 a 24 0 n); lia || assumption.
Qed.

Lemma clz32_ok a : uint 32 a -> exists n, clz32 a = Some n /\ leading_zeros 32 a n.
Proof.
  intros Ha. destruct (clz_tail a 0 Ha ltac:(lia)) as (n & E & H). exists n. split; [|exact H].
  rewrite <- (Z.add_0_l n), <- E. unfold clz32. cbv zeta. unfold uint in Ha. change (uw 32 a) with (a mod 2 ^ 32). rewrite (Z.mod_small a) by lia. reflexivity.
Qed.

Lemma clz64_ok a : uint 64 a -> exists n, clz64 a = Some n /\ leading_zeros 64 a n.
Proof.
  unfold uint. intros Ha. unfold clz64. cbv zeta.
  change (uw 64 a) with (a mod 2 ^ 64). rewrite (Z.mod_small a) by lia. rewrite (Z.shiftr_div_pow2 a 32) by lia.
  assert (B : 0 <= a / 2 ^ 32 < 2 ^ 32) by (split; [apply Z.div_pos; lia|apply Z.div_lt_upper_bound; lia]).
  change (uw 32 (a / 2 ^ 32)) with ((a / 2 ^ 32) mod 2 ^ 32). rewrite (Z.mod_small (a / 2 ^ 32)) by lia.
  pose proof (Z.div_mod a (2 ^ 32) ltac:(lia)) as DM. pose proof (Z.mod_pos_bound a (2 ^ 32) ltac:(lia)) as BM.
  destruct (Z.eqb_spec (a / 2 ^ 32) 0) as [Z0|N].
  - change (uw 32 a) with (a mod 2 ^ 32). rewrite (Z.mod_small a) by lia.
    destruct (clz_tail a 32 ltac:(unfold uint; lia) ltac:(lia)) as (n & E & H). exists (32 + n). split; [exact E|].
    destruct H as [[-> ->]|[Hn H]]; [left; lia|]. right. split; [lia|].
    replace (64 - 1 - (32 + n)) with (32 - 1 - n) by lia. replace (64 - (32 + n)) with (32 - n) by lia. exact H.
  - destruct (clz_tail (a / 2 ^ 32) 0 ltac:(unfold uint; lia) ltac:(lia)) as (n & E & H). exists (0 + n). split; [exact E|].
    destruct H as [[H _]|[Hn [L U]]]; [lia|]. right. split; [lia|].
    replace (64 - 1 - (0 + n)) with (32 - 1 - n + 32) by lia. replace (64 - (0 + n)) with (32 - n + 32) by lia.
    rewrite !pow2_add by lia. split; nia.
Qed.

Lemma leading_zeros_unique W a n m : 0 < W -> leading_zeros W a n -> leading_zeros W a m -> n = m.
Proof.
  intros HW [[Hz Hn]|[Hn [L U]]] [[Hz' Hm]|[Hm [L' U']]]; [lia| | |].
  - pose proof (pow2_pos (W - 1 - m) ltac:(lia)). lia.
  - pose proof (pow2_pos (W - 1 - n) ltac:(lia)). lia.
  - destruct (Z_lt_ge_dec n m) as [C|C].
    + assert (2 ^ (W - m) <= 2 ^ (W - 1 - n)) by (apply pow2_le; lia). lia.
    + destruct (Z_lt_ge_dec m n) as [C'|C']; [|lia]. assert (2 ^ (W - n) <= 2 ^ (W - 1 - m)) by (apply pow2_le; lia). lia.
Qed.

(** The functions selected in softfloat_inline.hpp. *)
Lemma clzW_ok E F a : 0 < E + F + 1 -> uint (E + F + 1) a -> leading_zeros (E + F + 1) a (clzW E F a).
Proof.
  intros HW Ha. unfold clzW, uint, uw in *. cbv zeta. rewrite Z.mod_small by lia.
  destruct (Z.eqb_spec a 0) as [->|N]; [left; lia|]. right.
  pose proof (Z.log2_spec a ltac:(lia)) as [L U]. pose proof (Z.log2_nonneg a).
  assert (Z.log2 a < E + F + 1) by (apply Z.log2_lt_pow2; lia). split; [lia|].
  replace (E + F + 1 - 1 - (E + F + 1 - 1 - Z.log2 a)) with (Z.log2 a) by lia.
  replace (E + F + 1 - (E + F + 1 - 1 - Z.log2 a)) with (Z.succ (Z.log2 a)) by lia. lia.
Qed.
Lemma clz32_inline a : uint 32 a -> clz32 a = Some (clzW 8 23 a).
Proof.
  intros Ha. destruct (clz32_ok a Ha) as (n & -> & H). f_equal. apply (leading_zeros_unique 32 a); [lia|exact H|].
  apply (clzW_ok 8 23 a); [lia|exact Ha].
Qed.
Lemma clz64_inline a : uint 64 a -> clz64 a = Some (clzW 11 52 a).
Proof.
  intros Ha. destruct (clz64_ok a Ha) as (n & -> & H). f_equal. apply (leading_zeros_unique 64 a); [lia|exact H|].
  apply (clzW_ok 11 52 a); [lia|exact Ha].
Qed.

(** Comparisons, sums and differences. *)
Lemma eq128_ok a64 a0 b64 b0 : uint 64 a64 -> uint 64 a0 -> uint 64 b64 -> uint 64 b0 ->
  eq128 a64 a0 b64 b0 = (cat a64 a0 =? cat b64 b0).
Proof.
  unfold uint, eq128, cat. intros. destruct (Z.eqb_spec a64 b64), (Z.eqb_spec a0 b0), (Z.eqb_spec (a64 * 2 ^ 64 + a0) (b64 * 2 ^ 64 + b0)); cbn; lia || reflexivity.
Qed.
Lemma le128_ok a64 a0 b64 b0 : uint 64 a64 -> uint 64 a0 -> uint 64 b64 -> uint 64 b0 ->
  le128 a64 a0 b64 b0 = (cat a64 a0 <=? cat b64 b0).
Proof.
  unfold uint, le128, cat. intros. destruct (Z.ltb_spec a64 b64), (Z.eqb_spec a64 b64), (Z.leb_spec a0 b0), (Z.leb_spec (a64 * 2 ^ 64 + a0) (b64 * 2 ^ 64 + b0)); cbn; lia || reflexivity.
Qed.
Lemma lt128_ok a64 a0 b64 b0 : uint 64 a64 -> uint 64 a0 -> uint 64 b64 -> uint 64 b0 ->
  lt128 a64 a0 b64 b0 = (cat a64 a0 <? cat b64 b0).
Proof.
  unfold uint, lt128, cat. intros. destruct (Z.ltb_spec a64 b64), (Z.eqb_spec a64 b64), (Z.ltb_spec a0 b0), (Z.ltb_spec (a64 * 2 ^ 64 + a0) (b64 * 2 ^ 64 + b0)); cbn; lia || reflexivity.
Qed.

Lemma add128_ok a64 a0 b64 b0 : uint 64 a64 -> uint 64 a0 -> uint 64 b64 -> uint 64 b0 ->
  uint 64 (fst (add128 a64 a0 b64 b0)) /\ uint 64 (snd (add128 a64 a0 b64 b0)) /\
  cat2 (add128 a64 a0 b64 b0) = (cat a64 a0 + cat b64 b0) mod 2 ^ 128.
Proof.
  unfold uint, add128, cat2, cat, uw. cbv zeta. cbn [fst snd]. intros.
  split; [apply Z.mod_pos_bound; lia|]. split; [apply Z.mod_pos_bound; lia|].
  pose proof (Z.mod_pos_bound (a0 + b0) (2 ^ 64) ltac:(lia)) as B1. pose proof (Z.div_mod (a0 + b0) (2 ^ 64) ltac:(lia)) as D1.
  assert (Hc : Z.b2z ((a0 + b0) mod 2 ^ 64 <? a0) = (a0 + b0) / 2 ^ 64).
  { assert (0 <= (a0 + b0) / 2 ^ 64 < 2) by (split; [apply Z.div_pos; lia|apply Z.div_lt_upper_bound; lia]).
    destruct (Z.ltb_spec ((a0 + b0) mod 2 ^ 64) a0); cbn [Z.b2z]; lia. }
  rewrite Hc. remember ((a0 + b0) / 2 ^ 64) as c.
  pose proof (Z.mod_pos_bound (a64 + b64 + c) (2 ^ 64) ltac:(lia)) as B2. pose proof (Z.div_mod (a64 + b64 + c) (2 ^ 64) ltac:(lia)) as D2.
  apply (Z.mod_unique _ _ ((a64 + b64 + c) / 2 ^ 64)); [left; change (2 ^ 128) with (2 ^ 64 * 2 ^ 64); lia|].
  change (2 ^ 128) with (2 ^ 64 * 2 ^ 64). lia.
Qed.
Lemma sub128_ok a64 a0 b64 b0 : uint 64 a64 -> uint 64 a0 -> uint 64 b64 -> uint 64 b0 ->
  uint 64 (fst (sub128 a64 a0 b64 b0)) /\ uint 64 (snd (sub128 a64 a0 b64 b0)) /\
  cat2 (sub128 a64 a0 b64 b0) = (cat a64 a0 - cat b64 b0) mod 2 ^ 128.
Proof.
  unfold uint, sub128, cat2, cat, uw. cbv zeta. cbn [fst snd]. intros.
  split; [apply Z.mod_pos_bound; lia|]. split; [apply Z.mod_pos_bound; lia|].
  rewrite Zminus_mod_idemp_l.
  pose proof (Z.mod_pos_bound (a0 - b0) (2 ^ 64) ltac:(lia)) as B1. pose proof (Z.div_mod (a0 - b0) (2 ^ 64) ltac:(lia)) as D1.
  assert (Hc : Z.b2z (a0 <? b0) = - ((a0 - b0) / 2 ^ 64)).
  { destruct (Z.ltb_spec a0 b0); cbn [Z.b2z]; lia. }
  rewrite Hc. remember ((a0 - b0) / 2 ^ 64) as c.
  pose proof (Z.mod_pos_bound (a64 - b64 - - c) (2 ^ 64) ltac:(lia)) as B2. pose proof (Z.div_mod (a64 - b64 - - c) (2 ^ 64) ltac:(lia)) as D2.
  apply (Z.mod_unique _ _ ((a64 - b64 - - c) / 2 ^ 64)); [left; change (2 ^ 128) with (2 ^ 64 * 2 ^ 64); lia|].
  change (2 ^ 128) with (2 ^ 64 * 2 ^ 64). lia.
Qed.

(** Products. *)
Lemma mul_bound m n x y : 0 <= x < m -> 0 <= y < n -> 0 <= x * y <= (m - 1) * (n - 1).
Proof. intros. split; [apply Z.mul_nonneg_nonneg; lia|]. apply Z.mul_le_mono_nonneg; lia. Qed.

Lemma mul64ByShifted32_ok a b : uint 64 a -> uint 32 b ->
  uint 64 (fst (mul64ByShifted32To128 a b)) /\ uint 64 (snd (mul64ByShifted32To128 a b)) /\
  cat2 (mul64ByShifted32To128 a b) = a * b * 2 ^ 32.
Proof.
  unfold uint, mul64ByShifted32To128, cat2, cat, uw. cbv zeta. cbn [fst snd]. intros Ha Hb.
  split; [apply Z.mod_pos_bound; lia|]. split; [apply Z.mod_pos_bound; lia|].
  rewrite !Z.shiftr_div_pow2, Z.shiftl_mul_pow2 by lia.
  assert (B : 0 <= a / 2 ^ 32 < 2 ^ 32) by (split; [apply Z.div_pos; lia|apply Z.div_lt_upper_bound; lia]).
  rewrite (Z.mod_small (a / 2 ^ 32)) by lia.
  pose proof (Z.div_mod a (2 ^ 32) ltac:(lia)) as DM. pose proof (Z.mod_pos_bound a (2 ^ 32) ltac:(lia)) as BM.
  remember (a / 2 ^ 32) as h. remember (a mod 2 ^ 32) as l.
  pose proof (mul_bound _ _ _ _ BM Hb) as P1. pose proof (mul_bound _ _ _ _ B Hb) as P2.
  rewrite (Z.mod_small (l * b)) by lia. remember (l * b) as p eqn:Ep. remember (h * b) as q eqn:Eq.
  pose proof (Z.div_mod p (2 ^ 32) ltac:(lia)) as D2. pose proof (Z.mod_pos_bound p (2 ^ 32) ltac:(lia)) as B2.
  rewrite (Z.mod_small (q + _)) by lia.
  replace ((p * 2 ^ 32) mod 2 ^ 64) with (p mod 2 ^ 32 * 2 ^ 32) by (change (2 ^ 64) with (2 ^ 32 * 2 ^ 32); symmetry; apply Z.mul_mod_distr_r; lia).
  replace (a * b * 2 ^ 32) with ((2 ^ 32 * q + p) * 2 ^ 32) by (subst q p; rewrite DM; ring). lia.
Qed.

Lemma mul128By32_ok U a64 a0 b : 32 <= U -> uint 64 a64 -> uint 64 a0 -> uint 32 b ->
  uint 64 (fst (mul128By32 U a64 a0 b)) /\ uint 64 (snd (mul128By32 U a64 a0 b)) /\
  cat2 (mul128By32 U a64 a0 b) = (cat a64 a0 * b) mod 2 ^ 128.
Proof.
  unfold uint, mul128By32, cat2, cat, uw. cbv zeta. cbn [fst snd]. intros HU Ha Ha0 Hb.
  split; [apply Z.mod_pos_bound; lia|]. split; [apply Z.mod_pos_bound; lia|].
  rewrite !Z.shiftr_div_pow2 by lia.
  assert (UP : 2 ^ U = 2 ^ 32 * 2 ^ (U - 32)) by (rewrite <- pow2_add by lia; f_equal; lia).
  pose proof (pow2_pos (U - 32) ltac:(lia)) as PU.
  assert (B : 0 <= a0 / 2 ^ 32 < 2 ^ 32) by (split; [apply Z.div_pos; lia|apply Z.div_lt_upper_bound; lia]).
  rewrite (Z.mod_small (a0 / 2 ^ 32)) by lia.
  pose proof (Z.div_mod a0 (2 ^ 32) ltac:(lia)) as DM. pose proof (Z.mod_pos_bound a0 (2 ^ 32) ltac:(lia)) as BM.
  remember (a0 / 2 ^ 32) as h. remember (a0 mod 2 ^ 32) as l.
  pose proof (mul_bound _ _ _ _ BM Hb) as P1. pose proof (mul_bound _ _ _ _ B Hb) as P2.
  rewrite (Z.mod_small (h * b)) by lia. remember (l * b) as p eqn:Ep. remember (h * b) as q eqn:Eq.
  assert (E0 : a0 * b = 2 ^ 32 * q + p) by (subst q p; rewrite DM; ring). rewrite E0.
  pose proof (Z.div_mod p (2 ^ 32) ltac:(lia)) as D2. pose proof (Z.mod_pos_bound p (2 ^ 32) ltac:(lia)) as B2.
  assert (M : forall x, (x mod 2 ^ U) mod 2 ^ 32 = x mod 2 ^ 32).
  { intros x. rewrite UP, Z.rem_mul_r by lia. rewrite Z.mul_comm, Z.mod_add by lia. apply Z.mod_mod. lia. }
  assert (Hc : ((((2 ^ 32 * q + p) mod 2 ^ 64 / 2 ^ 32) mod 2 ^ U - q mod 2 ^ U) mod 2 ^ U) mod 2 ^ 32 = p / 2 ^ 32).
  { rewrite M, Zminus_mod, !M, <- Zminus_mod.
    pose proof (Z.div_mod (2 ^ 32 * q + p) (2 ^ 64) ltac:(lia)) as D3. pose proof (Z.mod_pos_bound (2 ^ 32 * q + p) (2 ^ 64) ltac:(lia)) as B3.
    remember ((2 ^ 32 * q + p) mod 2 ^ 64) as z. remember ((2 ^ 32 * q + p) / 2 ^ 64) as k.
    assert (Ez : z / 2 ^ 32 = q + p / 2 ^ 32 - 2 ^ 32 * k).
    { symmetry. apply (Z.div_unique _ _ _ (p mod 2 ^ 32)); [left; lia|]. change (2 ^ 64) with (2 ^ 32 * 2 ^ 32) in *. lia. }
    rewrite Ez. symmetry. apply (Z.mod_unique _ _ (- k)); lia. }
  rewrite Hc. rewrite (Z.mod_small (q + p / 2 ^ 32)) by lia.
  assert (K : 0 <= (q + p / 2 ^ 32) / 2 ^ 32 < 2 ^ 32) by (split; [apply Z.div_pos; lia|apply Z.div_lt_upper_bound; lia]).
  rewrite (Z.mod_small ((q + p / 2 ^ 32) / 2 ^ 32)) by nia.
  pose proof (Z.div_mod (q + p / 2 ^ 32) (2 ^ 32) ltac:(lia)) as D4. pose proof (Z.mod_pos_bound (q + p / 2 ^ 32) (2 ^ 32) ltac:(lia)) as B4.
  remember ((q + p / 2 ^ 32) / 2 ^ 32) as k.
  assert (Ez : (2 ^ 32 * q + p) mod 2 ^ 64 = 2 ^ 32 * q + p - 2 ^ 64 * k).
  { symmetry. apply (Z.mod_unique _ _ k); [left; change (2 ^ 64) with (2 ^ 32 * 2 ^ 32); lia|lia]. }
  rewrite Ez.
  pose proof (Z.mod_pos_bound (a64 * b + k) (2 ^ 64) ltac:(lia)) as B5. pose proof (Z.div_mod (a64 * b + k) (2 ^ 64) ltac:(lia)) as D5.
  apply (Z.mod_unique _ _ ((a64 * b + k) / 2 ^ 64)).
  - left. change (2 ^ 128) with (2 ^ 64 * 2 ^ 64). change (2 ^ 64) with (2 ^ 32 * 2 ^ 32) in *. lia.
  - replace ((a64 * 2 ^ 64 + a0) * b) with (2 ^ 64 * (a64 * b) + (2 ^ 32 * q + p)) by (rewrite <- E0; ring).
    change (2 ^ 128) with (2 ^ 64 * 2 ^ 64). lia.
Qed.

Lemma halves x n : 0 <= n -> 0 <= x < 2 ^ n * 2 ^ 32 -> 0 <= x / 2 ^ 32 < 2 ^ n /\ 0 <= x mod 2 ^ 32 < 2 ^ 32 /\ x = 2 ^ 32 * (x / 2 ^ 32) + x mod 2 ^ 32.
Proof.
  intros Hn Hx. pose proof (pow2_pos n Hn). split; [split; [apply Z.div_pos; lia|apply Z.div_lt_upper_bound; lia]|].
  split; [apply Z.mod_pos_bound; lia|]. apply Z.div_mod. lia.
Qed.

Lemma mul64To128M_ok a b : uint 64 a -> uint 64 b ->
  mul64To128M_portable a b = mul64To128M_inline a b /\ words4 (mul64To128M_inline a b) = a * b.
Proof.
  unfold uint. intros Ha Hb. unfold mul64To128M_portable, mul64To128M_inline, words4, uw. cbv zeta.
  rewrite (Z.mod_small a (2 ^ 64)), (Z.mod_small b (2 ^ 64)) by lia.
  pose proof (mul_bound _ _ _ _ Ha Hb) as PAB. rewrite (Z.mod_small (a * b)) by lia.
  rewrite !Z.shiftr_div_pow2, !Z.shiftl_mul_pow2 by lia.
  destruct (halves a 32 ltac:(lia) ltac:(lia)) as (A1 & A2 & A3). destruct (halves b 32 ltac:(lia) ltac:(lia)) as (C1 & C2 & C3).
  rewrite (Z.mod_small (a / 2 ^ 32)), (Z.mod_small (b / 2 ^ 32)) by lia.
  remember (a / 2 ^ 32) as a1. remember (a mod 2 ^ 32) as a0. remember (b / 2 ^ 32) as b1. remember (b mod 2 ^ 32) as b0.
  pose proof (mul_bound _ _ _ _ A1 C1) as P11. pose proof (mul_bound _ _ _ _ A1 C2) as P10.
  pose proof (mul_bound _ _ _ _ A2 C1) as P01. pose proof (mul_bound _ _ _ _ A2 C2) as P00.
  assert (EAB : a * b = 2 ^ 64 * (a1 * b1) + 2 ^ 32 * (a1 * b0 + a0 * b1) + a0 * b0) by (rewrite A3, C3; ring).
  rewrite (Z.mod_small (a0 * b0)), (Z.mod_small (a1 * b0)), (Z.mod_small (a0 * b1)), (Z.mod_small (a1 * b1)) by lia.
  remember (a * b) as ab. remember (a0 * b0) as p00. remember (a1 * b0) as p10. remember (a0 * b1) as p01. remember (a1 * b1) as p11.
  clear Heqab Heqp00 Heqp10 Heqp01 Heqp11 A1 A2 A3 C1 C2 C3 Ha Hb Heqa0 Heqa1 Heqb0 Heqb1.
  (* the middle sum *)
  pose proof (Z.mod_pos_bound (p10 + p01) (2 ^ 64) ltac:(lia)) as BM. pose proof (Z.div_mod (p10 + p01) (2 ^ 64) ltac:(lia)) as DM.
  assert (Hc : Z.b2z ((p10 + p01) mod 2 ^ 64 <? p10) = (p10 + p01) / 2 ^ 64).
  { assert (0 <= (p10 + p01) / 2 ^ 64 < 2) by (split; [apply Z.div_pos; lia|apply Z.div_lt_upper_bound; lia]).
    destruct (Z.ltb_spec ((p10 + p01) mod 2 ^ 64) p10); cbn [Z.b2z]; lia. }
  rewrite Hc. assert (HC : 0 <= (p10 + p01) / 2 ^ 64 < 2) by (rewrite <- Hc; destruct (_ <? _); cbn [Z.b2z]; lia). clear Hc.
  remember ((p10 + p01) mod 2 ^ 64) as mid. remember ((p10 + p01) / 2 ^ 64) as c. clear Heqmid Heqc.
  rewrite (Z.mod_small (c * 2 ^ 32)) by lia.
  destruct (halves mid 32 ltac:(lia) ltac:(lia)) as (M1 & M2 & M3).
  rewrite lor_join by lia.
  replace ((mid * 2 ^ 32) mod 2 ^ 64) with (mid mod 2 ^ 32 * 2 ^ 32) by (change (2 ^ 64) with (2 ^ 32 * 2 ^ 32); symmetry; apply Z.mul_mod_distr_r; lia).
  remember (mid / 2 ^ 32) as m1. remember (mid mod 2 ^ 32) as m0. clear Heqm1 Heqm0.
  pose proof (Z.mod_pos_bound (p00 + m0 * 2 ^ 32) (2 ^ 64) ltac:(lia)) as BZ. pose proof (Z.div_mod (p00 + m0 * 2 ^ 32) (2 ^ 64) ltac:(lia)) as DZ.
  assert (Hc : Z.b2z ((p00 + m0 * 2 ^ 32) mod 2 ^ 64 <? m0 * 2 ^ 32) = (p00 + m0 * 2 ^ 32) / 2 ^ 64).
  { assert (0 <= (p00 + m0 * 2 ^ 32) / 2 ^ 64 < 2) by (split; [apply Z.div_pos; lia|apply Z.div_lt_upper_bound; lia]).
    destruct (Z.ltb_spec ((p00 + m0 * 2 ^ 32) mod 2 ^ 64) (m0 * 2 ^ 32)); cbn [Z.b2z]; lia. }
  rewrite Hc. assert (HC2 : 0 <= (p00 + m0 * 2 ^ 32) / 2 ^ 64 < 2) by (rewrite <- Hc; destruct (_ <? _); cbn [Z.b2z]; lia). clear Hc.
  remember ((p00 + m0 * 2 ^ 32) mod 2 ^ 64) as lo. remember ((p00 + m0 * 2 ^ 32) / 2 ^ 64) as c2. clear Heqlo Heqc2.
  assert (EH : ab = 2 ^ 64 * (p11 + (c * 2 ^ 32 + m1) + c2) + lo).
  { change (2 ^ 64) with (2 ^ 32 * 2 ^ 32) in *. lia. }
  assert (HB : 0 <= p11 + (c * 2 ^ 32 + m1) + c2 < 2 ^ 64) by lia.
  rewrite (Z.mod_small (p11 + (c * 2 ^ 32 + m1))) by lia. rewrite (Z.mod_small (p11 + (c * 2 ^ 32 + m1) + c2)) by lia.
  remember (p11 + (c * 2 ^ 32 + m1) + c2) as hi. clear Heqhi EAB P11 P10 P01 P00 DM DZ.
  destruct (halves hi 32 ltac:(lia) ltac:(lia)) as (H1 & H2 & H3). destruct (halves lo 32 ltac:(lia) ltac:(lia)) as (L1 & L2 & L3).
  assert (X0 : ab mod 2 ^ 32 = lo mod 2 ^ 32) by (symmetry; apply (Z.mod_unique _ _ (2 ^ 32 * hi + lo / 2 ^ 32)); [left; lia|change (2 ^ 64) with (2 ^ 32 * 2 ^ 32) in *; lia]).
  assert (Y1 : ab / 2 ^ 32 = 2 ^ 32 * hi + lo / 2 ^ 32) by (symmetry; apply (Z.div_unique _ _ _ (lo mod 2 ^ 32)); [left; lia|change (2 ^ 64) with (2 ^ 32 * 2 ^ 32) in *; lia]).
  assert (Y2 : ab / 2 ^ 64 = hi) by (symmetry; apply (Z.div_unique _ _ _ lo); [left; lia|lia]).
  assert (Y3 : ab / 2 ^ 96 = hi / 2 ^ 32) by (change (2 ^ 96) with (2 ^ 64 * 2 ^ 32); rewrite <- Z.div_div, Y2 by lia; reflexivity).
  rewrite X0, Y1, Y2, Y3.
  replace ((2 ^ 32 * hi + lo / 2 ^ 32) mod 2 ^ 32) with (lo / 2 ^ 32) by (apply (Z.mod_unique _ _ hi); [left; lia|lia]).
  rewrite !(Z.mod_small (lo / 2 ^ 32)), !(Z.mod_small (hi / 2 ^ 32)) by lia.
  split; [reflexivity|]. change (2 ^ 96) with (2 ^ 64 * 2 ^ 32). change (2 ^ 64) with (2 ^ 32 * 2 ^ 32) in *. lia.
Qed.

Lemma shortShiftLeft64To96M_ok a d : uint 64 a -> 1 <= d <= 31 ->
  exists w0 w1 w2, shortShiftLeft64To96M a d = Some (w0, w1, w2) /\ uint 32 w0 /\ uint 32 w1 /\ uint 32 w2 /\
    w0 + 2 ^ 32 * w1 + 2 ^ 64 * w2 = a * 2 ^ d.
Proof.
  intros Ha Hd. unfold shortShiftLeft64To96M.
  assert (HL : uint 32 (uw 32 a)) by (apply Z.mod_pos_bound; lia).
  rewrite ushl_small by (assumption || lia). cbn [bind]. rewrite ushr_small by (assumption || lia). cbn [bind].
  do 3 eexists. split; [reflexivity|].
  assert (S : 2 ^ 32 = 2 ^ d * 2 ^ (32 - d)) by (rewrite <- pow2_add by lia; f_equal; lia).
  pose proof (pow2_pos d ltac:(lia)) as P. pose proof (pow2_pos (32 - d) ltac:(lia)) as Q.
  unfold uint, uw in *. rewrite Z.shiftr_div_pow2 by lia.
  assert (M : (a mod 2 ^ 32) mod 2 ^ (32 - d) = a mod 2 ^ (32 - d)).
  { rewrite S, (Z.mul_comm (2 ^ d)), Z.rem_mul_r by lia. rewrite Z.mul_comm, Z.mod_add by lia. apply Z.mod_mod. lia. }
  rewrite M. pose proof (Z.mod_pos_bound a (2 ^ (32 - d)) Q) as B. pose proof (Z.div_mod a (2 ^ (32 - d)) ltac:(lia)) as DM.
  assert (HB : 0 <= a / 2 ^ (32 - d) < 2 ^ 64).
  { split; [apply Z.div_pos; lia|]. apply Z.div_lt_upper_bound; [lia|]. nia. }
  destruct (halves (a / 2 ^ (32 - d)) 32 ltac:(lia) ltac:(lia)) as (H1 & H2 & H3).
  rewrite (Z.mod_small (a / 2 ^ (32 - d) / 2 ^ 32)) by lia.
  split; [nia|]. split; [exact H2|]. split; [exact H1|].
  change (2 ^ 64) with (2 ^ 32 * 2 ^ 32).
  remember (a / 2 ^ (32 - d)) as v. remember (a mod 2 ^ (32 - d)) as r.
  replace (a * 2 ^ d) with (2 ^ 32 * v + r * 2 ^ d) by (rewrite S, DM; ring). lia.
Qed.

(** The jamming shifts of SoftFloat.v. *)
Lemma jam_spec x k : 0 <= x -> 0 <= k -> jam x (2 ^ k) = shift_right_jam x k.
Proof.
  intros Hx Hk. unfold jam, shift_right_jam. pose proof (pow2_pos k Hk). rewrite lor_b2z by (apply Z.div_pos; lia).
  destruct (x mod 2 ^ k =? 0); reflexivity.
Qed.
Lemma shiftRightJam32_ok a d : uint 32 a -> 1 <= d -> shiftRightJam 8 23 a d = shift_right_jam a d.
Proof.
  intros Ha Hd. unfold uint in Ha. rewrite <- jam_spec by lia. apply (shiftRightJam_eq 8 23 32); [reflexivity|lia|lia|exists 5; split; [lia|reflexivity]|lia|lia].
Qed.
Lemma shiftRightJam64_ok a d : uint 64 a -> 1 <= d -> shiftRightJam 11 52 a d = shift_right_jam a d.
Proof.
  intros Ha Hd. unfold uint in Ha. rewrite <- jam_spec by lia. apply (shiftRightJam_eq 11 52 64); [reflexivity|lia|lia|exists 6; split; [lia|reflexivity]|lia|lia].
Qed.
Lemma shortShiftRightJam64_ok a d : uint 64 a -> 1 <= d <= 63 -> shortShiftRightJam64 a d = shift_right_jam a d.
Proof.
  intros Ha Hd. unfold uint in Ha. rewrite <- jam_spec by lia. unfold shortShiftRightJam64. rewrite jam_bits by lia. reflexivity.
Qed.

(** The reciprocal. *)
Lemma recip_bound U a : 32 <= U -> 2 ^ 31 <= a < 2 ^ 32 ->
  uint 32 (approxRecip32_1 U a) /\ approxRecip32_1 U a * a <= 2 ^ 63 /\ 1000 * (2 ^ 63 - approxRecip32_1 U a * a) <= 2008 * a.
Proof.
  intros HU Ha. destruct (approxRecip_ok U a HU Ha) as (H1 & H2 & _). split; [exact H2|]. split; [lia|]. lia.
Qed.

(** The statements of PropsPrim.v. *)
Lemma prim_clz :
  (forall a, uint 8 a -> exists n, clz8 a = Some n /\ leading_zeros 8 a n) /\
  (forall a, uint 16 a -> exists n, clz16 a = Some n /\ leading_zeros 16 a n) /\
  (forall a, uint 32 a -> exists n, clz32 a = Some n /\ leading_zeros 32 a n /\ n = clzW 8 23 a) /\
  (forall a, uint 64 a -> exists n, clz64 a = Some n /\ leading_zeros 64 a n /\ n = clzW 11 52 a).
Proof.
  split; [|split; [exact clz16_ok|split]]; intros a Ha.
  - destruct (clz8_ok a Ha) as (n & H1 & _ & H2). eauto.
  - destruct (clz32_ok a Ha) as (n & H1 & H2). exists n. rewrite (clz32_inline a Ha) in H1. injection H1 as <-. split; [apply clz32_inline; exact Ha|]. auto.
  - destruct (clz64_ok a Ha) as (n & H1 & H2). exists n. rewrite (clz64_inline a Ha) in H1. injection H1 as <-. split; [apply clz64_inline; exact Ha|]. auto.
Qed.
Lemma prim_jam :
  (forall a d, uint 32 a -> 1 <= d -> shiftRightJam 8 23 a d = shift_right_jam a d) /\
  (forall a d, uint 64 a -> 1 <= d -> shiftRightJam 11 52 a d = shift_right_jam a d) /\
  (forall a d, uint 64 a -> 1 <= d <= 63 -> shortShiftRightJam64 a d = shift_right_jam a d).
Proof. split; [exact shiftRightJam32_ok|]. split; [exact shiftRightJam64_ok|exact shortShiftRightJam64_ok]. Qed.
Lemma prim_shift :
  (forall a64 a0 d, uint 64 a64 -> uint 64 a0 -> 1 <= d <= 63 ->
    (exists z, shortShiftLeft128 a64 a0 d = Some z /\ uint 64 (fst z) /\ uint 64 (snd z) /\ cat2 z = (cat a64 a0 * 2 ^ d) mod 2 ^ 128) /\
    (exists z, shortShiftRight128 a64 a0 d = Some z /\ uint 64 (fst z) /\ uint 64 (snd z) /\ cat2 z = cat a64 a0 / 2 ^ d) /\
    (exists z, shortShiftRightJam128 a64 a0 d = Some z /\ uint 64 (fst z) /\ uint 64 (snd z) /\ cat2 z = shift_right_jam (cat a64 a0) d)) /\
  (forall a d, uint 64 a -> 1 <= d <= 31 ->
    exists w0 w1 w2, shortShiftLeft64To96M a d = Some (w0, w1, w2) /\ uint 32 w0 /\ uint 32 w1 /\ uint 32 w2 /\
      w0 + 2 ^ 32 * w1 + 2 ^ 64 * w2 = a * 2 ^ d).
Proof.
  split; [|exact shortShiftLeft64To96M_ok]. intros a64 a0 d Ha Hb Hd.
  split; [apply shortShiftLeft128_ok; assumption|]. split; [apply shortShiftRight128_ok; assumption|apply shortShiftRightJam128_ok; assumption].
Qed.
Lemma prim_extra :
  (forall a extra d, uint 64 a -> uint 64 extra -> 1 <= d <= 63 ->
    exists v e, shortShiftRightJam64Extra a extra d = Some (v, e) /\ v = cat a extra / 2 ^ (64 + d) /\ extra_field (cat a extra) (64 + d) e) /\
  (forall a extra d, uint 64 a -> uint 64 extra -> 1 <= d ->
    exists v e, shiftRightJam64Extra a extra d = Some (v, e) /\ v = cat a extra / 2 ^ (64 + d) /\ extra_field (cat a extra) (64 + d) e) /\
  (forall a64 a0 extra d, uint 64 a64 -> uint 64 a0 -> uint 64 extra -> 1 <= d <= 63 ->
    exists z64 z0 e, shortShiftRightJam128Extra a64 a0 extra d = Some (z64, z0, e) /\ uint 64 z64 /\ uint 64 z0 /\
      cat z64 z0 = cat (cat a64 a0) extra / 2 ^ (64 + d) /\ extra_field (cat (cat a64 a0) extra) (64 + d) e).
Proof. split; [exact shortShiftRightJam64Extra_ok|]. split; [exact shiftRightJam64Extra_ok|exact shortShiftRightJam128Extra_ok]. Qed.
Lemma prim_arith :
  forall U a64 a0 b64 b0 b, 32 <= U -> uint 64 a64 -> uint 64 a0 -> uint 64 b64 -> uint 64 b0 -> uint 32 b ->
  (eq128 a64 a0 b64 b0 = true <-> cat a64 a0 = cat b64 b0) /\
  (le128 a64 a0 b64 b0 = true <-> cat a64 a0 <= cat b64 b0) /\
  (lt128 a64 a0 b64 b0 = true <-> cat a64 a0 < cat b64 b0) /\
  (let z := add128 a64 a0 b64 b0 in uint 64 (fst z) /\ uint 64 (snd z) /\ cat2 z = (cat a64 a0 + cat b64 b0) mod 2 ^ 128) /\
  (let z := sub128 a64 a0 b64 b0 in uint 64 (fst z) /\ uint 64 (snd z) /\ cat2 z = (cat a64 a0 - cat b64 b0) mod 2 ^ 128) /\
  (let z := mul64ByShifted32To128 a0 b in uint 64 (fst z) /\ uint 64 (snd z) /\ cat2 z = a0 * b * 2 ^ 32) /\
  (let z := mul128By32 U a64 a0 b in uint 64 (fst z) /\ uint 64 (snd z) /\ cat2 z = (cat a64 a0 * b) mod 2 ^ 128).
Proof.
  intros U a64 a0 b64 b0 b HU H1 H2 H3 H4 H5. rewrite eq128_ok, le128_ok, lt128_ok by assumption.
  split; [apply Z.eqb_eq|]. split; [apply Z.leb_le|]. split; [apply Z.ltb_lt|]. split; [apply add128_ok; assumption|].
  split; [apply sub128_ok; assumption|]. split; [apply mul64ByShifted32_ok; assumption|apply mul128By32_ok; assumption].
Qed.
Lemma prim_mul : forall a b, uint 64 a -> uint 64 b ->
  mul64To128M_portable a b = mul64To128M_inline a b /\ words4 (mul64To128M_inline a b) = a * b /\
  let '(w0, w1, w2, w3) := mul64To128M_inline a b in uint 32 w0 /\ uint 32 w1 /\ uint 32 w2 /\ uint 32 w3.
Proof.
  intros a b Ha Hb. destruct (mul64To128M_ok a b Ha Hb) as [H1 H2]. split; [exact H1|]. split; [exact H2|].
  unfold mul64To128M_inline, uint, uw. cbv zeta. repeat split; apply Z.mod_pos_bound; lia.
Qed.
