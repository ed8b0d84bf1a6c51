(** Skipping a compile-time generator is iterated stepping. *)
From Coq Require Import ZArith Bool Lia Znumtheory Zpow_facts.
From Verif Require Import Fw FwLemmas SpecCt Lcg.
Open Scope Z_scope.

(** n steps of the affine map are x -> P n * x + C * G n with P n = A^n and G n = 1 + A + ... + A^(n-1). *)
Fixpoint geo (A : Z) (n : nat) : Z := match n with O => 0 | S n => A * geo A n + 1 end.

Lemma pow_nat_S A n : A ^ Z.of_nat (S n) = A * A ^ Z.of_nat n.
Proof. rewrite Nat2Z.inj_succ, Z.pow_succ_r by lia. reflexivity. Qed.

Lemma iter_step A C x n : 0 <= x < 2 ^ 32 ->
  Nat.iter n (step A C) x = (A ^ Z.of_nat n * x + C * geo A n) mod 2 ^ 32.
Proof.
  intros Hx. induction n as [|n IH].
  - cbn [Nat.iter geo]. change (A ^ Z.of_nat 0) with 1. rewrite Z.mul_0_r, Z.add_0_r, Z.mul_1_l, Z.mod_small by lia. reflexivity.
  - change (Nat.iter (S n) (step A C) x) with (step A C (Nat.iter n (step A C) x)).
    rewrite IH. unfold step. rewrite Zplus_mod, Zmult_mod_idemp_r, <- Zplus_mod. rewrite pow_nat_S. cbn [geo]. f_equal. ring.
Qed.

Lemma geo_add A m n : geo A (m + n) = A ^ Z.of_nat m * geo A n + geo A m.
Proof.
  induction m as [|m IH].
  - cbn [Nat.add geo]. change (A ^ Z.of_nat 0) with 1. ring.
  - cbn [Nat.add geo]. rewrite IH, pow_nat_S. ring.
Qed.
Lemma pow_nat_add A m n : A ^ Z.of_nat (m + n) = A ^ Z.of_nat m * A ^ Z.of_nat n.
Proof. rewrite Nat2Z.inj_add, Z.pow_add_r by lia. reflexivity. Qed.

Lemma w32_mod x : w32 x mod 2 ^ 32 = x mod 2 ^ 32.
Proof. unfold w32. apply Z.mod_mod. lia. Qed.

Lemma comb_ok A C a b a2 b2 q r : (q + q + r)%nat = (q + q + r)%nat ->
  a mod 2 ^ 32 = A ^ Z.of_nat q mod 2 ^ 32 -> b mod 2 ^ 32 = (C * geo A q) mod 2 ^ 32 ->
  a2 mod 2 ^ 32 = A ^ Z.of_nat r mod 2 ^ 32 -> b2 mod 2 ^ 32 = (C * geo A r) mod 2 ^ 32 ->
  w32 (w32 (a * a) * a2) mod 2 ^ 32 = A ^ Z.of_nat (q + q + r) mod 2 ^ 32 /\
  w32 (w32 (w32 (a * a) * b2) + w32 (w32 (a * b) + b)) mod 2 ^ 32 = (C * geo A (q + q + r)) mod 2 ^ 32.
Proof.
  intros _ Ha Hb Ha2 Hb2. rewrite !w32_mod. unfold w32.
  assert (E : forall x y x' y', x mod 2 ^ 32 = x' mod 2 ^ 32 -> y mod 2 ^ 32 = y' mod 2 ^ 32 -> (x * y) mod 2 ^ 32 = (x' * y') mod 2 ^ 32).
  { intros x y x' y' H1 H2. rewrite Z.mul_mod, H1, H2, <- Z.mul_mod by lia. reflexivity. }
  assert (E2 : forall x y x' y', x mod 2 ^ 32 = x' mod 2 ^ 32 -> y mod 2 ^ 32 = y' mod 2 ^ 32 -> (x + y) mod 2 ^ 32 = (x' + y') mod 2 ^ 32).
  { intros x y x' y' H1 H2. rewrite Z.add_mod, H1, H2, <- Z.add_mod by lia. reflexivity. }
  assert (Haa : (a * a) mod 2 ^ 32 = (A ^ Z.of_nat (q + q)) mod 2 ^ 32) by (rewrite pow_nat_add; apply E; assumption).
  split.
  - rewrite pow_nat_add. apply E; [rewrite Z.mod_mod by lia; exact Haa|exact Ha2].
  - replace (C * geo A (q + q + r)) with (A ^ Z.of_nat (q + q) * (C * geo A r) + (A ^ Z.of_nat q * (C * geo A q) + C * geo A q))
      by (rewrite !geo_add, pow_nat_add; ring).
    apply E2; rewrite Z.mod_mod by lia.
    + apply E; [rewrite Z.mod_mod by lia; exact Haa|exact Hb2].
    + apply E2; [|exact Hb]. rewrite Z.mod_mod by lia. apply E; assumption.
Qed.

Lemma lcg_mult_pos n : forall k A C, 0 <= k < 2 ^ Z.of_nat n -> (0 < n)%nat ->
  exists a b, lcg_mult n k A C = Some (a, b) /\ a mod 2 ^ 32 = A ^ k mod 2 ^ 32 /\
    b mod 2 ^ 32 = (C * geo A (Z.to_nat k)) mod 2 ^ 32.
Proof.
  induction n as [|n IH]; intros k A C Hk Hn; [lia|]. cbn [lcg_mult].
  destruct (Z.eqb_spec k 0) as [->|N0]; [exists 1, 0; split; [reflexivity|]; split; [reflexivity|]; change (Z.to_nat 0) with O; cbn [geo]; rewrite Z.mul_0_r; reflexivity|].
  destruct (Z.eqb_spec k 1) as [->|N1].
  { exists A, C. split; [reflexivity|]. split; [rewrite Z.pow_1_r; reflexivity|].
    change (Z.to_nat 1) with 1%nat. cbn [geo]. rewrite Z.mul_0_r, Z.add_0_l, Z.mul_1_r. reflexivity. }
  destruct (Z.ltb_spec k 0); [lia|]. cbv zeta.
  rewrite Z.quot_div_nonneg, Z.rem_mod_nonneg by lia.
  pose proof (Z.div_mod k 2 ltac:(lia)) as Hd. pose proof (Z.mod_pos_bound k 2 ltac:(lia)) as Hm.
  rewrite Nat2Z.inj_succ, Z.pow_succ_r in Hk by lia.
  assert (Hq : 0 <= k / 2 < 2 ^ Z.of_nat n) by (split; [apply Z.div_pos; lia|apply Z.div_lt_upper_bound; lia]).
  assert (Hn' : (0 < n)%nat) by (destruct n; [cbn in Hk; lia|lia]).
  destruct (IH (k / 2) A C Hq Hn') as (a & b & E1 & Ea & Eb).
  destruct (IH (k mod 2) A C) as (a2 & b2 & E2 & Ea2 & Eb2); [pose proof (Z.pow_le_mono_r 2 1 (Z.of_nat n)); lia|exact Hn'|].
  rewrite E1, E2. cbn [bind]. eexists _, _. split; [reflexivity|].
  assert (Hk2 : Z.to_nat k = (Z.to_nat (k / 2) + Z.to_nat (k / 2) + Z.to_nat (k mod 2))%nat) by lia.
  rewrite <- (Z2Nat.id (k / 2)) in Ea by lia. rewrite <- (Z2Nat.id (k mod 2)) in Ea2 by lia.
  pose proof (comb_ok A C a b a2 b2 _ _ eq_refl Ea Eb Ea2 Eb2) as [G1 G2]. rewrite <- Hk2 in G1, G2.
  rewrite Z2Nat.id in G1 by lia. split; [exact G1|exact G2].
Qed.

Lemma lcg_mult_neg n d A C : - 2 ^ 31 <= d < 0 -> lcg_mult (S n) d A C = lcg_mult (S n) (2 ^ 32 + d) A C.
Proof.
  intros Hd. cbn [lcg_mult].
  destruct (Z.eqb_spec d 0); [lia|]. destruct (Z.eqb_spec d 1); [lia|].
  destruct (Z.eqb_spec (2 ^ 32 + d) 0); [lia|]. destruct (Z.eqb_spec (2 ^ 32 + d) 1); [lia|].
  destruct (Z.ltb_spec d 0); [|lia]. destruct (Z.ltb_spec (2 ^ 32 + d) 0); [lia|]. reflexivity.
Qed.

(** A skip as an affine map: distance d >= 0 is d steps; a negative one is 2^32 + d steps. *)
Lemma lcg_skip_ok S A C d : 0 <= S < 2 ^ 32 -> - 2 ^ 31 <= d < 2 ^ 31 ->
  lcg_skip S A C d = Some (Nat.iter (Z.to_nat (if d <? 0 then 2 ^ 32 + d else d)) (step A C) S).
Proof.
  intros HS Hd. unfold lcg_skip, assert_, is_int. destruct (Z.leb_spec (- 2 ^ 31) d); [|lia]. destruct (Z.ltb_spec d (2 ^ 31)); [|lia].
  cbn [andb bind].
  assert (G : exists a b, lcg_mult 64 d A C = Some (a, b) /\
     a mod 2 ^ 32 = A ^ Z.of_nat (Z.to_nat (if d <? 0 then 2 ^ 32 + d else d)) mod 2 ^ 32 /\
     b mod 2 ^ 32 = (C * geo A (Z.to_nat (if d <? 0 then 2 ^ 32 + d else d))) mod 2 ^ 32).
  { destruct (Z.ltb_spec d 0) as [L|L].
    - pose proof (lcg_mult_pos 64 (2 ^ 32 + d) A C) as G. destruct G as (a & b & E & Ea & Eb); [lia|lia|].
      exists a, b. rewrite Z2Nat.id by lia. split; [|split; [exact Ea|exact Eb]]. rewrite <- E.
      apply (lcg_mult_neg 63). lia.
    - destruct (lcg_mult_pos 64 d A C) as (a & b & E & Ea & Eb); [lia|lia|].
      exists a, b. rewrite Z2Nat.id by lia. split; [exact E|]. split; [exact Ea|exact Eb]. }
  destruct G as (a & b & E & Ea & Eb). rewrite E. cbn [bind]. f_equal. rewrite iter_step by exact HS.
  unfold w32. rewrite Zplus_mod_idemp_l. rewrite Z.add_mod, Eb, (Z.mul_mod S a), Ea, <- Z.mul_mod, <- Z.add_mod by lia.
  f_equal. ring.
Qed.

(** ** The step has an inverse, and 2^32 steps are the identity, when A is odd. *)
Lemma geo_double A n : geo A (n + n) = (A ^ Z.of_nat n + 1) * geo A n.
Proof. rewrite geo_add. ring. Qed.
Lemma geo_pow A n : (A - 1) * geo A n = A ^ Z.of_nat n - 1.
Proof.
  induction n as [|n IH]; [cbn [geo]; change (A ^ Z.of_nat 0) with 1; ring|].
  cbn [geo]. rewrite pow_nat_S. replace ((A - 1) * (A * geo A n + 1)) with (A * ((A - 1) * geo A n) + A - 1) by ring. rewrite IH. ring.
Qed.
Lemma odd_pow A n : Z.odd A = true -> Z.odd (A ^ Z.of_nat n) = true.
Proof. intros H. induction n as [|n IH]; [reflexivity|]. rewrite pow_nat_S, Z.odd_mul, H, IH. reflexivity. Qed.
Lemma geo_pow2 A k : Z.odd A = true -> (2 ^ Z.of_nat k | geo A (2 ^ k)%nat).
Proof.
  intros HA. induction k as [|k IH]; [exists (geo A 1); cbn; lia|].
  replace (2 ^ S k)%nat with (2 ^ k + 2 ^ k)%nat by (cbn [Nat.pow]; lia).
  rewrite geo_double, Nat2Z.inj_succ, Z.pow_succ_r by lia.
  apply Z.mul_divide_mono_l with (p := 2) in IH. 
  assert (E : (2 | A ^ Z.of_nat (2 ^ k) + 1)).
  { apply Z.even_spec in HA || idtac. pose proof (odd_pow A (2 ^ k) HA) as O. apply Z.odd_spec in O. destruct O as [j Ej]. exists (j + 1). lia. }
  destruct E as [e Ee]. rewrite Ee. replace (e * 2 * geo A (2 ^ k)) with (e * (2 * geo A (2 ^ k))) by ring.
  apply Z.divide_mul_r. exact IH.
Qed.

Lemma full_period_nat A C x n : Z.odd A = true -> 0 <= x < 2 ^ 32 -> Z.of_nat n = 2 ^ 32 -> Nat.iter n (step A C) x = x.
Proof.
  intros HA Hx Hn. rewrite iter_step by exact Hx.
  assert (D : (2 ^ 32 | geo A n)).
  { replace n with (2 ^ 32)%nat by (apply Nat2Z.inj; rewrite Nat2Z.inj_pow, Hn; reflexivity). exact (geo_pow2 A 32 HA). }
  destruct D as [g Eg]. pose proof (geo_pow A n) as Hp.
  replace (A ^ Z.of_nat n * x + C * geo A n) with (x + ((A - 1) * g * x + C * g) * 2 ^ 32)
    by (replace (A ^ Z.of_nat n) with ((A - 1) * geo A n + 1) by lia; rewrite Eg; ring).
  rewrite Z.mod_add by lia. apply Z.mod_small. exact Hx.
Qed.
Lemma iter_add {T} (f : T -> T) m n x : Nat.iter (m + n) f x = Nat.iter m f (Nat.iter n f x).
Proof. induction m as [|m IH]; [reflexivity|]. cbn. f_equal. exact IH. Qed.
Lemma step_range A C x : 0 <= step A C x < 2 ^ 32.
Proof. apply mod_pow_bound. lia. Qed.
Lemma iter_range A C x n : 0 <= x < 2 ^ 32 -> 0 <= Nat.iter n (step A C) x < 2 ^ 32.
Proof. intros. destruct n; [assumption|]. cbn. apply step_range. Qed.

Lemma lcg_forward S A C d : 0 <= S < 2 ^ 32 -> 0 <= d < 2 ^ 31 ->
  lcg_skip S A C d = Some (Nat.iter (Z.to_nat d) (step A C) S).
Proof. intros. rewrite lcg_skip_ok by lia. destruct (Z.ltb_spec d 0); [lia|reflexivity]. Qed.
Lemma lcg_backward S A C d : Z.odd A = true -> 0 <= S < 2 ^ 32 -> - 2 ^ 31 <= d < 0 ->
  exists s, lcg_skip S A C d = Some s /\ 0 <= s < 2 ^ 32 /\ Nat.iter (Z.to_nat (- d)) (step A C) s = S.
Proof.
  intros HA HS Hd. eexists. split; [apply lcg_skip_ok; lia|]. split; [apply iter_range; exact HS|].
  destruct (Z.ltb_spec d 0); [|lia]. rewrite <- iter_add. apply full_period_nat; try assumption. lia.
Qed.
Lemma lcg_compose S A C a b : Z.odd A = true -> 0 <= S < 2 ^ 32 ->
  - 2 ^ 31 <= a < 2 ^ 31 -> - 2 ^ 31 <= b < 2 ^ 31 -> - 2 ^ 31 <= a + b < 2 ^ 31 ->
  exists s, lcg_skip S A C a = Some s /\ lcg_skip s A C b = lcg_skip S A C (a + b).
Proof.
  intros HA HS Ha Hb Hab. eexists. split; [apply lcg_skip_ok; lia|].
  rewrite !lcg_skip_ok by (assumption || apply iter_range; assumption). f_equal. rewrite <- iter_add.
  set (u := if a <? 0 then 2 ^ 32 + a else a). set (v := if b <? 0 then 2 ^ 32 + b else b).
  set (w := if a + b <? 0 then 2 ^ 32 + (a + b) else a + b).
  assert (H : (0 <= u /\ 0 <= v /\ 0 <= w) /\ (v + u = w \/ v + u = w + 2 ^ 32)).
  { unfold u, v, w. destruct (Z.ltb_spec a 0), (Z.ltb_spec b 0), (Z.ltb_spec (a + b) 0); lia. }
  destruct H as [(Hu & Hv & Hw) [H|H]].
  - f_equal. lia.
  - replace (Z.to_nat v + Z.to_nat u)%nat with (Z.to_nat w + Z.to_nat (2 ^ 32))%nat by lia.
    rewrite iter_add. f_equal. apply full_period_nat; try assumption. lia.
Qed.

(** ** The period is exactly 2^32 when A = 1 mod 4 and C is odd. *)
Lemma geo_val A n k : A mod 4 = 1 -> (0 < n)%nat -> (2 ^ Z.of_nat k | geo A n) -> (2 ^ Z.of_nat k | Z.of_nat n).
Proof.
  intros HA. assert (HO : Z.odd A = true).
  { rewrite <- Z.bit0_odd. rewrite Z.bit0_eqb. apply Z.eqb_eq. pose proof (Z.div_mod A 4 ltac:(lia)). rewrite HA in H. rewrite H.
    replace (4 * (A / 4) + 1) with (1 + (2 * (A / 4)) * 2) by ring. rewrite Z.mod_add by lia. reflexivity. }
  revert k. induction n as [n IH] using lt_wf_ind. intros k Hn H.
  assert (Hgo : forall m, Z.odd (geo A m) = Z.odd (Z.of_nat m)).
  { induction m as [|m IHm]; [reflexivity|]. cbn [geo]. rewrite Z.odd_add, Z.odd_mul, HO, IHm, Nat2Z.inj_succ, Z.odd_succ, <- Z.negb_odd.
    destruct (Z.odd (Z.of_nat m)); reflexivity. }
  destruct k as [|k]; [exists (Z.of_nat n); lia|].
  assert (HE : Z.odd (Z.of_nat n) = false).
  { rewrite <- Hgo. destruct (Z.odd (geo A n)) eqn:O; [|reflexivity]. exfalso. destruct H as [q Hq].
    rewrite Nat2Z.inj_succ, Z.pow_succ_r in Hq by lia. rewrite Hq, !Z.odd_mul in O. cbn in O. rewrite andb_false_r in O. discriminate. }
  assert (exists m, n = (m + m)%nat) as [m Em].
  { exists (Z.to_nat (Z.of_nat n / 2)). rewrite <- Z.negb_even in HE. apply negb_false_iff in HE. apply Z.even_spec in HE. destruct HE as [j Hj].
    rewrite Hj, Z.mul_comm, Z.div_mul by lia. lia. }
  subst n. rewrite geo_double in H.
  (* A^m + 1 = 2 mod 4 *)
  assert (HP : exists o, A ^ Z.of_nat m + 1 = 2 * o /\ Z.odd o = true).
  { assert (M4 : (A ^ Z.of_nat m) mod 4 = 1).
    { clear - HA. induction m as [|m IHm]; [reflexivity|]. rewrite pow_nat_S, Z.mul_mod, HA, IHm by lia. reflexivity. }
    exists (2 * (A ^ Z.of_nat m / 4) + 1). pose proof (Z.div_mod (A ^ Z.of_nat m) 4 ltac:(lia)). split; [lia|].
    rewrite Z.odd_add, Z.odd_mul. reflexivity. }
  destruct HP as (o & Eo & Oo). rewrite Eo, Nat2Z.inj_succ, Z.pow_succ_r in H by lia.
  replace (2 * o * geo A m) with (2 * (o * geo A m)) in H by ring. apply Z.mul_divide_cancel_l in H; [|lia].
  assert (HG : (2 ^ Z.of_nat k | geo A m)).
  { apply Gauss with o; [exact H|]. apply rel_prime_sym. apply rel_prime_Zpower_r; [lia|].
    apply rel_prime_sym. apply prime_rel_prime; [exact prime_2|]. intros [q Hq]. rewrite Hq, Z.odd_mul, andb_false_r in Oo. discriminate. }
  specialize (IH m ltac:(lia) k ltac:(lia) HG).
  destruct IH as [q Hq]. exists q. rewrite Nat2Z.inj_add, Nat2Z.inj_succ, Z.pow_succ_r by lia. lia.
Qed.
Lemma lcg_period A C x n : A mod 4 = 1 -> Z.odd C = true -> 0 <= x < 2 ^ 32 -> (0 < n)%nat ->
  Nat.iter n (step A C) x = x -> 2 ^ 32 <= Z.of_nat n.
Proof.
  intros HA HC Hx Hn H. rewrite iter_step in H by exact Hx.
  assert (D : (2 ^ 32 | geo A n)).
  { assert (D0 : (2 ^ 32 | geo A n * ((A - 1) * x + C))).
    { pose proof (geo_pow A n) as Hp.
      replace (geo A n * ((A - 1) * x + C)) with (A ^ Z.of_nat n * x + C * geo A n - x)
        by (replace (A ^ Z.of_nat n) with ((A - 1) * geo A n + 1) by lia; ring).
      apply Z.mod_divide; [lia|]. rewrite Zminus_mod, H, (Z.mod_small x) by lia. rewrite Z.sub_diag. reflexivity. }
    rewrite Z.mul_comm in D0. apply Gauss with ((A - 1) * x + C); [exact D0|]. apply rel_prime_sym, rel_prime_Zpower_r; [lia|].
    apply rel_prime_sym. apply prime_rel_prime; [exact prime_2|]. intros [q Hq].
    pose proof (Z.div_mod A 4 ltac:(lia)) as HA4. apply Z.odd_spec in HC. destruct HC as [c Hc].
    assert (F : Z.even ((A - 1) * x + C) = false).
    { rewrite Hc. replace (A - 1) with (2 * (2 * (A / 4))) by lia.
      replace (2 * (2 * (A / 4)) * x + (2 * c + 1)) with (1 + 2 * (2 * (A / 4) * x + c)) by ring. rewrite Z.even_add_mul_2. reflexivity. }
    rewrite Hq, Z.even_mul, orb_true_r in F. discriminate. }
  pose proof (geo_val A n 32 HA Hn D) as G. apply Z.divide_pos_le in G; [|lia]. exact G.
Qed.
