(** The generators modulo a prime. *)
From Coq Require Import ZArith Bool Lia Znumtheory Zpow_facts List.
From Verif Require Import Fw FwLemmas SpecCt Lcg LcgProofs.
Open Scope Z_scope.

Lemma inv_mod_ok A M B : inv_mod A M = Some B ->
  1 < M < 2 ^ 32 /\ 0 < A < M /\ 0 < B < M /\ (A * B) mod M = 1 /\ inv_mod B M = Some A.
Proof.
  unfold inv_mod at 1. intros H.
  destruct (Z.eqb_spec A p_A1) as [->|_], (Z.eqb_spec M p_M1) as [->|_]; cbn [andb] in H;
    try (injection H as <-; repeat split; vm_compute; reflexivity);
    (destruct (Z.eqb_spec A p_A1inv) as [->|_] || idtac); cbn [andb] in H;
    try (injection H as <-; repeat split; vm_compute; reflexivity);
    (destruct (Z.eqb_spec A p_A2) as [->|_] || idtac); (destruct (Z.eqb_spec M p_M2) as [->|_] || idtac); cbn [andb] in H;
    try (injection H as <-; repeat split; vm_compute; reflexivity);
    (destruct (Z.eqb_spec A p_A2inv) as [->|_] || idtac); cbn [andb] in H;
    try (injection H as <-; repeat split; vm_compute; reflexivity); try discriminate H; vm_compute in H; try discriminate H;
    injection H as <-; repeat split; vm_compute; reflexivity.
Qed.

Lemma p_comb A M q r k a : 1 < M < 2 ^ 32 -> 0 < A < M -> 0 <= q -> 0 <= r <= 1 -> k = 2 * q + r -> a = A ^ q mod M ->
  w32 (w64 (w64 (a * a) mod M * (if r =? 1 then A else 1)) mod M) = A ^ k mod M.
Proof.
  intros HM HA Hq Hr Hk Ha.
  assert (Ra : 0 <= a < M) by (subst a; apply Z.mod_pos_bound; lia).
  assert (R1 : 0 <= a * a < 2 ^ 64) by nia.
  assert (R2 : 0 <= (a * a) mod M < M) by (apply Z.mod_pos_bound; lia).
  assert (R3 : 0 <= (if r =? 1 then A else 1) < M) by (destruct (r =? 1); lia).
  unfold w64 at 2. rewrite (Z.mod_small (a * a)) by exact R1. unfold w64.
  rewrite (Z.mod_small ((a * a) mod M * _) (2 ^ 64)) by (revert R2 R3 HM; clear; generalize ((a * a) mod M) (if r =? 1 then A else 1); intros; nia).
  unfold w32. rewrite (Z.mod_small _ (2 ^ 32)).
  2:{ pose proof (Z.mod_pos_bound ((a * a) mod M * (if r =? 1 then A else 1)) M ltac:(lia)). lia. }
  rewrite Zmult_mod_idemp_l.
  assert (E : (if r =? 1 then A else 1) = A ^ r) by (destruct (Z.eqb_spec r 1); [subst; rewrite Z.pow_1_r|replace r with 0 by lia]; reflexivity).
  rewrite E, Ha, <- Zmult_mod_idemp_l, <- Z.mul_mod, Zmult_mod_idemp_l by lia.
  rewrite <- !Z.pow_add_r by lia. f_equal. f_equal. lia.
Qed.

Lemma p_mult_pos n : forall k A M B, inv_mod A M = Some B -> 0 <= k < 2 ^ Z.of_nat n -> k < 2 ^ 31 ->
  p_mult (S n) k A M = Some (A ^ k mod M).
Proof.
  induction n as [|n IH]; intros k A M B HB Hk Hk2; pose proof (inv_mod_ok A M B HB) as (HM & HA & _).
  - change (2 ^ Z.of_nat 0) with 1 in Hk. replace k with 0 by lia. cbn [p_mult]. rewrite Z.pow_0_r, Z.mod_small by lia. reflexivity.
  - remember (S n) as m eqn:Em. cbn [p_mult]. destruct (Z.eqb_spec k 0) as [->|N0]; [rewrite Z.pow_0_r, Z.mod_small by lia; reflexivity|].
    rewrite HB. cbn [bind]. unfold assert_. destruct (Z.eqb_spec k (- 2 ^ 31)); [lia|]. cbn [negb bind].
    destruct (Z.ltb_spec k 0); [lia|]. rewrite Z.quot_div_nonneg by lia.
    pose proof (Z.div_mod k 2 ltac:(lia)) as Hd. pose proof (Z.mod_pos_bound k 2 ltac:(lia)) as Hm.
    rewrite Em, Nat2Z.inj_succ, Z.pow_succ_r in Hk by lia. rewrite (IH (k / 2) A M B HB) by lia. cbn [bind]. f_equal.
    replace (Z.odd k) with (k mod 2 =? 1) by (rewrite Zmod_odd; destruct (Z.odd k); reflexivity).
    apply p_comb with (q := k / 2); try lia; reflexivity.
Qed.
Lemma p_mult_neg n : forall k A M B, inv_mod A M = Some B -> - 2 ^ 31 < k < 0 ->
  p_mult (S n) k A M = p_mult (S n) (- k) B M.
Proof.
  intros k A M B HB Hk. pose proof (inv_mod_ok A M B HB) as (_ & _ & _ & _ & HB2). cbn [p_mult].
  destruct (Z.eqb_spec k 0); [lia|]. destruct (Z.eqb_spec (- k) 0); [lia|]. rewrite HB, HB2. cbn [bind]. unfold assert_.
  destruct (Z.eqb_spec k (- 2 ^ 31)); [lia|]. destruct (Z.eqb_spec (- k) (- 2 ^ 31)); [lia|]. cbn [negb bind].
  destruct (Z.ltb_spec k 0); [|lia]. destruct (Z.ltb_spec (- k) 0); [lia|]. reflexivity.
Qed.

Lemma iter_pstep A M x n : 0 < M -> 0 <= x < M -> Nat.iter n (pstep A M) x = (A ^ Z.of_nat n * x) mod M.
Proof.
  intros HM Hx. induction n as [|n IH]; [change (A ^ Z.of_nat 0) with 1; rewrite Z.mul_1_l, Z.mod_small by lia; reflexivity|].
  change (Nat.iter (S n) (pstep A M) x) with (pstep A M (Nat.iter n (pstep A M) x)). rewrite IH. unfold pstep.
  rewrite Zmult_mod_idemp_r, pow_nat_S. f_equal. ring.
Qed.

Lemma p_skip_pos S A M B d : inv_mod A M = Some B -> 0 <= S < M -> 0 <= d < 2 ^ 31 ->
  p_skip S A M d = Some (Nat.iter (Z.to_nat d) (pstep A M) S).
Proof.
  intros HB HS Hd. pose proof (inv_mod_ok A M B HB) as (HM & HA & _). unfold p_skip, assert_, is_int.
  destruct (Z.leb_spec (- 2 ^ 31) d); [|lia]. destruct (Z.ltb_spec d (2 ^ 31)); [|lia]. cbn [andb bind].
  rewrite (p_mult_pos 63 d A M B HB) by lia. cbn [bind]. f_equal. rewrite iter_pstep, Z2Nat.id by lia.
  pose proof (Z.mod_pos_bound (A ^ d) M ltac:(lia)) as R. unfold w64. rewrite (Z.mod_small (S * _)) by nia.
  rewrite Zmult_mod_idemp_r, (Z.mul_comm S). unfold w32. apply Z.mod_small.
  pose proof (Z.mod_pos_bound (A ^ d * S) M ltac:(lia)). lia.
Qed.
Lemma p_skip_neg S A M B d : inv_mod A M = Some B -> 0 <= S < M -> - 2 ^ 31 < d < 0 ->
  p_skip S A M d = Some (Nat.iter (Z.to_nat (- d)) (pstep B M) S).
Proof.
  intros HB HS Hd. pose proof (inv_mod_ok A M B HB) as (HM & _ & _ & _ & HB2).
  rewrite <- (p_skip_pos S B M A (- d) HB2 HS) by lia. unfold p_skip, assert_, is_int.
  destruct (Z.leb_spec (- 2 ^ 31) d); [|lia]. destruct (Z.ltb_spec d (2 ^ 31)); [|lia].
  destruct (Z.leb_spec (- 2 ^ 31) (- d)); [|lia]. destruct (Z.ltb_spec (- d) (2 ^ 31)); [|lia]. cbn [andb bind].
  rewrite (p_mult_neg 63 d A M B HB) by lia. reflexivity.
Qed.
Lemma p_skip_min S A M : p_skip S A M (- 2 ^ 31) = None.
Proof.
  unfold p_skip, assert_, is_int. cbn [andb bind Z.leb Z.ltb Z.compare].
  replace (p_mult 64 (- 2 ^ 31) A M) with (@None Z); [reflexivity|].
  assert (G : forall n, p_mult (Datatypes.S n) (- 2 ^ 31) A M = None) by (intros n; cbn [p_mult]; destruct (inv_mod A M); reflexivity).
  symmetry. apply (G 63%nat).
Qed.

Lemma pstep_inv A B M x : 1 < M -> (A * B) mod M = 1 -> 0 <= x < M -> pstep A M (pstep B M x) = x.
Proof.
  intros HM H Hx. unfold pstep. rewrite Zmult_mod_idemp_r, Z.mul_assoc, <- Zmult_mod_idemp_l, H, Z.mul_1_l. apply Z.mod_small. exact Hx.
Qed.
Lemma pstep_range A M x : 0 < M -> 0 <= pstep A M x < M.
Proof. intros. apply Z.mod_pos_bound. exact H. Qed.
Lemma p_iter_range A M x n : 0 < M -> 0 <= x < M -> 0 <= Nat.iter n (pstep A M) x < M.
Proof. intros HM H. destruct n; [exact H|]. cbn. apply pstep_range. exact HM. Qed.
Lemma iter_inv A B M n x : 1 < M -> (A * B) mod M = 1 -> 0 <= x < M ->
  Nat.iter n (pstep A M) (Nat.iter n (pstep B M) x) = x.
Proof.
  intros HM H Hx. induction n as [|n IH]; [reflexivity|].
  change (Nat.iter (S n) (pstep B M) x) with (pstep B M (Nat.iter n (pstep B M) x)).
  replace (S n) with (n + 1)%nat by lia. rewrite iter_add. cbn [Nat.iter].
  assert (R : 0 <= Nat.iter n (pstep B M) x < M) by (apply p_iter_range; lia).
  change (Nat.iter 1 (pstep A M) ?y) with (pstep A M y). rewrite pstep_inv by assumption. exact IH.
Qed.

Lemma p_backward S A M B d : inv_mod A M = Some B -> 0 <= S < M -> - 2 ^ 31 < d < 0 ->
  exists s, p_skip S A M d = Some s /\ 0 <= s < M /\ Nat.iter (Z.to_nat (- d)) (pstep A M) s = S.
Proof.
  intros HB HS Hd. pose proof (inv_mod_ok A M B HB) as (HM & _ & _ & H1 & _).
  eexists. split; [exact (p_skip_neg S A M B d HB HS Hd)|]. split; [apply p_iter_range; lia|]. apply iter_inv; [lia|exact H1|exact HS].
Qed.

(** A skip in closed form: A^k S when d = k >= 0, B^k S when d = -k. *)
Lemma iter_inv2 A B M m n x : 1 < M -> (A * B) mod M = 1 -> 0 <= x < M ->
  Nat.iter (m + n) (pstep A M) (Nat.iter n (pstep B M) x) = Nat.iter m (pstep A M) x.
Proof. intros. rewrite iter_add, iter_inv by assumption. reflexivity. Qed.
Lemma p_compose S A M B a b : inv_mod A M = Some B -> 0 <= S < M ->
  - 2 ^ 31 < a < 2 ^ 31 -> - 2 ^ 31 < b < 2 ^ 31 -> - 2 ^ 31 < a + b < 2 ^ 31 ->
  exists s, p_skip S A M a = Some s /\ 0 <= s < M /\ p_skip s A M b = p_skip S A M (a + b).
Proof.
  intros HB HS Ha Hb Hab. pose proof (inv_mod_ok A M B HB) as (HM & HA & HB0 & H1 & HB2).
  assert (H1' : (B * A) mod M = 1) by (rewrite Z.mul_comm; exact H1).
  assert (RA : forall n, 0 <= Nat.iter n (pstep A M) S < M) by (intros; apply p_iter_range; lia).
  assert (RB : forall n, 0 <= Nat.iter n (pstep B M) S < M) by (intros; apply p_iter_range; lia).
  assert (Com : forall X Y m n x, 1 < M -> (X * Y) mod M = 1 -> 0 <= x < M ->
     Nat.iter m (pstep X M) (Nat.iter (m + n) (pstep Y M) x) = Nat.iter n (pstep Y M) x).
  { intros X Y m n x h1 h2 h3. rewrite iter_add. apply iter_inv; try assumption. apply p_iter_range; lia. }
  destruct (Z.leb_spec 0 a) as [La|La], (Z.leb_spec 0 b) as [Lb|Lb].
  - eexists. split; [apply (p_skip_pos S A M B); assumption || lia|]. split; [apply RA|].
    rewrite !(p_skip_pos _ A M B) by (assumption || apply RA || lia). f_equal. rewrite <- iter_add. f_equal. lia.
  - eexists. split; [apply (p_skip_pos S A M B); assumption || lia|]. split; [apply RA|].
    rewrite (p_skip_neg _ A M B) by (assumption || apply RA || lia).
    destruct (Z.leb_spec 0 (a + b)).
    + rewrite (p_skip_pos _ A M B) by (assumption || lia). f_equal.
      replace (Z.to_nat a) with (Z.to_nat (- b) + Z.to_nat (a + b))%nat by lia. apply Com; try assumption; lia.
    + rewrite (p_skip_neg _ A M B) by (assumption || lia). f_equal.
      replace (Z.to_nat (- b)) with (Z.to_nat (- (a + b)) + Z.to_nat a)%nat by lia. apply iter_inv2; try assumption; lia.
  - eexists. split; [apply (p_skip_neg S A M B); assumption || lia|]. split; [apply RB|].
    rewrite (p_skip_pos _ A M B) by (assumption || apply RB || lia).
    destruct (Z.leb_spec 0 (a + b)).
    + rewrite (p_skip_pos _ A M B) by (assumption || lia). f_equal.
      replace (Z.to_nat b) with (Z.to_nat (a + b) + Z.to_nat (- a))%nat by lia. apply iter_inv2; try assumption; lia.
    + rewrite (p_skip_neg _ A M B) by (assumption || lia). f_equal.
      replace (Z.to_nat (- a)) with (Z.to_nat b + Z.to_nat (- (a + b)))%nat by lia. apply Com; try assumption; lia.
  - eexists. split; [apply (p_skip_neg S A M B); assumption || lia|]. split; [apply RB|].
    rewrite !(p_skip_neg _ A M B) by (assumption || apply RB || lia). f_equal. rewrite <- iter_add. f_equal. lia.
Qed.

(** The state never becomes zero. *)
Lemma p_nonzero S A M B d s : inv_mod A M = Some B -> 0 < S < M -> p_skip S A M d = Some s -> 0 < s < M.
Proof.
  intros HB HS E. pose proof (inv_mod_ok A M B HB) as (HM & HA & HB0 & H1 & HB2).
  assert (H1' : (B * A) mod M = 1) by (rewrite Z.mul_comm; exact H1).
  assert (Hd : - 2 ^ 31 < d < 2 ^ 31).
  { destruct (Z.eq_dec d (- 2 ^ 31)) as [->|]; [rewrite p_skip_min in E; discriminate|].
    unfold p_skip, assert_, is_int in E. destruct (Z.leb_spec (- 2 ^ 31) d); [|discriminate]. destruct (Z.ltb_spec d (2 ^ 31)); [lia|discriminate]. }
  assert (Z0 : forall X n, Nat.iter n (pstep X M) 0 = 0).
  { intros X n. induction n as [|n IH]; [reflexivity|]. change (Nat.iter (Datatypes.S n) (pstep X M) 0) with (pstep X M (Nat.iter n (pstep X M) 0)).
    rewrite IH. unfold pstep. rewrite Z.mul_0_r. apply Z.mod_0_l. lia. }
  assert (Main : forall X Y n, (X * Y) mod M = 1 -> Nat.iter n (pstep Y M) S <> 0).
  { intros X Y n H F. pose proof (iter_inv X Y M n S ltac:(lia) H ltac:(lia)) as G. rewrite F, Z0 in G. lia. }
  destruct (Z.leb_spec 0 d).
  - rewrite (p_skip_pos S A M B) in E by (assumption || lia). injection E as <-.
    pose proof (p_iter_range A M S (Z.to_nat d) ltac:(lia) ltac:(lia)). pose proof (Main B A (Z.to_nat d) H1'). lia.
  - rewrite (p_skip_neg S A M B) in E by (assumption || lia). injection E as <-.
    pose proof (p_iter_range B M S (Z.to_nat (- d)) ltac:(lia) ltac:(lia)). pose proof (Main A B (Z.to_nat (- d)) H1). lia.
Qed.

(** ** Periods *)
(** Trial division. *)
Fixpoint no_div (n : nat) (d p : Z) : bool :=
  match n with O => true | S n => negb (p mod d =? 0) && no_div n (d + 1) p end.
Lemma no_div_ok n : forall d p, 0 < d -> no_div n d p = true -> forall e, d <= e < d + Z.of_nat n -> ~ (e | p).
Proof.
  induction n as [|n IH]; intros d p Hd H e He; [lia|]. cbn [no_div] in H. apply andb_true_iff in H. destruct H as [H1 H2].
  destruct (Z.eq_dec e d) as [->|].
  - intros F. apply Z.mod_divide in F; [|lia]. rewrite F in H1. discriminate.
  - apply (IH (d + 1) p); [lia|exact H2|lia].
Qed.
Lemma trial_prime p n : 1 < p -> p < (Z.of_nat n + 2) * (Z.of_nat n + 2) -> no_div n 2 p = true -> prime p.
Proof.
  intros Hp Hn H. apply prime_alt. split; [exact Hp|]. intros e He D.
  pose proof (no_div_ok n 2 p ltac:(lia) H) as N.
  destruct (Z.lt_ge_cases e (2 + Z.of_nat n)); [apply (N e); [lia|exact D]|].
  destruct D as [f Ef]. apply (N f); [nia|]. exists e. lia.
Qed.
Lemma prime_M2 : prime p_M2.
Proof. apply (trial_prime _ (Z.to_nat 46341)); vm_compute; reflexivity. Qed.
Lemma prime_M1 : prime p_M1.
Proof. apply (trial_prime _ (Z.to_nat 65536)); vm_compute; reflexivity. Qed.

(** Powers modulo m by squaring, to compute with. *)
Fixpoint ppow (a m : Z) (p : positive) : Z :=
  match p with
  | xH => a mod m
  | xO p => let x := ppow a m p in (x * x) mod m
  | xI p => let x := ppow a m p in (x * x * a) mod m
  end.
Lemma ppow_ok a m p : 0 < m -> ppow a m p = a ^ Zpos p mod m.
Proof.
  intros Hm. induction p as [p IH|p IH|]; cbn [ppow]; try rewrite IH.
  - rewrite <- Zmult_mod_idemp_l, <- Z.mul_mod, Zmult_mod_idemp_l by lia. rewrite Pos2Z.inj_xI.
    replace (2 * Zpos p + 1) with (Zpos p + Zpos p + 1) by lia. rewrite !Z.pow_add_r, Z.pow_1_r by lia. reflexivity.
  - rewrite <- Z.mul_mod by lia. rewrite Pos2Z.inj_xO. replace (2 * Zpos p) with (Zpos p + Zpos p) by lia.
    rewrite Z.pow_add_r by lia. reflexivity.
  - rewrite Z.pow_1_r. reflexivity.
Qed.

Lemma prime_factor_in (fs : list Z) : Forall prime fs -> forall c, 1 < c -> (c | fold_right Z.mul 1 fs) -> exists q, In q fs /\ (q | c).
Proof.
  induction 1 as [|q fs Hq Hfs IH]; intros c Hc D; cbn [fold_right] in D.
  - exfalso. apply Z.divide_pos_le in D; lia.
  - destruct (Zdivide_dec q c) as [Dq|Nq]; [exists q; split; [left; reflexivity|exact Dq]|].
    destruct (IH c Hc) as (r & Hr & Dr).
    { apply Gauss with q; [exact D|]. apply rel_prime_sym. apply prime_rel_prime; assumption. }
    exists r. split; [right; exact Hr|exact Dr].
Qed.

Lemma pow_mult_1 A M n k : 1 < M -> 0 <= n -> 0 <= k -> A ^ n mod M = 1 -> A ^ (n * k) mod M = 1.
Proof.
  intros HM Hn Hk H. rewrite Z.pow_mul_r by lia. rewrite Zpower_mod, H by lia. rewrite Z.pow_1_l by lia. apply Z.mod_small. lia.
Qed.

Lemma order_exact A M N fs : 1 < M -> 0 < N -> A ^ N mod M = 1 -> N = fold_right Z.mul 1 fs -> Forall prime fs ->
  (forall q, In q fs -> A ^ (N / q) mod M <> 1) ->
  forall n, 0 < n -> A ^ n mod M = 1 -> (N | n).
Proof.
  intros HM HN H1 HF HP HQ n Hn Hn1.
  destruct (Zis_gcd_bezout n N (Z.gcd n N) (Zgcd_is_gcd n N)) as [u v Huv].
  remember (Z.gcd n N) as g eqn:Eg.
  assert (Hg : 0 < g) by (pose proof (Z.gcd_nonneg n N); pose proof (Z.gcd_eq_0_r n N); destruct (Z.eq_dec g 0); lia).
  assert (Dn : (g | n)) by (subst g; apply Z.gcd_divide_l).
  assert (DN : (g | N)) by (subst g; apply Z.gcd_divide_r).
  pose proof (Z.divide_pos_le g N HN DN) as HgN.
  assert (Hg1 : A ^ g mod M = 1).
  { remember (u + (Z.abs u + 1) * N) as u' eqn:Eu. remember ((Z.abs u + 1) * n - v) as w eqn:Ew.
    assert (E : u' * n = g + w * N) by (subst u' w; lia).
    assert (Hu : 0 < u') by (subst u'; clear - HN; nia).
    assert (Hw : 0 <= w) by (clear - E Hu Hn HgN Hg HN; nia).
    assert (G : A ^ (u' * n) mod M = 1) by (rewrite Z.mul_comm; apply pow_mult_1; lia).
    assert (HwN : 0 <= w * N) by (apply Z.mul_nonneg_nonneg; lia).
    rewrite E, Z.pow_add_r, Z.mul_mod in G by lia. rewrite (Z.mul_comm w N), pow_mult_1 in G by lia.
    rewrite Z.mul_1_r, Zmod_mod in G. exact G. }
  destruct (Z.eq_dec g N) as [E|NE]; [rewrite <- E; exact Dn|]. exfalso.
  destruct DN as [c Hc].
  assert (Hc1 : 1 < c) by (clear - Hc HgN NE Hg HN; nia).
  destruct (prime_factor_in fs HP c Hc1) as (q & Hq & [t Ht]).
  { exists g. rewrite <- HF, Hc. ring. }
  rewrite Forall_forall in HP. pose proof (prime_ge_2 q (HP q Hq)) as Hq2. apply (HQ q Hq).
  assert (Ht0 : 0 < t) by (clear - Ht Hc1 Hq2; nia).
  replace (N / q) with (g * t) by (apply Z.div_unique_exact; [lia|]; rewrite Hc, Ht; ring).
  apply pow_mult_1; lia.
Qed.

Definition fs2 : list Z := 2 :: 3 :: 3 :: 7 :: 11 :: 31 :: 151 :: 331 :: nil.
Definition fs1 : list Z := 2 :: 5 :: 19 :: 22605091 :: nil.
Ltac prime_by n := apply (trial_prime _ (Z.to_nat n)); vm_compute; reflexivity.
Lemma primes2 : Forall prime fs2.
Proof.
  unfold fs2. constructor; [prime_by 0|]. constructor; [prime_by 0|]. constructor; [prime_by 0|]. constructor; [prime_by 1|].
  constructor; [prime_by 2|]. constructor; [prime_by 4|]. constructor; [prime_by 11|]. constructor; [prime_by 17|]. constructor.
Qed.
Lemma primes1 : Forall prime fs1.
Proof.
  unfold fs1. constructor; [prime_by 0|]. constructor; [prime_by 1|]. constructor; [prime_by 3|]. constructor; [prime_by 4753|]. constructor.
Qed.
Lemma pow_compute A M e v : 0 < M -> 0 < e -> ppow A M (Z.to_pos e) = v -> A ^ e mod M = v.
Proof. intros HM He <-. rewrite ppow_ok, Z2Pos.id by assumption. reflexivity. Qed.
Lemma pow_compute_ne A M e v : 0 < M -> 0 < e -> (ppow A M (Z.to_pos e) =? v) = false -> A ^ e mod M <> v.
Proof. intros HM He H. rewrite <- (Z2Pos.id e), <- ppow_ok by assumption. apply Z.eqb_neq. exact H. Qed.
Lemma order2 n : 0 < n -> p_A2 ^ n mod p_M2 = 1 -> (p_M2 - 1 | n).
Proof.
  apply (order_exact p_A2 p_M2 (p_M2 - 1) fs2); [reflexivity|reflexivity|apply pow_compute; vm_compute; reflexivity|reflexivity|exact primes2|].
  intros q Hq. cbn [In fs2] in Hq.
  repeat (destruct Hq as [<-|Hq]; [apply pow_compute_ne; vm_compute; reflexivity|]). destruct Hq.
Qed.
Lemma order1 n : 0 < n -> p_A1 ^ n mod p_M1 = 1 -> (p_M1 - 1 | n).
Proof.
  apply (order_exact p_A1 p_M1 (p_M1 - 1) fs1); [reflexivity|reflexivity|apply pow_compute; vm_compute; reflexivity|reflexivity|exact primes1|].
  intros q Hq. cbn [In fs1] in Hq.
  repeat (destruct Hq as [<-|Hq]; [apply pow_compute_ne; vm_compute; reflexivity|]). destruct Hq.
Qed.

Lemma return_power A M x n : prime M -> 0 < x < M -> Nat.iter n (pstep A M) x = x -> A ^ Z.of_nat n mod M = 1.
Proof.
  intros HP Hx H. pose proof (prime_ge_2 M HP) as H2. rewrite iter_pstep in H by lia.
  assert (D : (M | x * (A ^ Z.of_nat n - 1))).
  { apply Z.mod_divide; [lia|]. replace (x * (A ^ Z.of_nat n - 1)) with (A ^ Z.of_nat n * x - x) by ring.
    rewrite Zminus_mod, H, (Z.mod_small x) by lia. rewrite Z.sub_diag. reflexivity. }
  apply Gauss in D; [|apply prime_rel_prime; [exact HP|]; intros F; apply Z.divide_pos_le in F; lia].
  destruct D as [q Hq]. replace (A ^ Z.of_nat n) with (1 + q * M) by lia. rewrite Z.mod_add, Z.mod_small by lia. reflexivity.
Qed.
Lemma power_return A M x n : 1 < M -> 0 <= x < M -> A ^ Z.of_nat n mod M = 1 -> Nat.iter n (pstep A M) x = x.
Proof. intros HM Hx H. rewrite iter_pstep, <- Zmult_mod_idemp_l, H, Z.mul_1_l by lia. apply Z.mod_small. exact Hx. Qed.

Lemma p_period2 x n : 0 < x < p_M2 -> (Nat.iter n (pstep p_A2 p_M2) x = x <-> (p_M2 - 1 | Z.of_nat n)).
Proof.
  intros Hx. split.
  - intros H. destruct n; [exists 0; reflexivity|]. apply order2; [lia|]. apply return_power with x; [exact prime_M2|exact Hx|exact H].
  - intros [q Hq]. apply power_return; [reflexivity|lia|]. rewrite Hq, Z.mul_comm.
    apply pow_mult_1; [reflexivity|vm_compute; discriminate|pose proof (eq_refl : 0 < p_M2 - 1); nia|apply pow_compute; vm_compute; reflexivity].
Qed.
Lemma p_period1 x n : 0 < x < p_M1 -> (Nat.iter n (pstep p_A1 p_M1) x = x <-> (p_M1 - 1 | Z.of_nat n)).
Proof.
  intros Hx. split.
  - intros H. destruct n; [exists 0; reflexivity|]. apply order1; [lia|]. apply return_power with x; [exact prime_M1|exact Hx|exact H].
  - intros [q Hq]. apply power_return; [reflexivity|lia|]. rewrite Hq, Z.mul_comm.
    apply pow_mult_1; [reflexivity|vm_compute; discriminate|pose proof (eq_refl : 0 < p_M1 - 1); nia|apply pow_compute; vm_compute; reflexivity].
Qed.

(** ** What the periods mean for skips *)
Lemma inv_mod_prime A M B : inv_mod A M = Some B -> prime M /\ 0 < A < M /\ 0 < B < M /\ (A * B) mod M = 1.
Proof.
  intros H. pose proof (inv_mod_ok A M B H) as (_ & HA & HB & H1 & _). split; [|split; [exact HA|split; [exact HB|exact H1]]].
  unfold inv_mod in H.
  destruct (Z.eqb_spec M p_M1) as [->|N1]; [exact prime_M1|]. destruct (Z.eqb_spec M p_M2) as [->|N2]; [exact prime_M2|].
  rewrite !andb_false_r in H. discriminate.
Qed.

Lemma some_inj {T} (x y : T) : Some x = Some y -> x = y.
Proof. congruence. Qed.
Lemma iter_fix {T} (f : T -> T) n x : Nat.iter n f x = x -> forall q, Nat.iter (q * n) f x = x.
Proof. intros H q. induction q as [|q IH]; [reflexivity|]. cbn [Nat.mul]. rewrite iter_add, IH. exact H. Qed.
Lemma lcg_shipped_period x n : 0 <= x < 2 ^ 32 -> (Nat.iter n (step lcg_A lcg_C) x = x <-> (2 ^ 32 | Z.of_nat n)).
Proof.
  intros Hx. remember (Z.to_nat (2 ^ 32)) as N eqn:EN. assert (HN : Z.of_nat N = 2 ^ 32) by (rewrite EN; apply Z2Nat.id; lia). clear EN.
  pose proof (full_period_nat lcg_A lcg_C x N eq_refl Hx HN) as F. pose proof (iter_fix (step lcg_A lcg_C) N x F) as FF.
  pose proof (lcg_period lcg_A lcg_C x) as P. split.
  - intros H. remember (step lcg_A lcg_C) as f eqn:Ef.
    pose proof (Nat.div_mod n N ltac:(lia)) as Hd. pose proof (Nat.mod_upper_bound n N ltac:(lia)) as Hm.
    rewrite Hd, Nat.add_comm, iter_add, Nat.mul_comm, FF in H.
    destruct (Nat.eq_dec (n mod N) 0) as [E|NE]; [exists (Z.of_nat (n / N)); lia|].
    specialize (P (n mod N)%nat eq_refl eq_refl Hx ltac:(lia) H). lia.
  - intros [q Hq]. replace n with (Z.to_nat q * N)%nat by lia. apply FF.
Qed.
Lemma skip_dom S A C d s : lcg_skip S A C d = Some s -> - 2 ^ 31 <= d < 2 ^ 31.
Proof. unfold lcg_skip, assert_, is_int. destruct (Z.leb_spec (- 2 ^ 31) d); [|discriminate]. destruct (Z.ltb_spec d (2 ^ 31)); [lia|discriminate]. Qed.
Lemma orbit_gap x u v : 0 <= x < 2 ^ 32 -> (u <= v)%nat ->
  Nat.iter u (step lcg_A lcg_C) x = Nat.iter v (step lcg_A lcg_C) x -> (2 ^ 32 | Z.of_nat v - Z.of_nat u).
Proof.
  intros Hx Huv H. rewrite <- Nat2Z.inj_sub by lia. apply (lcg_shipped_period (Nat.iter u (step lcg_A lcg_C) x)); [apply iter_range; exact Hx|].
  rewrite <- iter_add. replace (v - u + u)%nat with v by lia. symmetry. exact H.
Qed.
Lemma lcg_skip_inj S a b s : 0 <= S < 2 ^ 32 -> lcg_skip S lcg_A lcg_C a = Some s -> lcg_skip S lcg_A lcg_C b = Some s -> a = b.
Proof.
  intros HS Ha Hb. pose proof (skip_dom _ _ _ _ _ Ha) as Ra. pose proof (skip_dom _ _ _ _ _ Hb) as Rb.
  rewrite lcg_skip_ok in Ha, Hb by assumption. rewrite <- Hb in Ha. apply some_inj in Ha. rename Ha into E.
  remember (if a <? 0 then 2 ^ 32 + a else a) as u eqn:Eu. remember (if b <? 0 then 2 ^ 32 + b else b) as v eqn:Ev.
  assert (R : 0 <= u < 2 ^ 32 /\ 0 <= v < 2 ^ 32 /\ (u = v -> a = b)).
  { subst u v. destruct (Z.ltb_spec a 0), (Z.ltb_spec b 0); lia. }
  destruct R as (Ru & Rv & R). apply R. destruct (Z.le_ge_cases u v) as [L|L].
  - apply orbit_gap in E; [|exact HS|lia]. rewrite !Z2Nat.id in E by lia. destruct E as [q Hq]. lia.
  - symmetry in E. apply orbit_gap in E; [|exact HS|lia]. rewrite !Z2Nat.id in E by lia. destruct E as [q Hq]. lia.
Qed.
Lemma lcg_orbit_all x y N : 0 <= x < 2 ^ 32 -> 0 <= y < 2 ^ 32 -> Z.of_nat N = 2 ^ 32 ->
  exists n, (n < N)%nat /\ Nat.iter n (step lcg_A lcg_C) x = y.
Proof.
  intros Hx Hy HN. pose proof (iter_range lcg_A lcg_C x) as R. pose proof (fun u v => orbit_gap x u v Hx) as G.
  remember (fun i => Nat.iter i (step lcg_A lcg_C) x) as f eqn:Ef.
  assert (Rf : forall n, 0 <= f n < 2 ^ 32) by (intros n; rewrite Ef; exact (R n Hx)).
  assert (Gf : forall u v, (u <= v)%nat -> f u = f v -> (2 ^ 32 | Z.of_nat v - Z.of_nat u)) by (intros u v; rewrite Ef; exact (G u v)).
  assert (ND : NoDup (map f (seq 0 N))).
  { clear R G.
    assert (K : forall k, (k <= N)%nat -> NoDup (map f (seq 0 k))).
    { induction k as [|k IH]; intros Hk; [constructor|]. rewrite seq_S, map_app. cbn [map Nat.add].
      apply NoDup_rev in IH; [|lia]. apply NoDup_rev in IH || idtac.
      rewrite <- (rev_involutive (map f (seq 0 k) ++ f k :: nil)). apply NoDup_rev. rewrite rev_app_distr. cbn [rev app]. constructor.
      - rewrite <- in_rev, in_map_iff. intros (i & E & Hi). apply in_seq in Hi. apply Gf in E; [|lia]. destruct E as [q Hq]. nia.
      - apply NoDup_rev. rewrite rev_involutive in IH. exact IH. }
    apply K. lia. }
  assert (I : incl (map Z.of_nat (seq 0 N)) (map f (seq 0 N))).
  { apply NoDup_length_incl; [exact ND|rewrite !map_length; lia|]. intros z Hz. apply in_map_iff in Hz. destruct Hz as (i & <- & _).
    apply in_map_iff. pose proof (Rf i). exists (Z.to_nat (f i)). split; [apply Z2Nat.id; lia|]. apply in_seq. lia. }
  assert (Hin : In y (map Z.of_nat (seq 0 N))) by (apply in_map_iff; exists (Z.to_nat y); split; [apply Z2Nat.id; lia|apply in_seq; lia]).
  apply I in Hin. apply in_map_iff in Hin. destruct Hin as (i & E & Hi). apply in_seq in Hi. exists i. split; [lia|]. rewrite Ef in E. exact E.
Qed.
Lemma lcg_skip_onto S s : 0 <= S < 2 ^ 32 -> 0 <= s < 2 ^ 32 ->
  exists d, - 2 ^ 31 <= d < 2 ^ 31 /\ lcg_skip S lcg_A lcg_C d = Some s.
Proof.
  intros HS Hs. remember (Z.to_nat (2 ^ 32)) as N eqn:EN. assert (HN : Z.of_nat N = 2 ^ 32) by (rewrite EN; apply Z2Nat.id; lia). clear EN.
  destruct (lcg_orbit_all S s N HS Hs HN) as (n & Hn & E).
  exists (if Z.of_nat n <? 2 ^ 31 then Z.of_nat n else Z.of_nat n - 2 ^ 32).
  destruct (Z.ltb_spec (Z.of_nat n) (2 ^ 31)); (split; [lia|]); rewrite lcg_skip_ok by (assumption || lia); rewrite <- E; f_equal; f_equal.
  - destruct (Z.ltb_spec (Z.of_nat n) 0); lia.
  - destruct (Z.ltb_spec (Z.of_nat n - 2 ^ 32) 0); lia.
Qed.
Lemma lcg_even : exists S A C, 0 <= S < 2 ^ 32 /\ 0 <= A < 2 ^ 32 /\ 0 <= C < 2 ^ 32 /\
  forall s, lcg_skip S A C (-1) = Some s -> Nat.iter 1 (step A C) s <> S.
Proof.
  exists 1, 2, 0. split; [lia|]. split; [lia|]. split; [lia|]. intros s _ H. cbn [Nat.iter] in H.
  assert (O : Z.odd (step 2 0 s) = true) by (change (step 2 0 s = 1) in H; rewrite H; reflexivity).
  unfold step in O. rewrite Z.add_0_r in O. change (2 ^ 32) with (2 * 2 ^ 31) in O. rewrite Z.mul_mod_distr_l in O by lia.
  rewrite Z.odd_mul in O. discriminate.
Qed.

Lemma p_skip_dom S A M d s : p_skip S A M d = Some s -> - 2 ^ 31 < d < 2 ^ 31.
Proof.
  intros E. destruct (Z.eq_dec d (- 2 ^ 31)) as [->|]; [rewrite p_skip_min in E; discriminate|].
  unfold p_skip, assert_, is_int in E. destruct (Z.leb_spec (- 2 ^ 31) d); [|discriminate]. destruct (Z.ltb_spec d (2 ^ 31)); [lia|discriminate].
Qed.
Lemma p_skip_same S A M B N a b s : inv_mod A M = Some B ->
  (forall x n, 0 < x < M -> Nat.iter n (pstep A M) x = x -> (N | Z.of_nat n)) ->
  0 < S < M -> a <= b -> p_skip S A M a = Some s -> p_skip S A M b = Some s -> (N | b - a).
Proof.
  intros HB HN HS Hab Ea Eb. pose proof (inv_mod_ok A M B HB) as (HM & HA & HB0 & H1 & HB2).
  pose proof (p_skip_dom _ _ _ _ _ Ea) as Ra. pose proof (p_skip_dom _ _ _ _ _ Eb) as Rb.
  assert (G : Nat.iter (Z.to_nat (b - a)) (pstep A M) s = s).
  { destruct (Z.leb_spec 0 a) as [La|La].
    - rewrite (p_skip_pos S A M B) in Ea, Eb by (assumption || lia). apply some_inj in Ea.  apply some_inj in Eb. 
      rewrite <- Ea at 1. rewrite <- iter_add. replace (Z.to_nat (b - a) + Z.to_nat a)%nat with (Z.to_nat b) by lia. exact Eb.
    - destruct (Z.leb_spec 0 b) as [Lb|Lb].
      + rewrite (p_skip_neg S A M B) in Ea by (assumption || lia). rewrite (p_skip_pos S A M B) in Eb by (assumption || lia).
        apply some_inj in Ea.  apply some_inj in Eb.  rewrite <- Ea at 1. replace (Z.to_nat (b - a)) with (Z.to_nat b + Z.to_nat (- a))%nat by lia.
        rewrite iter_inv2; [exact Eb|lia|exact H1|lia].
      + rewrite (p_skip_neg S A M B) in Ea, Eb by (assumption || lia). apply some_inj in Ea.  apply some_inj in Eb.  rewrite <- Ea at 1.
        replace (Z.to_nat (- a)) with (Z.to_nat (b - a) + Z.to_nat (- b))%nat by lia. rewrite iter_add, iter_inv; [exact Eb|lia|exact H1|].
        apply p_iter_range; lia. }
  apply HN in G; [rewrite Z2Nat.id in G by lia; exact G|]. exact (p_nonzero S A M B a s HB HS Ea).
Qed.
Lemma p_skip_inj1 S a b s : 0 < S < p_M1 -> p_skip S p_A1 p_M1 a = Some s -> p_skip S p_A1 p_M1 b = Some s -> (4294967290 | a - b).
Proof.
  intros HS Ea Eb. destruct (Z.le_ge_cases a b) as [L|L].
  - replace (a - b) with (- (b - a)) by ring. apply Z.divide_opp_r.
    exact (p_skip_same S p_A1 p_M1 p_A1inv (p_M1 - 1) a b s eq_refl (fun x n h => proj1 (p_period1 x n h)) HS L Ea Eb).
  - exact (p_skip_same S p_A1 p_M1 p_A1inv (p_M1 - 1) b a s eq_refl (fun x n h => proj1 (p_period1 x n h)) HS L Eb Ea).
Qed.
Lemma p_skip_inj2 S a b s : 0 < S < p_M2 -> p_skip S p_A2 p_M2 a = Some s -> p_skip S p_A2 p_M2 b = Some s -> (2147483646 | a - b).
Proof.
  intros HS Ea Eb. destruct (Z.le_ge_cases a b) as [L|L].
  - replace (a - b) with (- (b - a)) by ring. apply Z.divide_opp_r.
    exact (p_skip_same S p_A2 p_M2 p_A2inv (p_M2 - 1) a b s eq_refl (fun x n h => proj1 (p_period2 x n h)) HS L Ea Eb).
  - exact (p_skip_same S p_A2 p_M2 p_A2inv (p_M2 - 1) b a s eq_refl (fun x n h => proj1 (p_period2 x n h)) HS L Eb Ea).
Qed.

(** Seeds: accepted exactly when the state they give is not zero. *)
Lemma p_seed_spec S M : 0 < M -> 0 <= S ->
  (~ (M | S) -> exists s, p_seed S M = Some s /\ 0 < s < M /\ (M | S - s)) /\ ((M | S) -> p_seed S M = None).
Proof.
  intros HM HS. unfold p_seed. pose proof (Z.mod_pos_bound S M HM) as B. split.
  - intros ND. assert (S mod M <> 0) as Nz by (intros E; apply ND, Z.mod_divide; lia). replace (S mod M =? 0) with false by lia. cbn [negb assert_ bind].
    exists (S mod M). split; [reflexivity|]. split; [lia|]. exists (S / M). pose proof (Z.div_mod S M ltac:(lia)). lia.
  - intros D. apply Z.mod_divide in D; [|lia]. rewrite D. reflexivity.
Qed.
