(** Rounding with subnormal numbers (Spec754.v): characterisation; the sticky (jammed) quotient; decoding of a word put
    together by addition. *)
From Coq Require Import ZArith Bool Lia.
From Verif Require Import Spec Spec754 Fw FwLemmas SpecLemmas.
Open Scope Z_scope.

Definition qmin (E F : Z) : Z := 1 - bias E - F.

Definition fin754 (E F : Z) (neg : bool) (q m : Z) : fval :=
  let m' := if m =? 2 ^ (F + 1) then 2 ^ F else m in
  let q' := if m =? 2 ^ (F + 1) then q + 1 else q in
  if m =? 0 then Zero neg else if bias E <? q' + F then Inf neg else Num neg m' q'.

(** N/D * 2^q = n/d * 2^k *)
Definition samev (n d k N D q : Z) : Prop :=
  exists c, 0 <= c /\ 0 <= c + (k - q) /\ N * (d * 2 ^ c) = (n * 2 ^ (c + (k - q))) * D.

Lemma samev_up n d k N D q c' : samev n d k N D q ->
  exists c, c' <= c /\ 0 <= c /\ 0 <= c + (k - q) /\ N * (d * 2 ^ c) = (n * 2 ^ (c + (k - q))) * D.
Proof.
  intros (c & H1 & H2 & H3). exists (c + Z.abs c'). repeat split; try lia.
  replace (c + Z.abs c' + (k - q)) with (c + (k - q) + Z.abs c') by lia. rewrite !pow2_add by lia.
  transitivity (N * (d * 2 ^ c) * 2 ^ Z.abs c'); [ring|]. rewrite H3. ring.
Qed.

Lemma samev_refl n d k : samev n d k n d k.
Proof. exists 0. repeat split; try lia. replace (0 + (k - k)) with 0 by lia. ring. Qed.

Lemma samev_den n d k j : 0 <= j -> samev n d k n (d * 2 ^ j) (k + j).
Proof. intros. exists j. repeat split; try lia. replace (j + (k - (k + j))) with 0 by lia. rewrite Z.pow_0_r. ring. Qed.

Lemma samev_num n d k j : 0 <= j -> samev n d k (n * 2 ^ j) d (k - j).
Proof. intros. exists 0. repeat split; try lia. replace (0 + (k - (k - j))) with j by lia. rewrite Z.pow_0_r. ring. Qed.

Lemma samev_trans n d k n1 d1 k1 n2 d2 k2 : 0 < d1 ->
  samev n d k n1 d1 k1 -> samev n1 d1 k1 n2 d2 k2 -> samev n d k n2 d2 k2.
Proof.
  intros Hd (c & H1 & H2 & H3) (e & K1 & K2 & K3). exists (c + e). repeat split; try lia.
  replace (c + e + (k - k2)) with ((c + (k - k1)) + (e + (k1 - k2))) by lia. rewrite !pow2_add by lia.
  apply (Z.mul_reg_r _ _ d1); [lia|].
  transitivity (n2 * (d1 * 2 ^ e) * (d * 2 ^ c)); [ring|]. rewrite K3.
  transitivity (n1 * (d * 2 ^ c) * 2 ^ (e + (k1 - k2)) * d2); [ring|]. rewrite H3. ring.
Qed.

Lemma round754_char E F s n d k q N D :
  0 <= F -> 0 < n -> 0 < d -> 0 < D -> samev n d k N D q -> qmin E F <= q ->
  N < 2 ^ (F + 1) * D -> (2 ^ F * D <= N \/ q = qmin E F) ->
  round754 E F s n d k = fin754 E F s q (rne_div N D).
Proof.
  intros HF Hn Hd HD Hs Hq Hhi Hlo.
  pose proof (mag_spec n d Hn Hd) as Hm. remember (mag n d) as g eqn:Eg.
  destruct (samev_up _ _ _ _ _ _ (Z.abs g + Z.abs q + F + Z.abs k) Hs) as (c & C1 & C2 & C3 & Hx).
  pose proof (num2_den2_cross n d (- g) c ltac:(lia) ltac:(lia)) as X.
  pose proof (den2_pos d (- g) Hd) as D1. pose proof (pow2_pos c ltac:(lia)) as Pc.
  clear Hs.
  assert (Hm1 : 1 * (d * 2 ^ c) <= n * 2 ^ (c + - g)).
  { apply (ratio_le_iff _ _ _ _ 1 X D1 ltac:(nia)). lia. }
  assert (Hm2 : n * 2 ^ (c + - g) < 2 * (d * 2 ^ c)).
  { apply (ratio_lt_iff _ _ _ _ 2 X D1 ltac:(nia)). lia. }
  rewrite Z.mul_1_l in Hm1.
  remember (q + F - k) as t eqn:Et.
  assert (E2 : 2 ^ (c + (k - q)) = 2 ^ F * 2 ^ (c - t)).
  { rewrite <- pow2_add by lia. f_equal; lia. }
  rewrite E2 in Hx. pose proof (pow2_pos F HF) as PF. pose proof (pow2_pos (c - t) ltac:(lia)) as Pt.
  rewrite pow2_S in Hhi by lia. assert (Hhi' : N < 2 * 2 ^ F * D) by lia.
  assert (Hgt : g <= t).
  { destruct (Z_le_gt_dec g t) as [|Hc]; [assumption|exfalso].
    assert (Hp : 2 * 2 ^ (c + - g) <= 2 ^ (c - t)).
    { rewrite <- pow2_S by lia. apply Z.pow_le_mono_r; lia. }
    assert (H2 : 2 * (d * 2 ^ c) <= n * 2 ^ (c - t)) by (clear - Hp Hm1 Hn; nia).
    assert (H3 : 2 * (d * 2 ^ c) * (2 ^ F * D) <= N * (d * 2 ^ c)).
    { rewrite Hx. transitivity (n * 2 ^ (c - t) * (2 ^ F * D)); [apply Z.mul_le_mono_nonneg_r; [clear - PF HD; nia | exact H2] | lia]. }
    assert (H4 : N * (d * 2 ^ c) < 2 * 2 ^ F * D * (d * 2 ^ c)).
    { apply Z.mul_lt_mono_pos_r; [clear - Hd Pc; nia | exact Hhi']. }
    clear - H3 H4. nia. }
  assert (Hmax : Z.max (g + k - F) (1 - bias E - F) = q).
  { destruct Hlo as [Hlo|Hlo].
    - assert (Htg : t <= g).
      { destruct (Z_le_gt_dec t g) as [|Hc]; [assumption|exfalso].
        assert (Hp : 2 * 2 ^ (c - t) <= 2 ^ (c + - g)).
        { rewrite <- pow2_S by lia. apply Z.pow_le_mono_r; lia. }
        assert (H2 : n * 2 ^ (c - t) < d * 2 ^ c) by nia.
        assert (H3 : N * (d * 2 ^ c) < (d * 2 ^ c) * (2 ^ F * D)).
        { rewrite Hx. replace (n * (2 ^ F * 2 ^ (c - t)) * D) with (n * 2 ^ (c - t) * (2 ^ F * D)) by ring.
          apply Z.mul_lt_mono_pos_r; [clear - PF HD; nia | exact H2]. }
        clear - H3 Hlo Hd Pc. assert (2 ^ F * D * (d * 2 ^ c) <= N * (d * 2 ^ c)) by (apply Z.mul_le_mono_nonneg_r; [nia | exact Hlo]). lia. }
      unfold qmin in Hq. lia.
    - unfold qmin in Hlo. lia. }
  unfold round754. rewrite <- Eg, Hmax. unfold fin754. cbv zeta.
  replace (rne_div (num2 n (k - q)) (den2 d (k - q))) with (rne_div N D); [reflexivity|].
  symmetry. apply rne_div_cross; try assumption.
  - apply den2_pos; assumption.
  - pose proof (num2_den2_cross n d (k - q) c ltac:(lia) ltac:(lia)) as Y. rewrite E2 in Y.
    apply (Z.mul_reg_r _ _ (d * 2 ^ c)); [nia|].
    transitivity (num2 n (k - q) * (d * 2 ^ c) * D); [ring|]. rewrite Y.
    transitivity (n * (2 ^ F * 2 ^ (c - t)) * D * den2 d (k - q)); [ring|]. rewrite <- Hx. ring.
Qed.

(** A common choice of q, N, D. *)
Lemma round754_same E F s n d k n' d' k' : 0 <= F -> 0 < n -> 0 < d -> 0 < n' -> 0 < d' ->
  samev n d k n' d' k' -> round754 E F s n d k = round754 E F s n' d' k'.
Proof.
  intros HF Hn Hd Hn' Hd' Hs.
  pose proof (mag_spec n' d' Hn' Hd') as Hm. remember (mag n' d') as g eqn:Eg.
  remember (Z.max (g + k' - F) (qmin E F)) as q eqn:Eq.
  remember (Z.abs g + Z.abs k' + Z.abs q + F) as c eqn:Ec.
  pose proof (num2_den2_cross n' d' (- g) c ltac:(lia) ltac:(lia)) as X.
  pose proof (den2_pos d' (- g) Hd') as D1. pose proof (pow2_pos c ltac:(lia)) as Pc.
  assert (Hm1 : 1 * (d' * 2 ^ c) <= n' * 2 ^ (c + - g)).
  { apply (ratio_le_iff _ _ _ _ 1 X D1 ltac:(nia)). lia. }
  assert (Hm2 : n' * 2 ^ (c + - g) < 2 * (d' * 2 ^ c)).
  { apply (ratio_lt_iff _ _ _ _ 2 X D1 ltac:(nia)). lia. }
  remember (n' * 2 ^ (c + (k' - q))) as N eqn:EN. remember (d' * 2 ^ c) as D eqn:ED.
  assert (HD : 0 < D) by nia.
  assert (Hs' : samev n' d' k' N D q).
  { exists c. repeat split; [lia|lia|]. rewrite EN, ED. ring. }
  assert (Hhi : N < 2 ^ (F + 1) * D).
  { assert (2 ^ (c + (k' - q)) <= 2 ^ F * 2 ^ (c + - g)).
    { rewrite <- pow2_add by lia. apply Z.pow_le_mono_r; lia. }
    rewrite pow2_S by lia. pose proof (pow2_pos F HF). 
    assert (N <= 2 ^ F * (n' * 2 ^ (c + - g))) by (rewrite EN; clear - H Hn'; nia). clear - H0 H1 Hm2. nia. }
  assert (Hlo : 2 ^ F * D <= N \/ q = qmin E F).
  { destruct (Z.max_spec (g + k' - F) (qmin E F)) as [[? ?]|[? ?]]; [right; lia|left].
    assert (EE : 2 ^ (c + (k' - q)) = 2 ^ F * 2 ^ (c + - g)).
    { rewrite <- pow2_add by lia. f_equal. lia. }
    pose proof (pow2_pos F HF). rewrite EN, EE. rewrite Z.mul_1_l in Hm1. clear - H1 Hm1. nia. }
  rewrite (round754_char E F s n' d' k' q N D) by (assumption || lia).
  apply round754_char; try assumption; try lia.
  exact (samev_trans _ _ _ _ _ _ _ _ _ Hd' Hs Hs').
Qed.

Lemma rne_div_1 n : rne_div n 1 = n.
Proof. unfold rne_div. rewrite Z.mod_1_r, Z.div_1_r. reflexivity. Qed.

Lemma rne_div_scale2 n j g : 0 <= j <= g -> rne_div (n * 2 ^ j) (2 ^ g) = rne_div n (2 ^ (g - j)).
Proof.
  intros H. apply rne_div_cross; try (apply pow2_pos; lia).
  replace (2 ^ g) with (2 ^ (g - j) * 2 ^ j) by (rewrite <- pow2_add by lia; f_equal; lia). ring.
Qed.

(** The sticky quotient. *)
Definition jam (n d : Z) : Z := Z.lor (n / d) (Z.b2z (negb (n mod d =? 0))).

Lemma lor_1_val a : 0 <= a -> Z.lor a 1 = if Z.even a then a + 1 else a.
Proof.
  intros Ha. rewrite Zeven_mod.
  assert (Hd : a = 2 * (a / 2) + a mod 2) by (apply Z.div_mod; lia).
  assert (Z.lor a 1 = 2 * (a / 2) + 1).
  { apply Z.bits_inj'. intros i Hi. rewrite Z.lor_spec.
    destruct (Z.eq_dec i 0) as [->|].
    - rewrite Z.testbit_odd_0. change (Z.testbit 1 0) with true. apply orb_true_r.
    - assert (T1 : Z.testbit 1 i = false).
      { change 1 with (2 ^ 0). apply Z.pow2_bits_false. lia. }
      rewrite T1, orb_false_r. replace i with (Z.succ (i - 1)) by lia.
      rewrite Z.testbit_odd_succ by lia. rewrite <- Z.div2_bits by lia. reflexivity. }
  rewrite H. assert (0 <= a mod 2 < 2) by (apply Z.mod_pos_bound; lia).
  unfold Zeq_bool. destruct (Z.compare_spec (a mod 2) 0); lia.
Qed.

Lemma jam_val n d : 0 <= n -> 0 < d ->
  jam n d = if n mod d =? 0 then n / d else if Z.even (n / d) then n / d + 1 else n / d.
Proof.
  intros Hn Hd. unfold jam. destruct (n mod d =? 0); cbn [negb Z.b2z].
  - apply Z.lor_0_r.
  - apply lor_1_val. apply Z.div_pos; lia.
Qed.

Lemma jam_exact n d : 0 <= n -> 0 < d -> n mod d = 0 -> jam n d = n / d.
Proof. intros Hn Hd H. rewrite jam_val by assumption. rewrite H. reflexivity. Qed.

Lemma jam_1 n : 0 <= n -> jam n 1 = n.
Proof. intros. rewrite jam_exact by (try rewrite Z.mod_1_r; lia). apply Z.div_1_r. Qed.

(** jam is monotone against even thresholds. *)
Lemma jam_ge n d t : 0 <= n -> 0 < d -> t * d <= n -> t <= jam n d.
Proof.
  intros Hn Hd H. rewrite jam_val by assumption. assert (t <= n / d) by (apply Z.div_le_lower_bound; lia).
  destruct (n mod d =? 0); [lia|]. destruct (Z.even (n / d)); lia.
Qed.
Lemma jam_lt n d t : 0 <= n -> 0 < d -> Z.even t = true -> n < t * d -> jam n d < t.
Proof.
  intros Hn Hd Ht H. rewrite jam_val by assumption. assert (n / d < t) by (apply Z.div_lt_upper_bound; lia).
  destruct (n mod d =? 0); [lia|]. destruct (Z.even (n / d)) eqn:Ev; [|lia].
  apply Z.even_spec in Ht. apply Z.even_spec in Ev. destruct Ht as [u ->], Ev as [v Hv]. rewrite Hv in *. lia.
Qed.
Lemma jam_ge_inv n d t : 0 <= n -> 0 < d -> Z.even t = true -> t <= jam n d -> t * d <= n.
Proof. intros Hn Hd Ht H. destruct (Z_le_gt_dec (t * d) n); [assumption|]. pose proof (jam_lt n d t Hn Hd Ht ltac:(lia)). lia. Qed.
Lemma jam_lt_inv n d t : 0 <= n -> 0 < d -> jam n d < t -> n < t * d.
Proof. intros Hn Hd H. destruct (Z_lt_ge_dec n (t * d)); [assumption|]. pose proof (jam_ge n d t Hn Hd ltac:(lia)). lia. Qed.
Lemma jam_nonneg n d : 0 <= n -> 0 < d -> 0 <= jam n d.
Proof. intros. apply jam_ge; lia. Qed.
Lemma jam_pos n d : 0 < n -> 0 < d -> 0 < jam n d.
Proof.
  intros Hn Hd. rewrite jam_val by lia. pose proof (Z.div_pos n d ltac:(lia) Hd).
  destruct (Z.eqb_spec (n mod d) 0) as [E|E].
  - pose proof (Z.div_mod n d ltac:(lia)). nia.
  - destruct (Z.even (n / d)) eqn:Ev; [lia|]. destruct (Z.eq_dec (n / d) 0) as [Z0|]; [rewrite Z0 in Ev; discriminate|lia].
Qed.

Lemma even_pow2 j : 1 <= j -> Z.even (2 ^ j) = true.
Proof. intros. replace j with (j - 1 + 1) by lia. rewrite pow2_S by lia. rewrite Z.even_mul. reflexivity. Qed.

Lemma div_mod_mul n d p : 0 < d -> 0 < p -> n / (d * p) = n / d / p /\ n mod (d * p) = d * ((n / d) mod p) + n mod d.
Proof.
  intros Hd Hp. split; [symmetry; apply Z.div_div; lia|]. rewrite Z.rem_mul_r by lia. lia.
Qed.

Lemma jam_jam n d k : 0 <= n -> 0 < d -> 0 <= k -> jam (jam n d) (2 ^ k) = jam n (d * 2 ^ k).
Proof.
  intros Hn Hd Hk. pose proof (pow2_pos k Hk) as Pk.
  destruct (Z.eq_dec k 0) as [->|Hk0].
  { rewrite Z.pow_0_r, Z.mul_1_r. apply jam_1. apply jam_nonneg; lia. }
  destruct (div_mod_mul n d (2 ^ k) Hd Pk) as [Q R].
  unfold jam at 1 3. rewrite Q, R. pose proof (jam_val n d Hn Hd) as J. remember (n / d) as q eqn:Eq.
  assert (Hq : 0 <= q) by (subst q; apply Z.div_pos; lia).
  pose proof (Z.mod_pos_bound n d Hd) as Br. pose proof (Z.mod_pos_bound q (2 ^ k) Pk) as Ba.
  destruct (Z.eqb_spec (n mod d) 0) as [R0|R0].
  - rewrite J, R0, Z.add_0_r. do 3 f_equal.
    destruct (Z.eqb_spec (q mod 2 ^ k) 0) as [->|]; [rewrite Z.mul_0_r; reflexivity|].
    symmetry. apply Z.eqb_neq. nia.
  - assert (HE : Z.even (jam n d) = false).
    { rewrite J. destruct (Z.even q) eqn:Ev; [|assumption]. rewrite Z.even_add, Ev. reflexivity. }
    assert (HQ : jam n d / 2 ^ k = q / 2 ^ k).
    { pose proof (even_pow2 k ltac:(lia)) as EP. pose proof (Z.div_mod q (2 ^ k) ltac:(lia)) as DM.
      rewrite J. destruct (Z.even q) eqn:Ev; [|reflexivity].
      symmetry. apply (Z.div_unique _ _ _ (q mod 2 ^ k + 1)); [|lia]. left. split; [lia|].
      destruct (Z.eq_dec (q mod 2 ^ k) (2 ^ k - 1)) as [Hc|]; [exfalso|lia].
      rewrite DM, Hc in Ev. rewrite Z.even_add, Z.even_mul, Z.even_sub, EP in Ev. discriminate. }
    assert (HM : jam n d mod 2 ^ k =? 0 = false).
    { apply Z.eqb_neq. intros Hc. pose proof (Z.div_mod (jam n d) (2 ^ k) ltac:(lia)) as DM.
      rewrite Hc, Z.add_0_r in DM. rewrite DM, Z.even_mul, even_pow2 in HE by lia. discriminate. }
    rewrite HQ, HM. do 3 f_equal. symmetry. apply Z.eqb_neq. nia.
Qed.

Lemma rne_div_jam n d j : 0 <= n -> 0 < d -> 2 <= j -> rne_div n (d * 2 ^ j) = rne_div (jam n d) (2 ^ j).
Proof.
  intros Hn Hd Hj. pose proof (pow2_pos j ltac:(lia)) as Pj.
  destruct (div_mod_mul n d (2 ^ j) Hd Pj) as [Q R].
  unfold rne_div. rewrite Q, R. pose proof (jam_val n d Hn Hd) as J. remember (n / d) as q eqn:Eq.
  assert (Hq : 0 <= q) by (subst q; apply Z.div_pos; lia).
  pose proof (Z.mod_pos_bound n d Hd) as Br. pose proof (Z.mod_pos_bound q (2 ^ j) Pj) as Ba.
  pose proof (Z.div_mod q (2 ^ j) ltac:(lia)) as DM.
  replace (2 ^ j) with (2 * 2 ^ (j - 1)) in * by (rewrite <- pow2_S by lia; f_equal; lia).
  pose proof (even_pow2 (j - 1) ltac:(lia)) as EP. remember (2 ^ (j - 1)) as h eqn:Eh. clear Eh.
  remember (q mod (2 * h)) as a eqn:Ea. remember (n mod d) as r eqn:Er. remember (q / (2 * h)) as u eqn:Eu.
  destruct (Z.eqb_spec r 0) as [R0|R0].
  - rewrite J, R0, Z.add_0_r, <- Ea, <- Eu.
    replace (2 * a <? 2 * h) with (2 * (d * a) <? d * (2 * h))
      by (destruct (Z.ltb_spec (2 * (d * a)) (d * (2 * h))), (Z.ltb_spec (2 * a) (2 * h)); nia).
    replace (2 * h <? 2 * a) with (d * (2 * h) <? 2 * (d * a))
      by (destruct (Z.ltb_spec (d * (2 * h)) (2 * (d * a))), (Z.ltb_spec (2 * h) (2 * a)); nia).
    reflexivity.
  - assert (Heven : Z.even q = Z.even a).
    { rewrite DM. rewrite Z.even_add, Z.even_mul, Z.even_mul. change (Z.even 2) with true. cbn [orb]. now destruct (Z.even a). }
    remember (if Z.even a then a + 1 else a) as a' eqn:Ea'.
    assert (HJ : jam n d = 2 * h * u + a') by (rewrite J, Heven, Ea'; destruct (Z.even a); lia).
    assert (Hpar : a <= h - 1 -> Z.even a = true -> a + 1 <= h - 1).
    { intros H1 H2. destruct (Z.eq_dec a (h - 1)) as [Hc|]; [|lia]. rewrite Hc, Z.even_sub, EP in H2. discriminate. }
    assert (Hparh : a = 2 * h - 1 -> Z.even a = false).
    { intros ->. rewrite Z.even_sub, Z.even_mul. reflexivity. }
    assert (Ba' : 0 <= a' < 2 * h).
    { rewrite Ea'. destruct (Z.even a) eqn:Ev; [|lia]. destruct (Z.eq_dec a (2 * h - 1)) as [Hc|]; [|lia]. pose proof (Hparh Hc); congruence. }
    rewrite HJ. replace ((2 * h * u + a') / (2 * h)) with u by (apply (Z.div_unique _ _ _ a'); lia).
    replace ((2 * h * u + a') mod (2 * h)) with a' by (apply (Z.mod_unique _ _ u); lia).
    destruct (Z.lt_trichotomy a h) as [Hlt|[Heq|Hgt]].
    + assert (a' <= h - 1) by (rewrite Ea'; destruct (Z.even a); [apply Hpar; lia|lia]).
      replace (2 * (d * a + r) <? d * (2 * h)) with true by (symmetry; apply Z.ltb_lt; nia).
      replace (2 * a' <? 2 * h) with true by (symmetry; apply Z.ltb_lt; lia). reflexivity.
    + assert (a' = h + 1) by (rewrite Ea', Heq, EP; reflexivity).
      replace (2 * (d * a + r) <? d * (2 * h)) with false by (symmetry; apply Z.ltb_ge; nia).
      replace (2 * a' <? 2 * h) with false by (symmetry; apply Z.ltb_ge; lia).
      replace (d * (2 * h) <? 2 * (d * a + r)) with true by (symmetry; apply Z.ltb_lt; nia).
      replace (2 * h <? 2 * a') with true by (symmetry; apply Z.ltb_lt; lia). reflexivity.
    + assert (a <= a') by (rewrite Ea'; destruct (Z.even a); lia).
      replace (2 * (d * a + r) <? d * (2 * h)) with false by (symmetry; apply Z.ltb_ge; nia).
      replace (2 * a' <? 2 * h) with false by (symmetry; apply Z.ltb_ge; lia).
      replace (d * (2 * h) <? 2 * (d * a + r)) with true by (symmetry; apply Z.ltb_lt; nia).
      replace (2 * h <? 2 * a') with true by (symmetry; apply Z.ltb_lt; lia). reflexivity.
Qed.

Lemma jam_scale n d c : 0 <= n -> 0 < d -> 0 < c -> jam (n * c) (d * c) = jam n d.
Proof.
  intros Hn Hd Hc. unfold jam. rewrite Z.div_mul_cancel_r, Z.mul_mod_distr_r by lia. do 3 f_equal.
  destruct (Z.eqb_spec (n mod d) 0) as [->|H]; [reflexivity|]. apply Z.eqb_neq. nia.
Qed.

(** A word r stands for n/d when both are on the same side of every multiple of c. *)
Lemma rne_div_near n d sig c j : 0 <= n -> 0 < d -> 0 <= sig -> 0 < c -> 1 <= j ->
  jam (2 * sig) c = jam (2 * n) (d * c) -> rne_div sig (c * 2 ^ j) = rne_div n (d * (c * 2 ^ j)).
Proof.
  intros Hn Hd Hs Hc Hj H. pose proof (pow2_pos j ltac:(lia)) as Pj.
  replace (rne_div sig (c * 2 ^ j)) with (rne_div (2 * sig) (c * 2 ^ (j + 1))).
  2: { apply rne_div_cross; [apply Z.mul_pos_pos; [lia|apply pow2_pos; lia]|apply Z.mul_pos_pos; lia|]. rewrite pow2_S by lia. ring. }
  replace (rne_div n (d * (c * 2 ^ j))) with (rne_div (2 * n) (d * c * 2 ^ (j + 1))).
  2: { apply rne_div_cross; [apply Z.mul_pos_pos; [apply Z.mul_pos_pos; lia|apply pow2_pos; lia]|
       apply Z.mul_pos_pos; [lia|apply Z.mul_pos_pos; lia]|]. rewrite pow2_S by lia. ring. }
  rewrite !rne_div_jam by (try apply Z.mul_pos_pos; lia). rewrite H. reflexivity.
Qed.

Lemma jam_add A B d : 0 <= B -> 0 < d -> 0 <= A -> Z.even A = true -> jam (A * d + B) d = A + jam B d.
Proof.
  intros HB Hd HA Ev. rewrite !jam_val by nia.
  replace (A * d + B) with (B + A * d) by ring. rewrite Z.mod_add, Z.div_add by lia.
  rewrite Z.even_add, Ev. destruct (B mod d =? 0); [lia|]. destruct (Z.even (B / d)); cbn; lia.
Qed.

Lemma jam_sub A B d : 0 <= B -> 0 < d -> B <= A * d -> 0 <= A -> Z.even A = true -> jam (A * d - B) d = A - jam B d.
Proof.
  intros HB Hd HA HA0 Ev. rewrite !jam_val by nia.
  pose proof (Z.div_mod B d ltac:(lia)) as DM. pose proof (Z.mod_pos_bound B d Hd) as Bd.
  destruct (Z.eqb_spec (B mod d) 0) as [E0|E0].
  - replace ((A * d - B) mod d) with 0 by (apply (Z.mod_unique _ _ (A - B / d)); nia).
    cbn [Z.eqb]. symmetry. apply (Z.div_unique _ _ _ 0); nia.
  - replace ((A * d - B) mod d) with (d - B mod d) by (apply (Z.mod_unique _ _ (A - B / d - 1)); nia).
    replace ((A * d - B) / d) with (A - B / d - 1) by (apply (Z.div_unique _ _ _ (d - B mod d)); nia).
    replace (d - B mod d =? 0) with false by (symmetry; apply Z.eqb_neq; lia).
    rewrite !Z.even_sub, Ev. destruct (Z.even (B / d)); cbn; lia.
Qed.
