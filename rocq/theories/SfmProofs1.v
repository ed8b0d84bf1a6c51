(** SoftFloat in every rounding mode: rounding to an integer, the characterisation of round754m, the end of
    softfloat_roundPackToF32. Follows Sf754Lemmas.v and SfProofs1.v. *)
From Coq Require Import ZArith Bool Lia.
From Verif Require Import Spec Spec754 Spec754Mode Fw FwLemmas SpecLemmas Sf754Lemmas SoftFloat SoftFloatMode SpecSfMode SfProofs1.
Open Scope Z_scope.

Lemma cross_div n1 d1 n2 d2 : 0 < d1 -> 0 < d2 -> n1 * d2 = n2 * d1 ->
  n1 / d1 = n2 / d2 /\ (n1 mod d1) * d2 = (n2 mod d2) * d1.
Proof.
  intros H1 H2 H. pose proof (Z.div_mod n1 d1 ltac:(lia)) as A. pose proof (Z.div_mod n2 d2 ltac:(lia)) as B.
  pose proof (Z.mod_pos_bound n1 d1 H1) as C. pose proof (Z.mod_pos_bound n2 d2 H2) as D.
  assert (Q : n1 / d1 = n2 / d2).
  { rewrite <- (Z.div_mul_cancel_r n1 d1 d2) by lia. rewrite H, (Z.mul_comm d1 d2). apply Z.div_mul_cancel_r; lia. }
  split; [exact Q|]. rewrite Q in A. clear Q. remember (n2 / d2) as q. remember (n1 mod d1) as r. remember (n2 mod d2) as r'. subst n1 n2. lia.
Qed.

Lemma rnd_div_cross md s n1 d1 n2 d2 : 0 < d1 -> 0 < d2 -> n1 * d2 = n2 * d1 -> rnd_div md s n1 d1 = rnd_div md s n2 d2.
Proof.
  intros H1 H2 H. destruct (cross_div n1 d1 n2 d2 H1 H2 H) as [Q R].
  pose proof (Z.mod_pos_bound n1 d1 H1) as C. pose proof (Z.mod_pos_bound n2 d2 H2) as D.
  assert (Z0 : (n1 mod d1 =? 0) = (n2 mod d2 =? 0)).
  { destruct (Z.eqb_spec (n1 mod d1) 0), (Z.eqb_spec (n2 mod d2) 0); try reflexivity; nia. }
  assert (L0 : (2 * (n1 mod d1) <? d1) = (2 * (n2 mod d2) <? d2)).
  { destruct (Z.ltb_spec (2 * (n1 mod d1)) d1), (Z.ltb_spec (2 * (n2 mod d2)) d2); try reflexivity; nia. }
  unfold rnd_div. destruct md; [apply rne_div_cross; assumption|..]; rewrite Q, ?Z0, ?L0; reflexivity.
Qed.

Lemma rnd_div_bounds md s P d lo hi : 0 < d -> lo * d <= P <= hi * d -> lo <= rnd_div md s P d <= hi.
Proof.
  intros Hd [H1 H2]. unfold rnd_div, rne_div. cbv zeta. pose proof (Z.div_mod P d ltac:(lia)) as DM.
  pose proof (Z.mod_pos_bound P d Hd) as B.
  assert (L : lo <= P / d) by (apply Z.div_le_lower_bound; lia).
  assert (T : P / d <= hi) by (apply Z.div_le_upper_bound; lia).
  assert (X : P / d = hi -> P mod d = 0) by (clear - H2 DM B; nia).
  clear DM. remember (P / d) as q. remember (P mod d) as r. clear Heqq Heqr.
  destruct md; repeat match goal with
    | |- context [?a <? ?b] => destruct (Z.ltb_spec a b)
    | |- context [?a =? ?b] => destruct (Z.eqb_spec a b)
    | |- context [Z.even ?a] => destruct (Z.even a)
    | |- context [Z.odd ?a] => destruct (Z.odd a)
    | |- context [if s then _ else _] => destruct s
    end; lia.
Qed.

Lemma rnd_div_1 md s n : rnd_div md s n 1 = n.
Proof. unfold rnd_div, rne_div. rewrite Z.mod_1_r, Z.div_1_r. cbn. destruct md, s, (Z.odd n); reflexivity. Qed.

(** The rounding needs the quotient by half a last place and whether it is exact. *)
Lemma rnd_div_half md s x D c : 0 <= x -> 0 < D -> 0 < c ->
  let a := x / D in let ex := x mod D =? 0 in
  let f := a / (2 * c) in let r := a mod (2 * c) in
  let above := if (r =? 0) && ex then f else f + 1 in
  rnd_div md s x (D * (2 * c)) =
  match md with
  | NearEven => if r <? c then f else if (c <? r) || ((r =? c) && negb ex) then f + 1 else if Z.even f then f else f + 1
  | NearMaxMag => if r <? c then f else f + 1
  | MinMag => f
  | Min => if s then above else f
  | Max => if s then f else above
  | Odd => if Z.odd f then f else above
  end.
Proof.
  intros Hx HD Hc. cbv zeta. destruct (div_mod_mul x D (2 * c) HD ltac:(lia)) as [Q R].
  pose proof (Z.mod_pos_bound (x / D) (2 * c) ltac:(lia)) as B. pose proof (Z.mod_pos_bound x D HD) as B'.
  unfold rnd_div, rne_div. cbv zeta. rewrite Q, R. remember ((x / D) mod (2 * c)) as r eqn:Er. remember (x mod D) as t eqn:Et.
  clear Er Et R Q. remember (x / D / (2 * c)) as f eqn:Ef. clear Ef.
  assert (E0 : (D * r + t =? 0) = (r =? 0) && (t =? 0)).
  { destruct (Z.eqb_spec r 0), (Z.eqb_spec t 0); cbn [andb]; [apply Z.eqb_eq|apply Z.eqb_neq..]; nia. }
  assert (E1 : (2 * (D * r + t) <? D * (2 * c)) = (r <? c)).
  { destruct (Z.ltb_spec r c); [apply Z.ltb_lt|apply Z.ltb_ge]; nia. }
  assert (E2 : (D * (2 * c) <? 2 * (D * r + t)) = (c <? r) || ((r =? c) && negb (t =? 0))).
  { destruct (Z.ltb_spec c r); cbn [orb]; [apply Z.ltb_lt; nia|].
    destruct (Z.eqb_spec r c); cbn [andb]; [|apply Z.ltb_ge; nia].
    destruct (Z.eqb_spec t 0); cbn [negb]; [apply Z.ltb_ge|apply Z.ltb_lt]; nia. }
  rewrite E0, E1, E2. reflexivity.
Qed.

Lemma rnd_div_same2 md s x1 D1 x2 D2 c : 0 <= x1 -> 0 < D1 -> 0 <= x2 -> 0 < D2 -> 0 < c ->
  x1 / D1 = x2 / D2 -> (x1 mod D1 = 0 <-> x2 mod D2 = 0) ->
  rnd_div md s x1 (D1 * (2 * c)) = rnd_div md s x2 (D2 * (2 * c)).
Proof.
  intros H1 H2 H3 H4 Hc HQ HX. pose proof (rnd_div_half md s x1 D1 c H1 H2 Hc) as A. pose proof (rnd_div_half md s x2 D2 c H3 H4 Hc) as B.
  cbv zeta in A, B. rewrite A, B, HQ.
  replace (x1 mod D1 =? 0) with (x2 mod D2 =? 0); [reflexivity|].
  destruct (Z.eqb_spec (x2 mod D2) 0), (Z.eqb_spec (x1 mod D1) 0); tauto.
Qed.

Lemma jam_half x D : 0 <= x -> 0 < D -> jam x D / 2 = x / (D * 2) /\ (jam x D mod 2 = 0 <-> x mod (D * 2) = 0).
Proof.
  intros Hx HD. rewrite jam_val by assumption. destruct (div_mod_mul x D 2 HD ltac:(lia)) as [Q R]. rewrite Q, R.
  pose proof (Z.mod_pos_bound x D HD) as B. remember (x / D) as a eqn:Ea. remember (x mod D) as t eqn:Et. clear Q R Ea Et.
  pose proof (Z.div_mod a 2 ltac:(lia)) as DM. pose proof (Z.mod_pos_bound a 2 ltac:(lia)) as B2.
  destruct (Z.eqb_spec t 0) as [->|Ht]; [split; [reflexivity|]; nia|].
  rewrite Zeven_mod. destruct (Zeq_bool (a mod 2) 0) eqn:Ev.
  - apply Zeq_bool_eq in Ev. split.
    + symmetry. apply (Z.div_unique _ _ _ 1); lia.
    + replace ((a + 1) mod 2) with 1 by (apply (Z.mod_unique _ _ (a / 2)); lia). nia.
  - apply Zeq_bool_neq in Ev. split; [reflexivity|]. nia.
Qed.

Lemma rnd_div_jam md s n d j : 0 <= n -> 0 < d -> 2 <= j -> rnd_div md s n (d * 2 ^ j) = rnd_div md s (jam n d) (2 ^ j).
Proof.
  intros Hn Hd Hj. destruct (jam_half n d Hn Hd) as [Q R]. pose proof (pow2_pos (j - 2) ltac:(lia)) as P.
  replace (2 ^ j) with (2 * (2 * 2 ^ (j - 2))).
  2: { replace j with (j - 2 + 1 + 1) at 2 by lia. rewrite !pow2_S by lia. ring. }
  rewrite (Z.mul_assoc d). symmetry. apply rnd_div_same2; first [lia | apply jam_nonneg; assumption | exact Q | exact R].
Qed.

Lemma rnd_div_near md s n d sig c j : 0 <= n -> 0 < d -> 0 <= sig -> 0 < c -> 1 <= j ->
  jam (2 * sig) c = jam (2 * n) (d * c) -> rnd_div md s sig (c * 2 ^ j) = rnd_div md s n (d * (c * 2 ^ j)).
Proof.
  intros Hn Hd Hs Hc Hj HJ. assert (Hdc : 0 < d * c) by nia.
  destruct (jam_half (2 * sig) c ltac:(lia) Hc) as [Q1 R1]. destruct (jam_half (2 * n) (d * c) ltac:(lia) Hdc) as [Q2 R2].
  rewrite HJ in Q1, R1. pose proof (pow2_pos (j - 1) ltac:(lia)) as P.
  replace (2 ^ j) with (2 * 2 ^ (j - 1)) by (rewrite <- pow2_S by lia; f_equal; lia).
  assert (DV : forall x D, 0 < D -> (2 * x) / (D * 2) = x / D /\ ((2 * x) mod (D * 2) = 0 <-> x mod D = 0)).
  { intros x D HD. rewrite (Z.mul_comm D 2), Z.div_mul_cancel_l, Z.mul_mod_distr_l by lia. split; [reflexivity|lia]. }
  destruct (DV sig c Hc) as [A1 A2]. destruct (DV n (d * c) Hdc) as [B1 B2].
  rewrite (Z.mul_assoc d c). apply rnd_div_same2; try assumption.
  - rewrite <- A1, <- B1. congruence.
  - rewrite <- A2, <- B2. tauto.
Qed.

Definition fin754m (md : rmode) (E F : Z) (neg : bool) (q m : Z) : fval :=
  let m' := if m =? 2 ^ (F + 1) then 2 ^ F else m in
  let q' := if m =? 2 ^ (F + 1) then q + 1 else q in
  if m =? 0 then Zero neg else if bias E <? q' + F then overflow754 md E F neg else Num neg m' q'.

Lemma fin754m_fin md E F s q m : (if m =? 2 ^ (F + 1) then q + 1 else q) + F <= bias E -> fin754m md E F s q m = fin754 E F s q m.
Proof.
  intros H. unfold fin754m, fin754. cbv zeta. destruct (m =? 0); [reflexivity|].
  replace (bias E <? _) with false by (symmetry; apply Z.ltb_ge; exact H). reflexivity.
Qed.

Lemma round754m_char md E F s n d k q N D :
  0 <= F -> 0 < n -> 0 < d -> 0 < D -> samev n d k N D q -> qmin E F <= q ->
  N < 2 ^ (F + 1) * D -> (2 ^ F * D <= N \/ q = qmin E F) ->
  round754m md E F s n d k = fin754m md E F s q (rnd_div md s N D).
Proof.
  intros HF Hn Hd HD Hs Hq Hhi Hlo.
  pose proof (mag_spec n d Hn Hd) as Hm. remember (mag n d) as g eqn:Eg.
  destruct (samev_up _ _ _ _ _ _ (Z.abs g + Z.abs q + F + Z.abs k) Hs) as (c & C1 & C2 & C3 & Hx).
  pose proof (num2_den2_cross n d (- g) c ltac:(lia) ltac:(lia)) as X.
  pose proof (den2_pos d (- g) Hd) as D1. pose proof (pow2_pos c ltac:(lia)) as Pc.
  clear Hs.
  assert (Hm1 : 1 * (d * 2 ^ c) <= n * 2 ^ (c + - g)).
  { apply (ratio_le_iff _ _ _ _ 1 X D1 ltac:(nia)). lia. }
  assert (Hm2 : n * 2 ^ (c + - g) < 2 * (d * 2 ^ c)).
  { apply (ratio_lt_iff _ _ _ _ 2 X D1 ltac:(nia)). lia. }
  rewrite Z.mul_1_l in Hm1.
  remember (q + F - k) as t eqn:Et.
  assert (E2 : 2 ^ (c + (k - q)) = 2 ^ F * 2 ^ (c - t)).
  { rewrite <- pow2_add by lia. f_equal; lia. }
  rewrite E2 in Hx. pose proof (pow2_pos F HF) as PF. pose proof (pow2_pos (c - t) ltac:(lia)) as Pt.
  rewrite pow2_S in Hhi by lia. assert (Hhi' : N < 2 * 2 ^ F * D) by lia.
  assert (Hgt : g <= t).
  { destruct (Z_le_gt_dec g t) as [|Hc]; [assumption|exfalso].
    assert (Hp : 2 * 2 ^ (c + - g) <= 2 ^ (c - t)).
    { rewrite <- pow2_S by lia. apply Z.pow_le_mono_r; lia. }
    assert (H2 : 2 * (d * 2 ^ c) <= n * 2 ^ (c - t)) by (clear - Hp Hm1 Hn; nia).
    assert (H3 : 2 * (d * 2 ^ c) * (2 ^ F * D) <= N * (d * 2 ^ c)).
    { rewrite Hx. transitivity (n * 2 ^ (c - t) * (2 ^ F * D)); [apply Z.mul_le_mono_nonneg_r; [clear - PF HD; nia | exact H2] | lia]. }
    assert (H4 : N * (d * 2 ^ c) < 2 * 2 ^ F * D * (d * 2 ^ c)).
    { apply Z.mul_lt_mono_pos_r; [clear - Hd Pc; nia | exact Hhi']. }
    clear - H3 H4. nia. }
  assert (Hmax : Z.max (g + k - F) (1 - bias E - F) = q).
  { destruct Hlo as [Hlo|Hlo].
    - assert (Htg : t <= g).
      { destruct (Z_le_gt_dec t g) as [|Hc]; [assumption|exfalso].
        assert (Hp : 2 * 2 ^ (c - t) <= 2 ^ (c + - g)).
        { rewrite <- pow2_S by lia. apply Z.pow_le_mono_r; lia. }
        assert (H2 : n * 2 ^ (c - t) < d * 2 ^ c) by nia.
        assert (H3 : N * (d * 2 ^ c) < (d * 2 ^ c) * (2 ^ F * D)).
        { rewrite Hx. replace (n * (2 ^ F * 2 ^ (c - t)) * D) with (n * 2 ^ (c - t) * (2 ^ F * D)) by ring.
          apply Z.mul_lt_mono_pos_r; [clear - PF HD; nia | exact H2]. }
        clear - H3 Hlo Hd Pc. assert (2 ^ F * D * (d * 2 ^ c) <= N * (d * 2 ^ c)) by (apply Z.mul_le_mono_nonneg_r; [nia | exact Hlo]). lia. }
      unfold qmin in Hq. lia.
    - unfold qmin in Hlo. lia. }
  unfold round754m. rewrite <- Eg, Hmax. unfold fin754m. cbv zeta.
  replace (rnd_div md s (num2 n (k - q)) (den2 d (k - q))) with (rnd_div md s N D); [reflexivity|].
  symmetry. apply rnd_div_cross; try assumption.
  - apply den2_pos; assumption.
  - pose proof (num2_den2_cross n d (k - q) c ltac:(lia) ltac:(lia)) as Y. rewrite E2 in Y.
    apply (Z.mul_reg_r _ _ (d * 2 ^ c)); [nia|].
    transitivity (num2 n (k - q) * (d * 2 ^ c) * D); [ring|]. rewrite Y.
    transitivity (n * (2 ^ F * 2 ^ (c - t)) * D * den2 d (k - q)); [ring|]. rewrite <- Hx. ring.
Qed.

(** A common choice of q, N, D. *)
Lemma round754m_same md E F s n d k n' d' k' : 0 <= F -> 0 < n -> 0 < d -> 0 < n' -> 0 < d' ->
  samev n d k n' d' k' -> round754m md E F s n d k = round754m md E F s n' d' k'.
Proof.
  intros HF Hn Hd Hn' Hd' Hs.
  pose proof (mag_spec n' d' Hn' Hd') as Hm. remember (mag n' d') as g eqn:Eg.
  remember (Z.max (g + k' - F) (qmin E F)) as q eqn:Eq.
  remember (Z.abs g + Z.abs k' + Z.abs q + F) as c eqn:Ec.
  pose proof (num2_den2_cross n' d' (- g) c ltac:(lia) ltac:(lia)) as X.
  pose proof (den2_pos d' (- g) Hd') as D1. pose proof (pow2_pos c ltac:(lia)) as Pc.
  assert (Hm1 : 1 * (d' * 2 ^ c) <= n' * 2 ^ (c + - g)).
  { apply (ratio_le_iff _ _ _ _ 1 X D1 ltac:(nia)). lia. }
  assert (Hm2 : n' * 2 ^ (c + - g) < 2 * (d' * 2 ^ c)).
  { apply (ratio_lt_iff _ _ _ _ 2 X D1 ltac:(nia)). lia. }
  remember (n' * 2 ^ (c + (k' - q))) as N eqn:EN. remember (d' * 2 ^ c) as D eqn:ED.
  assert (HD : 0 < D) by nia.
  assert (Hs' : samev n' d' k' N D q).
  { exists c. repeat split; [lia|lia|]. rewrite EN, ED. ring. }
  assert (Hhi : N < 2 ^ (F + 1) * D).
  { assert (2 ^ (c + (k' - q)) <= 2 ^ F * 2 ^ (c + - g)).
    { rewrite <- pow2_add by lia. apply Z.pow_le_mono_r; lia. }
    rewrite pow2_S by lia. pose proof (pow2_pos F HF). 
    assert (N <= 2 ^ F * (n' * 2 ^ (c + - g))) by (rewrite EN; clear - H Hn'; nia). clear - H0 H1 Hm2. nia. }
  assert (Hlo : 2 ^ F * D <= N \/ q = qmin E F).
  { destruct (Z.max_spec (g + k' - F) (qmin E F)) as [[? ?]|[? ?]]; [right; lia|left].
    assert (EE : 2 ^ (c + (k' - q)) = 2 ^ F * 2 ^ (c + - g)).
    { rewrite <- pow2_add by lia. f_equal. lia. }
    pose proof (pow2_pos F HF). rewrite EN, EE. rewrite Z.mul_1_l in Hm1. clear - H1 Hm1. nia. }
  rewrite (round754m_char md E F s n' d' k' q N D) by (assumption || lia).
  apply round754m_char; try assumption; try lia.
  exact (samev_trans _ _ _ _ _ _ _ _ _ Hd' Hs Hs').
Qed.

