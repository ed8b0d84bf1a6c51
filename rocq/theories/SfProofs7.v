(** SoftFloat: comparisons. *)
From Coq Require Import ZArith Bool Lia.
From Verif Require Import Spec Spec754 Fw FwLemmas SpecLemmas Sf754Lemmas SoftFloat SfProofs1 SfProofs2 SfProofs3 SfProofs4.
Open Scope Z_scope.

Lemma cmp_scale x y p : 0 < p -> (x * p ?= y * p) = (x ?= y).
Proof.
  intros Hp. destruct (Z.compare_spec x y) as [->|H|H]; [apply Z.compare_refl|apply Z.compare_lt_iff|apply Z.compare_gt_iff]; nia.
Qed.

Lemma cmp_fin s m q t n q' c : 0 <= m -> 0 <= n -> c <= q -> c <= q' ->
  cmp754 (fin_val s m q) (fin_val t n q') = Some (sgn s (m * 2 ^ (q - c)) ?= sgn t (n * 2 ^ (q' - c))).
Proof.
  intros Hm Hn Hq Hq'. unfold fin_val. pose proof (pow2_pos (q - c) ltac:(lia)) as P1. pose proof (pow2_pos (q' - c) ltac:(lia)) as P2.
  destruct (Z.eqb_spec m 0) as [->|M0], (Z.eqb_spec n 0) as [->|N0]; cbn [cmp754]; f_equal.
  - destruct s, t; reflexivity.
  - assert (0 < n * 2 ^ (q' - c)) by nia. rewrite Z.mul_0_l.
    unfold sgn. destruct s, t; symmetry; (apply Z.compare_lt_iff || apply Z.compare_gt_iff); lia.
  - assert (0 < m * 2 ^ (q - c)) by nia. rewrite Z.mul_0_l.
    unfold sgn. destruct s, t; symmetry; (apply Z.compare_lt_iff || apply Z.compare_gt_iff); lia.
  - cbv zeta. remember (Z.min q q') as k eqn:Ek. pose proof (pow2_pos (k - c) ltac:(lia)) as P3.
    rewrite <- (cmp_scale _ _ (2 ^ (k - c))) by lia. unfold sgn.
    assert (H1 : m * 2 ^ (q - c) = m * 2 ^ (q - k) * 2 ^ (k - c)) by (rewrite <- Z.mul_assoc, <- pow2_add by lia; do 2 f_equal; lia).
    assert (H2 : n * 2 ^ (q' - c) = n * 2 ^ (q' - k) * 2 ^ (k - c)) by (rewrite <- Z.mul_assoc, <- pow2_add by lia; do 2 f_equal; lia).
    rewrite H1, H2. destruct s, t; f_equal; ring.
Qed.

Section Cmp.
Context (E F W : Z).
Context (HW : W = E + F + 1) (HE : 4 <= E <= 15) (HF : 1 <= F).

Definition mag_of (e f : Z) : Z := (if e =? 0 then f else 2 ^ F + f) * 2 ^ ((if e =? 0 then 1 else e) - 1).

Lemma mag_of_mono e f e' g : 0 <= e -> 0 <= e' -> 0 <= f < 2 ^ F -> 0 <= g < 2 ^ F ->
  e * 2 ^ F + f < e' * 2 ^ F + g -> mag_of e f < mag_of e' g.
Proof.
  intros He He' Hf Hg H. unfold mag_of. pose proof (pow2_pos F ltac:(lia)) as PF.
  assert (Hc : e < e' \/ e = e' /\ f < g) by nia.
  destruct Hc as [Hc|[-> Hc]].
  - replace (e' =? 0) with false by (symmetry; apply Z.eqb_neq; lia).
    assert (2 ^ F * 2 ^ (e' - 1) <= (2 ^ F + g) * 2 ^ (e' - 1)) by (apply Z.mul_le_mono_nonneg_r; [apply Z.lt_le_incl, pow2_pos; lia|lia]).
    destruct (Z.eqb_spec e 0) as [->|E0].
    + change (1 - 1) with 0. rewrite Z.pow_0_r. pose proof (pow2_pos (e' - 1) ltac:(lia)). nia.
    + assert (2 ^ e <= 2 ^ (e' - 1)) by (apply pow2_le; lia).
      replace e with (e - 1 + 1) in H1 by lia. rewrite pow2_S in H1 by lia. pose proof (pow2_pos (e - 1) ltac:(lia)).
      assert ((2 ^ F + f) * 2 ^ (e - 1) < 2 * 2 ^ F * 2 ^ (e - 1)) by (apply Z.mul_lt_mono_pos_r; lia). nia.
  - destruct (Z.eqb_spec e' 0); [change (1 - 1) with 0; rewrite Z.pow_0_r; lia|].
    pose proof (pow2_pos (e' - 1) ltac:(lia)). apply Z.mul_lt_mono_pos_r; lia.
Qed.

Lemma mag_of_cmp e f e' g : 0 <= e -> 0 <= e' -> 0 <= f < 2 ^ F -> 0 <= g < 2 ^ F ->
  (mag_of e f ?= mag_of e' g) = (e * 2 ^ F + f ?= e' * 2 ^ F + g).
Proof.
  intros He He' Hf Hg. destruct (Z.compare_spec (e * 2 ^ F + f) (e' * 2 ^ F + g)) as [H|H|H].
  - assert (e = e') by (apply (f_equal (fun x => x / 2 ^ F)) in H; rewrite !join_div in H by lia; exact H).
    subst e'. replace g with f by lia. apply Z.compare_refl.
  - apply Z.compare_lt_iff. apply mag_of_mono; lia.
  - apply Z.compare_gt_iff. apply mag_of_mono; lia.
Qed.

Lemma sgn_cmp s t x y u v : 0 <= x -> 0 <= y -> 0 <= u -> 0 <= v -> (x = 0 <-> u = 0) -> (y = 0 <-> v = 0) ->
  (x ?= y) = (u ?= v) -> (sgn s x ?= sgn t y) = (sgn s u ?= sgn t v).
Proof.
  intros Hx Hy Hu Hv H1 H2 H. unfold sgn. destruct s, t; [rewrite !Z.compare_opp, (Z.compare_antisym x y), (Z.compare_antisym u v), H; reflexivity | | |exact H].
  - destruct (Z.compare_spec (- x) y), (Z.compare_spec (- u) v); lia || reflexivity.
  - destruct (Z.compare_spec x (- y)), (Z.compare_spec u (- v)); lia || reflexivity.
Qed.

Lemma cmp_words s e f t e' g : 0 <= e < 2 ^ E -> 0 <= f < 2 ^ F -> 0 <= e' < 2 ^ E -> 0 <= g < 2 ^ F ->
  (e = 2 ^ E - 1 -> f = 0) -> (e' = 2 ^ E - 1 -> g = 0) ->
  cmp754 (decode754 E F (word E F s e f)) (decode754 E F (word E F t e' g)) =
  Some (sgn s (e * 2 ^ F + f) ?= sgn t (e' * 2 ^ F + g)).
Proof.
  intros He Hf He' Hg Nf Ng. pose proof (pow2_pos F ltac:(lia)) as PF. destruct (sf_EB E ltac:(lia)) as [EB B3].
  assert (HT : forall e f, 0 <= e < 2 ^ E - 1 -> 0 <= f < 2 ^ F -> 0 <= e * 2 ^ F + f < (2 ^ E - 1) * 2 ^ F).
  { intros x y Hx Hy. assert (0 <= x * 2 ^ F) by (apply Z.mul_nonneg_nonneg; lia).
    assert ((x + 1) * 2 ^ F <= (2 ^ E - 1) * 2 ^ F) by (apply Z.mul_le_mono_nonneg_r; lia). lia. }
  assert (PX : 0 < (2 ^ E - 1) * 2 ^ F) by (apply Z.mul_pos_pos; lia).
  destruct (Z.eq_dec e (2 ^ E - 1)) as [EX|EX], (Z.eq_dec e' (2 ^ E - 1)) as [EY|EY].
  - rewrite (Nf EX), (Ng EY), EX, EY. rewrite !decode_special by lia. cbn [Z.eqb cmp754]. f_equal. rewrite Z.add_0_r. unfold sgn.
    destruct s, t; symmetry; (apply Z.compare_refl || apply Z.compare_lt_iff || apply Z.compare_gt_iff); lia.
  - rewrite (Nf EX), EX. rewrite (decode_special E F HE HF s 0) by lia. rewrite (decode_fin E F HE HF t e' g) by lia. unfold fin_val. cbn [Z.eqb].
    pose proof (HT e' g ltac:(lia) Hg) as B. rewrite Z.add_0_r.
    match goal with |- cmp754 _ ?v = _ => replace (cmp754 (Inf s) v) with (Some (if s then Lt else Gt)) by (destruct (_ =? 0); reflexivity) end.
    f_equal. unfold sgn. destruct s, t; symmetry; (apply Z.compare_lt_iff || apply Z.compare_gt_iff); lia.
  - rewrite (Ng EY), EY. rewrite (decode_special E F HE HF t 0) by lia. rewrite (decode_fin E F HE HF s e f) by lia. unfold fin_val. cbn [Z.eqb].
    pose proof (HT e f ltac:(lia) Hf) as B. rewrite Z.add_0_r.
    match goal with |- cmp754 ?v _ = _ => replace (cmp754 v (Inf t)) with (Some (if t then Gt else Lt)) by (destruct (_ =? 0); reflexivity) end.
    f_equal. unfold sgn. destruct s, t; symmetry; (apply Z.compare_lt_iff || apply Z.compare_gt_iff); lia.
  - rewrite !decode_fin by lia.
    rewrite (cmp_fin _ _ _ _ _ _ (1 - bias E - F)) by (destruct (Z.eqb_spec e 0), (Z.eqb_spec e' 0); lia).
    assert (HM : forall e f, (if e =? 0 then f else 2 ^ F + f) * 2 ^ ((if e =? 0 then 1 else e) - bias E - F - (1 - bias E - F)) = mag_of e f).
    { intros x y. unfold mag_of. do 2 f_equal. lia. }
    rewrite !HM. f_equal.
    assert (HP : forall e f, 0 <= e -> 0 <= f < 2 ^ F -> 0 <= mag_of e f /\ (mag_of e f = 0 <-> e * 2 ^ F + f = 0)).
    { intros x y Hx Hy. unfold mag_of. destruct (Z.eqb_spec x 0) as [->|X0].
      - change (1 - 1) with 0. rewrite Z.pow_0_r. lia.
      - pose proof (pow2_pos (x - 1) ltac:(lia)). assert (0 < (2 ^ F + y) * 2 ^ (x - 1)) by (apply Z.mul_pos_pos; lia).
        assert (0 < x * 2 ^ F) by (apply Z.mul_pos_pos; lia). lia. }
    destruct (HP e f ltac:(lia) Hf) as [A1 A2]. destruct (HP e' g ltac:(lia) Hg) as [A3 A4].
    pose proof (HT e f ltac:(lia) Hf). pose proof (HT e' g ltac:(lia) Hg).
    apply sgn_cmp; try lia; try assumption. apply mag_of_cmp; lia.
Qed.

Lemma magOr_word s e f t e' g : 0 <= e < 2 ^ E -> 0 <= f < 2 ^ F -> 0 <= e' < 2 ^ E -> 0 <= g < 2 ^ F ->
  (magOr E F (word E F s e f) (word E F t e' g) =? 0) = (e * 2 ^ F + f =? 0) && (e' * 2 ^ F + g =? 0).
Proof.
  intros He Hf He' Hg. unfold magOr, uw. rewrite Z.shiftl_mul_pow2, Z.pow_1_r, pow2_S by lia.
  pose proof (word_body E F ltac:(lia) HF s e f He Hf) as B1. pose proof (word_body E F ltac:(lia) HF t e' g He' Hg) as B2.
  pose proof (pow2_pos (E + F) ltac:(lia)). rewrite (Z.mul_comm 2), Z.mul_mod_distr_r by lia.
  rewrite <- land_low, Z.land_lor_distr_l, !land_low by lia. unfold word. rewrite !join_mod by lia.
  rewrite <- lor_zero by lia. remember (Z.lor _ _) as x. destruct (Z.eqb_spec x 0), (Z.eqb_spec (x * 2) 0); lia.
Qed.

Lemma decode_nan_cmp x y : x = NaN \/ y = NaN -> cmp754 x y = None.
Proof. intros [-> | ->]; [reflexivity|]. destruct x; reflexivity. Qed.

Lemma nan_split s e f t e' g : 0 <= e < 2 ^ E -> 0 <= f < 2 ^ F -> 0 <= e' < 2 ^ E -> 0 <= g < 2 ^ F ->
  (isNaNUI E F (word E F s e f) || isNaNUI E F (word E F t e' g) = true /\
     cmp754 (decode754 E F (word E F s e f)) (decode754 E F (word E F t e' g)) = None) \/
  (isNaNUI E F (word E F s e f) || isNaNUI E F (word E F t e' g) = false /\
     cmp754 (decode754 E F (word E F s e f)) (decode754 E F (word E F t e' g)) =
     Some (sgn s (e * 2 ^ F + f) ?= sgn t (e' * 2 ^ F + g))).
Proof.
  intros He Hf He' Hg. rewrite !isNaNUI_word by lia.
  destruct ((e =? 2 ^ E - 1) && negb (f =? 0)) eqn:N1; cbn [orb].
  - left. split; [reflexivity|]. apply decode_nan_cmp. left. apply decode_nan_word; [lia|lia|lia|lia|].
    apply andb_prop in N1. destruct N1 as [N1 N2]. apply Z.eqb_eq in N1. apply negb_true_iff, Z.eqb_neq in N2. auto.
  - destruct ((e' =? 2 ^ E - 1) && negb (g =? 0)) eqn:N2.
    + left. split; [reflexivity|]. apply decode_nan_cmp. right. apply decode_nan_word; [lia|lia|lia|lia|].
      apply andb_prop in N2. destruct N2 as [N2 N3]. apply Z.eqb_eq in N2. apply negb_true_iff, Z.eqb_neq in N3. auto.
    + right. split; [reflexivity|]. apply cmp_words; try assumption; intros HX.
      * rewrite HX, Z.eqb_refl in N1. cbn [andb] in N1. now apply negb_false_iff, Z.eqb_eq in N1.
      * rewrite HX, Z.eqb_refl in N2. cbn [andb] in N2. now apply negb_false_iff, Z.eqb_eq in N2.
Qed.

Theorem sf_cmp_ok a b : 0 <= a < 2 ^ W -> 0 <= b < 2 ^ W ->
  sf_eq E F a b = eq754 (decode754 E F a) (decode754 E F b) /\
  sf_lt E F a b = lt754 (decode754 E F a) (decode754 E F b) /\
  sf_le E F a b = le754 (decode754 E F a) (decode754 E F b).
Proof.
  intros Ha Hb. rewrite HW in Ha, Hb.
  destruct (word_split E F ltac:(lia) HF a Ha) as (s & e & f & -> & He & Hf).
  destruct (word_split E F ltac:(lia) HF b Hb) as (t & e' & g & -> & He' & Hg).
  unfold sf_eq, sf_lt, sf_le, eq754, lt754, le754. cbv zeta.
  destruct (nan_split s e f t e' g He Hf He' Hg) as [[-> ->]|[-> ->]]; [auto|].
  rewrite !signUI_word, magOr_word by lia.
  pose proof (word_body E F ltac:(lia) HF s e f He Hf) as B1. pose proof (word_body E F ltac:(lia) HF t e' g He' Hg) as B2.
  unfold word. remember (e * 2 ^ F + f) as x. remember (e' * 2 ^ F + g) as y. remember (2 ^ (E + F)) as P.
  clear - B1 B2. unfold sgn.
  destruct s, t; cbn [Z.b2z Bool.eqb negb andb xorb];
  match goal with |- context [?u ?= ?v] => destruct (Z.compare_spec u v) end;
  repeat match goal with |- context [?u =? ?v] => destruct (Z.eqb_spec u v) | |- context [?u <? ?v] => destruct (Z.ltb_spec u v) end;
  cbn; repeat split; try reflexivity; lia.
Qed.
End Cmp.
