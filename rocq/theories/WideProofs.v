(** Rounding in a format with more than twice the precision and then in the narrow one. *)
From Coq Require Import ZArith Bool Lia.
From Verif Require Import Fw FwLemmas Spec SpecLemmas Flopoco FlopocoLemmas CompareProofs ConvertProofs ValueLemmas FmaProofs FmaProofs2.
Open Scope Z_scope.

Lemma cross_shift n d N D j K : 0 < d -> 0 <= K -> N * den2 d j = num2 n j * D -> N * den2 d (j - K) = num2 n (j - K) * (D * 2 ^ K).
Proof.
  intros Hd HK H. set (c := Z.max 0 (K - j)). assert (Hc : 0 <= c /\ 0 <= c + (j - K)) by (unfold c; lia).
  pose proof (num2_den2_cross n d (j - K) c ltac:(lia) ltac:(lia)) as A. pose proof (num2_den2_cross n d j c ltac:(lia) ltac:(lia)) as B.
  assert (P : 0 < d * 2 ^ c) by (apply Z.mul_pos_pos; [assumption|apply pow2_pos; lia]).
  assert (Q : 0 < den2 d j) by (unfold den2; apply Z.mul_pos_pos; [assumption|apply pow2_pos; lia]).
  assert (S : 2 ^ (c + j) = 2 ^ (c + (j - K)) * 2 ^ K) by (rewrite <- pow2_add by lia; f_equal; lia).
  rewrite S in B. remember (2 ^ (c + (j - K))) as u. remember (d * 2 ^ c) as w. remember (2 ^ K) as t.
  (* N/D = num2/den2 at j; multiply out *)
  apply (Z.mul_reg_r _ _ (w * den2 d j)); [lia|].
  replace (N * den2 d (j - K) * (w * den2 d j)) with ((N * den2 d j) * w * den2 d (j - K)) by ring.
  rewrite H. replace (num2 n (j - K) * (D * t) * (w * den2 d j)) with ((num2 n (j - K) * w) * (D * t * den2 d j)) by ring. rewrite A.
  replace (num2 n j * D * w * den2 d (j - K)) with ((num2 n j * w) * D * den2 d (j - K)) by ring. rewrite B. ring.
Qed.

Lemma dr_core E F ER FR s n d k e N D : 1 <= ER < E -> 1 <= FR < F -> 0 < n -> 0 < d -> 0 < D ->
  N * den2 d (k - e) = num2 n (k - e) * D -> 2 ^ F * D <= N < 2 ^ (F + 1) * D ->
  rne_div N D mod 2 ^ (F - FR) <> 2 ^ (F - FR - 1) \/ N = rne_div N D * D ->
  convert_spec ER FR (round_to E F s n d k) = round_to ER FR s n d k.
Proof.
  intros HE HF Hn Hd HD HX HR HT.
  assert (HB : emin E < emin ER /\ emax ER < emax E /\ emin ER <= emax ER).
  { pose proof (pow2_pos (ER - 1) ltac:(lia)). assert (2 ^ (ER - 1) < 2 ^ (E - 1)) by (apply Z.pow_lt_mono_r; lia). unfold emin, emax, bias. lia. }
  assert (PF : 0 < 2 ^ F) by (apply pow2_pos; lia). assert (PR : 0 < 2 ^ FR) by (apply pow2_pos; lia). assert (PK : 0 < 2 ^ (F - FR)) by (apply pow2_pos; lia).
  assert (EF : 2 ^ F = 2 ^ FR * 2 ^ (F - FR)) by (rewrite <- pow2_add by lia; f_equal; lia).
  assert (W : round_to E F s n d k = finish (emin E) (emax E) F s (norm_me F (rne_div N D) e)) by (apply round_range_char; try assumption; lia).
  assert (V : round_to ER FR s n d k = finish (emin ER) (emax ER) FR s (norm_me FR (rne_div N (D * 2 ^ (F - FR))) (e + (F - FR)))).
  { apply round_range_char; try assumption; try lia.
    - replace (k - (e + (F - FR))) with (k - e - (F - FR)) by lia. apply cross_shift; [assumption|lia|exact HX].
    - rewrite pow2_S in * by lia. rewrite EF in HR. clear - HR. nia. }
  assert (BM : 2 ^ F <= rne_div N D <= 2 * 2 ^ F) by (rewrite pow2_S in HR by lia; apply rne_bound; lia).
  assert (Y : rne_div N (D * 2 ^ (F - FR)) = rne_div (rne_div N D) (2 ^ (F - FR))).
  { destruct HT as [T|T]; [symmetry; apply rne_rne; [lia|lia|exact T]|].
    transitivity (rne_div (rne_div N D * D) (2 ^ (F - FR) * D)); [rewrite <- T; f_equal; ring|]. apply rne_div_scale; lia. }
  rewrite Y in V. rewrite W, V. clear W V Y HT HX HR. remember (rne_div N D) as M eqn:EM. clear EM.
  assert (BR : 2 ^ FR <= rne_div M (2 ^ (F - FR)) <= 2 * 2 ^ FR) by (apply rne_bound; [lia|rewrite <- EF; lia|rewrite <- Z.mul_assoc, <- EF; lia]).
  unfold norm_me. rewrite !pow2_S by lia.
  destruct (Z.eqb_spec M (2 * 2 ^ F)) as [E2|E2].
  - assert (R2 : rne_div M (2 ^ (F - FR)) = 2 * 2 ^ FR) by (rewrite E2, EF, Z.mul_assoc; apply rne_div_exact; lia). rewrite R2, Z.eqb_refl. unfold finish.
    replace (e + (F - FR) + 1 + FR) with (e + 1 + F) by lia.
    destruct (Z.ltb_spec (e + 1 + F) (emin E)); [destruct (Z.ltb_spec (e + 1 + F) (emin ER)); [reflexivity|lia]|].
    destruct (Z.ltb_spec (emax E) (e + 1 + F)); [destruct (Z.ltb_spec (e + 1 + F) (emin ER)); [lia|]; destruct (Z.ltb_spec (emax ER) (e + 1 + F)); [reflexivity|lia]|].
    unfold convert_spec, convert_gen. rewrite EF. replace (e + 1) with (e + (F - FR) + 1 - (F - FR)) at 1 by lia. rewrite round_to_val by lia.
    unfold round_to. rewrite (round_range_char _ _ FR s (2 ^ FR) 1 (e + (F - FR) + 1) (e + (F - FR) + 1) (2 ^ FR) 1); [|lia|lia|lia|lia| |].
    + rewrite rne_div_1. unfold norm_me. rewrite pow2_S by lia. destruct (Z.eqb_spec (2 ^ FR) (2 * 2 ^ FR)); [lia|]. unfold finish. replace (e + (F - FR) + 1 + FR) with (e + 1 + F) by lia. reflexivity.
    + rewrite Z.sub_diag. unfold num2, den2. cbn [Z.max Z.opp Z.compare]. change (2 ^ 0) with 1. ring.
    + rewrite pow2_S by lia. lia.
  - assert (G : convert_spec ER FR (Num s M e) = finish (emin ER) (emax ER) FR s (norm_me FR (rne_div M (2 ^ (F - FR))) (e + (F - FR)))).
    { unfold convert_spec, convert_gen, round_to. apply round_range_char; [lia|lia|lia|lia| |].
      * replace (e - (e + (F - FR))) with (- (F - FR)) by lia. unfold num2, den2. rewrite Z.opp_involutive, (Z.max_r 0 (F - FR)), (Z.max_l 0 (- (F - FR))) by lia. change (2 ^ 0) with 1. ring.
      * rewrite pow2_S by lia. rewrite <- Z.mul_assoc, <- EF. lia. }
    unfold norm_me in G. rewrite pow2_S in G by lia. remember (rne_div M (2 ^ (F - FR))) as m eqn:Em. clear Em.
    unfold finish at 1. destruct (Z.ltb_spec (e + F) (emin E)).
    { unfold convert_spec, convert_gen, finish. destruct (m =? 2 * 2 ^ FR).
      - destruct (Z.ltb_spec (e + (F - FR) + 1 + FR) (emin ER)); [reflexivity|lia].
      - destruct (Z.ltb_spec (e + (F - FR) + FR) (emin ER)); [reflexivity|lia]. }
    destruct (Z.ltb_spec (emax E) (e + F)).
    { unfold convert_spec, convert_gen, finish. destruct (m =? 2 * 2 ^ FR).
      - destruct (Z.ltb_spec (e + (F - FR) + 1 + FR) (emin ER)); [lia|]. destruct (Z.ltb_spec (emax ER) (e + (F - FR) + 1 + FR)); [reflexivity|lia].
      - destruct (Z.ltb_spec (e + (F - FR) + FR) (emin ER)); [lia|]. destruct (Z.ltb_spec (emax ER) (e + (F - FR) + FR)); [reflexivity|lia]. }
    exact G.
Qed.

(** An integer of at most G+1 bits. *)
Lemma dr_exact E G ER F s n k : 1 <= ER < E -> 1 <= F < G -> 0 < n < 2 ^ (G + 1) ->
  convert_spec ER F (round_to E G s n 1 k) = round_to ER F s n 1 k.
Proof.
  intros HE HF Hn. pose proof (Z.log2_spec n ltac:(lia)) as L. pose proof (Z.log2_nonneg n) as L0.
  assert (LG : Z.log2 n <= G) by (apply Z.lt_succ_r; apply Z.log2_lt_pow2; [lia|rewrite <- Z.add_1_r; lia]).
  remember (Z.log2 n) as c eqn:Ec. clear Ec. rewrite <- Z.add_1_r in L.
  assert (PG : 0 < 2 ^ (G - c)) by (apply pow2_pos; lia).
  assert (E1 : 2 ^ G = 2 ^ c * 2 ^ (G - c)) by (rewrite <- pow2_add by lia; f_equal; lia).
  assert (E2 : 2 ^ (G + 1) = 2 ^ (c + 1) * 2 ^ (G - c)) by (rewrite <- pow2_add by lia; f_equal; lia).
  apply (dr_core _ _ _ _ _ _ _ _ (k - (G - c)) (n * 2 ^ (G - c)) 1); try assumption; try lia.
  - replace (k - (k - (G - c))) with (G - c) by lia. unfold num2, den2. rewrite (Z.max_r 0 (G - c)), (Z.max_l 0 (- (G - c))) by lia. change (2 ^ 0) with 1. ring.
  - rewrite E1, E2. clear - L PG. nia.
  - right. rewrite rne_div_1. lia.
Qed.

(** An integer close to a number of the narrow format. *)
Lemma half_free F G n A b c : 0 <= F -> 2 * F + 2 <= G < c -> n = A + b -> Z.abs b < 2 ^ (F + 1) -> A mod 2 ^ (c - F) = 0 ->
  rne_div n (2 ^ (c - G)) mod 2 ^ (G - F) <> 2 ^ (G - F - 1).
Proof.
  intros HF HG Hn Hb HA HT.
  assert (PD : 0 < 2 ^ (c - G - 1)) by (apply pow2_pos; lia). assert (ED : 2 ^ (c - G) = 2 * 2 ^ (c - G - 1)) by (rewrite <- pow2_S by lia; f_equal; lia).
  assert (EK : 2 ^ (G - F) = 2 * 2 ^ (G - F - 1)) by (rewrite <- pow2_S by lia; f_equal; lia).
  assert (EQ : 2 ^ (G - F - 1) = 2 ^ (F + 1) * 2 ^ (G - 2 * F - 2)) by (rewrite <- pow2_add by lia; f_equal; lia).
  assert (PQ : 0 < 2 ^ (G - 2 * F - 2)) by (apply pow2_pos; lia). assert (PF : 0 < 2 ^ (F + 1)) by (apply pow2_pos; lia).
  assert (EC : 2 ^ (c - F) = 2 ^ (c - G) * 2 ^ (G - F)) by (rewrite <- pow2_add by lia; f_equal; lia).
  pose proof (rne_near n (2 ^ (c - G)) ltac:(lia)) as B. remember (rne_div n (2 ^ (c - G))) as M eqn:EM. clear EM.
  pose proof (div_mod_eq M (2 ^ (G - F)) ltac:(lia)) as DM. rewrite HT in DM. remember (M / 2 ^ (G - F)) as j eqn:Ej. clear Ej HT.
  pose proof (div_mod_eq A (2 ^ (c - F)) ltac:(rewrite EC; apply Z.mul_pos_pos; lia)) as DA. rewrite HA, Z.add_0_r in DA. remember (A / 2 ^ (c - F)) as q eqn:Eq. clear Eq HA.
  rewrite EC, EK, ED in DA. rewrite EK in DM. rewrite ED in B. clear EC EK ED.
  remember (2 ^ (c - G - 1)) as D eqn:E1. remember (2 ^ (G - F - 1)) as h eqn:E2. remember (2 ^ (F + 1)) as p eqn:E3. remember (2 ^ (G - 2 * F - 2)) as r eqn:E4. clear E1 E2 E3 E4.
  assert (Hh : p <= h) by nia.
  assert (X : n - M * (2 * D) = (2 * (q - j) - 1) * (h * (2 * D)) + b) by (subst n; rewrite DA, DM; ring).
  rewrite X in B. clear X DM DA Hn EQ.
  assert (Y : 2 * p * D <= h * (2 * D)) by nia.
  assert (p <= p * D /\ 1 <= D) by nia.
  destruct (Z_le_gt_dec (q - j) 0) as [L|L].
  - assert ((2 * (q - j) - 1) * (h * (2 * D)) <= - (h * (2 * D))) by nia. nia.
  - assert (h * (2 * D) <= (2 * (q - j) - 1) * (h * (2 * D))) by nia. nia.
Qed.

Lemma dr_sum E G ER F s n k a m b : 1 <= ER < E -> 1 <= F -> 2 * F + 2 <= G -> 0 <= a -> 0 <= m < 2 ^ (F + 1) -> Z.abs b < 2 ^ (F + 1) ->
  0 < n -> n = m * 2 ^ a + b -> convert_spec ER F (round_to E G s n 1 k) = round_to ER F s n 1 k.
Proof.
  intros HE HF HG Ha Hm Hb Hn En. destruct (Z_lt_ge_dec n (2 ^ (G + 1))) as [L|L]; [apply dr_exact; lia|].
  pose proof (Z.log2_spec n Hn) as LC. assert (LG : G + 1 <= Z.log2 n) by (apply Z.log2_le_pow2; lia).
  remember (Z.log2 n) as c eqn:Ec. clear Ec. rewrite <- Z.add_1_r in LC.
  assert (PF : 0 < 2 ^ (F + 1)) by (apply pow2_pos; lia). assert (Pa : 0 < 2 ^ a) by (apply pow2_pos; lia).
  assert (HG2 : 2 ^ (F + 1) * (2 * 2 ^ (F + 1)) <= 2 ^ (G + 1)).
  { rewrite <- pow2_S by lia. rewrite <- pow2_add by lia. apply Z.pow_le_mono_r; lia. }
  assert (Ha2 : F + 1 <= a).
  { destruct (Z_le_gt_dec (F + 1) a) as [|C]; [assumption|exfalso]. assert (2 ^ a <= 2 ^ F) by (apply Z.pow_le_mono_r; lia).
    assert (m * 2 ^ a <= 2 ^ (F + 1) * 2 ^ F) by (apply Z.mul_le_mono_nonneg; lia). pose proof (pow2_pos F ltac:(lia)). assert (2 ^ (F + 1) = 2 * 2 ^ F) by (apply pow2_S; lia). nia. }
  assert (2 ^ (F + 1) <= 2 ^ a) by (apply Z.pow_le_mono_r; lia).
  assert (Hc : c <= a + F).
  { destruct (Z_le_gt_dec c (a + F)) as [|C]; [assumption|exfalso]. assert (P : 2 ^ (F + 1) * 2 ^ a <= 2 ^ c) by (rewrite <- pow2_add by lia; apply Z.pow_le_mono_r; lia). nia. }
  assert (P1 : 2 ^ c = 2 ^ G * 2 ^ (c - G)) by (rewrite <- pow2_add by lia; f_equal; lia).
  assert (P2 : 2 ^ (c + 1) = 2 ^ (G + 1) * 2 ^ (c - G)) by (rewrite <- pow2_add by lia; f_equal; lia).
  apply (dr_core _ _ _ _ _ _ _ _ (k + (c - G)) n (2 ^ (c - G))); try assumption; try lia.
  - replace (k - (k + (c - G))) with (- (c - G)) by lia. unfold num2, den2. rewrite Z.opp_involutive, (Z.max_r 0 (c - G)), (Z.max_l 0 (- (c - G))) by lia. change (2 ^ 0) with 1. ring.
  - left. apply (half_free F G n (m * 2 ^ a) b c); try assumption; try lia.
    replace (2 ^ a) with (2 ^ (a - (c - F)) * 2 ^ (c - F)) by (rewrite <- pow2_add by lia; f_equal; lia). rewrite Z.mul_assoc. apply Z.mod_mul. pose proof (pow2_pos (c - F) ltac:(lia)). lia.
Qed.

Definition sized_v (F : Z) (v : fval) : Prop := match v with Num _ m _ => 2 ^ F <= m < 2 ^ (F + 1) | _ => True end.

Lemma wide_add_one E G ER F x y : 1 <= ER < E -> 1 <= F -> 2 * F + 2 <= G -> sized_v F x -> sized_v F y ->
  convert_spec ER F (add_spec E G x y) = add_spec ER F x y.
Proof.
  intros HE HF HG Hx Hy. assert (PF : 0 < 2 ^ F) by (apply pow2_pos; lia). assert (GG : 2 ^ (F + 1) <= 2 ^ (G + 1)) by (apply Z.pow_le_mono_r; lia).
  unfold add_spec. destruct x as [|s|s|s m e], y as [|t|t|t n f]; cbn [add_gen sized_v] in *; try reflexivity.
  - destruct (Bool.eqb s t); reflexivity.
  - apply dr_exact; lia.
  - apply dr_exact; lia.
  - remember (sgn s (m * 2 ^ (e - Z.min e f)) + sgn t (n * 2 ^ (f - Z.min e f))) as v eqn:Ev.
    destruct (Z.eqb_spec v 0) as [V|V]; [reflexivity|].
    destruct (Z_lt_ge_dec (Z.abs v) (2 ^ (G + 1))) as [L|L]; [apply dr_exact; lia|].
    destruct (Z.min_spec e f) as [[Lm Em]|[Lm Em]]; rewrite Em in Ev |- *; rewrite Z.sub_diag in Ev; change (2 ^ 0) with 1 in Ev; rewrite Z.mul_1_r in Ev.
    + apply (dr_sum E G ER F _ _ _ (f - e) n (if Bool.eqb s t then m else - m)); try assumption; try lia; [destruct (Bool.eqb s t); lia|].
      assert (0 < 2 ^ (f - e)) by (apply pow2_pos; lia). assert (0 < n * 2 ^ (f - e)) by nia. remember (n * 2 ^ (f - e)) as B. destruct s, t; cbn [sgn Bool.eqb] in *; lia.
    + apply (dr_sum E G ER F _ _ _ (e - f) m (if Bool.eqb s t then n else - n)); try assumption; try lia; [destruct (Bool.eqb s t); lia|].
      assert (0 < 2 ^ (e - f)) by (apply pow2_pos; lia). assert (0 < m * 2 ^ (e - f)) by nia. remember (m * 2 ^ (e - f)) as B. destruct s, t; cbn [sgn Bool.eqb] in *; lia.
Qed.

Lemma wide_mul_one E G ER F x y : 1 <= ER < E -> 1 <= F -> 2 * F + 1 <= G -> sized_v F x -> sized_v F y ->
  convert_spec ER F (mul_spec E G x y) = mul_spec ER F x y.
Proof.
  intros HE HF HG Hx Hy. assert (PF : 0 < 2 ^ F) by (apply pow2_pos; lia). assert (GG : 2 ^ (F + 1) * 2 ^ (F + 1) <= 2 ^ (G + 1)) by (rewrite <- pow2_add by lia; apply Z.pow_le_mono_r; lia).
  unfold mul_spec. destruct x as [|s|s|s m e], y as [|t|t|t n f]; cbn [mul_gen sized_v] in *; try reflexivity.
  apply dr_exact; [assumption|lia|]. nia.
Qed.

(** The quotient: a remainder that is not zero is too large for a half-way case. *)
Lemma dr_quot E G ER F s m n k p : 1 <= ER < E -> 1 <= F -> 2 * F + 1 <= G -> 0 < p -> 2 ^ F <= m < 2 ^ (F + 1) -> 2 ^ F <= n < 2 ^ (F + 1) ->
  convert_spec ER F (round_to E G s (m * p) (n * p) k) = round_to ER F s m n k.
Proof.
  intros HE HF HG Hp Hm Hn. assert (PF : 0 < 2 ^ F) by (apply pow2_pos; lia).
  set (a := if m <? n then G + 1 else G). assert (Ha : G <= a <= G + 1) by (unfold a; destruct (m <? n); lia).
  assert (R : 2 ^ G * n <= m * 2 ^ a < 2 ^ (G + 1) * n).
  { assert (PG : 0 < 2 ^ G) by (apply pow2_pos; lia). rewrite pow2_S in * by lia. unfold a. destruct (Z.ltb_spec m n); [rewrite pow2_S by lia|]; clear - PG H Hm Hn; nia. }
  assert (X : forall q, (m * 2 ^ a) * den2 (n * q) (k - (k - a)) = num2 (m * q) (k - (k - a)) * n).
  { intros q. replace (k - (k - a)) with a by lia. unfold num2, den2. rewrite (Z.max_r 0 a), (Z.max_l 0 (- a)) by lia. change (2 ^ 0) with 1. ring. }
  assert (Q : round_to ER F s m n k = round_to ER F s (m * p) (n * p) k).
  { assert (A : forall q, 0 < q -> round_to ER F s (m * q) (n * q) k = finish (emin ER) (emax ER) F s (norm_me F (rne_div (m * 2 ^ a) (n * 2 ^ (G - F))) (k - a + (G - F)))).
    { intros q Hq. apply round_range_char; [lia|nia|nia|apply Z.mul_pos_pos; [lia|apply pow2_pos; lia]| |].
      - replace (k - (k - a + (G - F))) with (k - (k - a) - (G - F)) by lia. apply cross_shift; [nia|lia|apply X].
      - assert (E1 : 2 ^ G = 2 ^ F * 2 ^ (G - F)) by (rewrite <- pow2_add by lia; f_equal; lia). assert (E2 : 2 ^ (G + 1) = 2 ^ (F + 1) * 2 ^ (G - F)) by (rewrite <- pow2_add by lia; f_equal; lia).
        rewrite E1, E2 in R. lia. }
    rewrite <- (Z.mul_1_r m) at 1. rewrite <- (Z.mul_1_r n) at 1. rewrite (A 1), (A p) by lia. reflexivity. }
  rewrite Q. apply (dr_core _ _ _ _ _ _ _ _ (k - a) (m * 2 ^ a) n); try assumption; try nia; [apply X|].
  destruct (Z.eq_dec (rne_div (m * 2 ^ a) n mod 2 ^ (G - F)) (2 ^ (G - F - 1))) as [T|T]; [right|left; exact T].
  pose proof (rne_near (m * 2 ^ a) n ltac:(lia)) as B. remember (rne_div (m * 2 ^ a) n) as M eqn:EM. clear EM.
  assert (Ph : 0 < 2 ^ (G - F - 1)) by (apply pow2_pos; lia). assert (EK : 2 ^ (G - F) = 2 * 2 ^ (G - F - 1)) by (rewrite <- pow2_S by lia; f_equal; lia).
  pose proof (div_mod_eq M (2 ^ (G - F)) ltac:(lia)) as DM. rewrite T in DM. remember (M / 2 ^ (G - F)) as j eqn:Ej. clear Ej T. rewrite EK in DM.
  assert (EA : 2 ^ a = 2 ^ (a - (G - F - 1)) * 2 ^ (G - F - 1)) by (rewrite <- pow2_add by lia; f_equal; lia).
  assert (HH : 2 ^ F <= 2 ^ (G - F - 1)) by (apply Z.pow_le_mono_r; lia). rewrite pow2_S in Hn by lia.
  rewrite EA in B |- *. remember (2 ^ (a - (G - F - 1))) as u. remember (2 ^ (G - F - 1)) as h.
  assert (Z1 : m * (u * h) - M * n = (m * u - (2 * j + 1) * n) * h) by (rewrite DM; ring).
  rewrite Z1 in B. assert (m * u - (2 * j + 1) * n = 0) by (clear - B HH Hn Ph; nia). nia.
Qed.

Lemma wide_div_one E G ER F d x y : 1 <= ER < E -> 1 <= F -> 2 * F + 1 <= G -> 0 <= d -> sized_v F x -> sized_v F y ->
  convert_spec ER F (div_spec E G (scale_v d x) (scale_v d y)) = div_spec ER F x y.
Proof.
  intros HE HF HG Hd Hx Hy. unfold div_spec. destruct x as [|s|s|s m e], y as [|t|t|t n f]; cbn [div_gen sized_v scale_v] in *; try reflexivity.
  replace (e - d - (f - d)) with (e - f) by lia. apply dr_quot; try assumption. apply pow2_pos; lia.
Qed.
