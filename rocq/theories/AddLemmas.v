(** Lemmas about leading-zero counting, sticky bits and rounding shared by the adders. *)
From Coq Require Import ZArith Bool Lia.
From Verif Require Import Fw FwLemmas Spec SpecLemmas AddSingle.
Open Scope Z_scope.

(** ** intlog2 *)
Lemma intlog2_spec n : 1 <= n -> 1 <= intlog2 n /\ 2 ^ (intlog2 n - 1) <= n < 2 ^ intlog2 n.
Proof.
  intros H. unfold intlog2. destruct (Z.leb_spec n 0); [lia|]. pose proof (Z.log2_nonneg n).
  pose proof (Z.log2_spec n ltac:(lia)) as [A1 A2]. rewrite Z.add_simpl_r. rewrite <- Z.add_1_r in A2. lia.
Qed.

(** ** LZOCShifter *)
Lemma lzoc_stage_ok WD k x : 0 <= k -> 2 ^ k <= WD -> 0 < x < 2 ^ WD ->
  exists b mid, lzoc_stage WD k x = Some (mid, Z.b2z b) /\
    ((b = true /\ x < 2 ^ (WD - 2 ^ k) /\ mid = x * 2 ^ (2 ^ k) /\ 2 ^ k < WD) \/
     (b = false /\ 2 ^ (WD - 2 ^ k) <= x /\ mid = x)).
Proof.
  intros Hk HS Hx. pose proof (pow2_pos k Hk) as PS. remember (2 ^ k) as S eqn:ES.
  unfold lzoc_stage. rewrite <- ES. unfold assert_ at 1. destruct (Z.leb_spec S WD); [|lia]. cbn [bind].
  rewrite (get_bits_w WD (WD - 1) (WD - S) S) by lia. cbn [bind].
  pose proof (pow2_pos (WD - S) ltac:(lia)) as PW.
  assert (Hhi : (x / 2 ^ (WD - S)) mod 2 ^ S = x / 2 ^ (WD - S)).
  { apply Z.mod_small. apply (div_pow_lt x (WD - S) S); try lia. replace (WD - S + S) with WD by lia. lia. }
  rewrite Hhi. clear Hhi.
  assert (Hb : (x / 2 ^ (WD - S) =? 0) = (x <? 2 ^ (WD - S))).
  { destruct (Z.ltb_spec x (2 ^ (WD - S))).
    - rewrite Z.div_small by lia. reflexivity.
    - apply Z.eqb_neq. assert (1 <= x / 2 ^ (WD - S)) by (apply Z.div_le_lower_bound; lia). lia. }
  unfold feq. rewrite Hb.
  destruct (Z.eqb_spec S WD) as [Heq|Hne].
  - rewrite Heq, Z.sub_diag. change (2 ^ 0) with 1. destruct (Z.ltb_spec x 1); [lia|].
    exists false, x. split; [reflexivity|]. right. repeat split; lia.
  - rewrite (get_bits_w WD (WD - S - 1) 0 (WD - S)) by lia. cbn [bind]. rewrite Z.pow_0_r, Z.div_1_r.
    unfold fne. rewrite Hb. rewrite fshl_ok by lia.
    assert (Hs : x < 2 ^ (WD - S) -> (x * 2 ^ S) mod 2 ^ WD = x * 2 ^ S).
    { intros. apply Z.mod_small. pose proof (pow2_pos S ltac:(lia)). split; [nia|].
      replace WD with (WD - S + S) at 1 by lia. rewrite pow2_add by lia. nia. }
    destruct (Z.ltb_spec x (2 ^ (WD - S))) as [Hlt|Hge].
    + rewrite (Z.mod_small x) by lia. destruct (Z.eqb_spec x 0); [lia|]. cbn. rewrite Hs by lia.
      exists true, (x * 2 ^ S). split; [reflexivity|]. left. repeat split; lia.
    + exists false, x. split; [|right; repeat split; lia]. destruct (x =? 0), (x mod 2 ^ (WD - S) =? 0); reflexivity.
Qed.

Lemma lzoc_ok WD n : forall x, 1 <= WD -> (n <> O -> 2 ^ (Z.of_nat n - 1) <= WD) -> 0 < x < 2 ^ WD ->
  2 ^ (WD - 1) <= x * 2 ^ (2 ^ Z.of_nat n - 1) ->
  exists c, lzoc WD n x = Some (x * 2 ^ c, c) /\ 0 <= c < 2 ^ Z.of_nat n /\ 2 ^ (WD - 1) <= x * 2 ^ c < 2 ^ WD.
Proof.
  induction n as [|k IH]; intros x HW Hn Hx Hp.
  - cbn in Hp. exists 0. cbn [lzoc]. rewrite Z.pow_0_r, Z.mul_1_r in *. cbn. repeat split; lia.
  - cbn [lzoc]. specialize (Hn ltac:(discriminate)). rewrite Nat2Z.inj_succ in *.
    replace (Z.succ (Z.of_nat k) - 1) with (Z.of_nat k) in Hn by lia.
    rewrite Z.pow_succ_r in * by lia. pose proof (pow2_pos (Z.of_nat k) ltac:(lia)) as PK.
    destruct (lzoc_stage_ok WD (Z.of_nat k) x ltac:(lia) Hn Hx) as (b & mid & -> & Hc). cbn [bind].
    assert (HK : k <> O -> 2 ^ (Z.of_nat k - 1) <= WD).
    { intros. pose proof (pow2_le (Z.of_nat k - 1) (Z.of_nat k) ltac:(lia)). lia. }
    remember (2 ^ Z.of_nat k) as S eqn:ES in *.
    destruct Hc as [(-> & Hlt & -> & HSW)|(-> & Hge & ->)].
    + pose proof (pow2_pos S ltac:(lia)) as PS.
      assert (Hs : x * 2 ^ S < 2 ^ WD).
      { replace WD with (WD - S + S) by lia. rewrite pow2_add by lia. nia. }
      destruct (IH (x * 2 ^ S) HW HK) as (c & -> & Hc & Hr).
      { split; [nia|assumption]. }
      { rewrite <- Z.mul_assoc, <- pow2_add by lia. replace (S + (S - 1)) with (2 * S - 1) by lia. assumption. }
      cbn [bind]. exists (S + c). rewrite pow2_add by lia. rewrite Z.mul_assoc.
      rewrite cat_eq by (rewrite ?ES; lia). cbn [Z.b2z]. rewrite <- ES, Z.mul_1_l.
      repeat split; lia.
    + destruct (IH x HW HK Hx) as (c & -> & Hc & Hr).
      { assert (2 ^ (WD - 1) = 2 ^ (WD - S) * 2 ^ (S - 1)) by (rewrite <- pow2_add by lia; f_equal; lia).
        pose proof (pow2_pos (S - 1) ltac:(lia)). nia. }
      cbn [bind]. exists c. rewrite cat_eq by (rewrite ?ES; lia). cbn [Z.b2z]. rewrite Z.mul_0_l, Z.add_0_l.
      repeat split; lia.
Qed.

Lemma lzoc_zero WD n : 1 <= WD -> (n <> O -> 2 ^ (Z.of_nat n - 1) <= WD) ->
  lzoc WD n 0 = Some (0, 2 ^ Z.of_nat n - 1).
Proof.
  intros HW. induction n as [|k IH]; intros Hn; [reflexivity|].
  cbn [lzoc]. specialize (Hn ltac:(discriminate)). rewrite Nat2Z.inj_succ in *.
  replace (Z.succ (Z.of_nat k) - 1) with (Z.of_nat k) in Hn by lia. rewrite Z.pow_succ_r by lia.
  pose proof (pow2_pos (Z.of_nat k) ltac:(lia)) as PK.
  assert (HK : k <> O -> 2 ^ (Z.of_nat k - 1) <= WD).
  { intros. pose proof (pow2_le (Z.of_nat k - 1) (Z.of_nat k) ltac:(lia)). lia. }
  assert (Hst : lzoc_stage WD (Z.of_nat k) 0 = Some (0, 1)).
  { unfold lzoc_stage, assert_. remember (2 ^ Z.of_nat k) as S. destruct (Z.leb_spec S WD); [|lia]. cbn [bind].
    rewrite get_bits_ok by lia. rewrite Z.div_0_l, Z.mod_0_l by (apply Z.pow_nonzero; lia). cbn [bind].
    destruct (Z.eqb_spec S WD); [reflexivity|]. rewrite get_bits_ok by lia. cbn [bind].
    rewrite Z.div_0_l, Z.mod_0_l by (apply Z.pow_nonzero; lia). cbn [to_bool for_ feq fne bind].
    rewrite fshl_ok by lia. rewrite Z.mul_0_l, Z.mod_0_l by (apply Z.pow_nonzero; lia). reflexivity. }
  rewrite Hst. cbn [bind]. rewrite (IH HK). cbn [bind]. rewrite cat_eq by lia. do 2 f_equal. lia.
Qed.

(** ** Nearest integer *)
Lemma rne_div_near x D q : 0 < D -> - D < 2 * (x - q * D) < D -> rne_div x D = q.
Proof.
  intros HD Hr. destruct (Z_lt_ge_dec (x - q * D) 0) as [Hn|Hp].
  - assert (Hq : x / D = q - 1) by (symmetry; apply (Z.div_unique x D (q - 1) (x - (q - 1) * D)); lia).
    unfold rne_div. rewrite Hq. replace (x mod D) with (x - (q - 1) * D) by (rewrite Z.mod_eq, Hq by lia; lia).
    destruct (Z.ltb_spec (2 * (x - (q - 1) * D)) D); [lia|]. destruct (Z.ltb_spec D (2 * (x - (q - 1) * D))); lia.
  - assert (Hq : x / D = q) by (symmetry; apply (Z.div_unique x D q (x - q * D)); lia).
    unfold rne_div. rewrite Hq. replace (x mod D) with (x - q * D) by (rewrite Z.mod_eq, Hq by lia; lia).
    destruct (Z.ltb_spec (2 * (x - q * D)) D); lia.
Qed.

(** A numerator collapsed to a quotient and a sticky bit rounds the same, as long as at least two
    bits are dropped. *)
Definition sticky_form (A B : Z) : Z := 2 * (A / B) + Z.b2z (negb (A mod B =? 0)).

Lemma sticky_rne A B D : 0 < B -> 0 < D -> Z.even D = true ->
  rne_div (sticky_form A B) (2 * D) = rne_div A (D * B).
Proof.
  intros HB HD He. unfold sticky_form.
  pose proof (Z.div_mod A B ltac:(lia)) as EA. pose proof (Z.mod_pos_bound A B HB) as HR.
  set (q := A / B) in *. set (r := A mod B) in *. clearbody q r.
  pose proof (Z.div_mod q D ltac:(lia)) as Eq. pose proof (Z.mod_pos_bound q D HD) as Hv.
  set (u := q / D) in *. set (v := q mod D) in *. clearbody u v.
  apply Z.even_spec in He. destruct He as [h Hh].
  assert (S01 : Z.b2z (negb (r =? 0)) = 0 /\ r = 0 \/ Z.b2z (negb (r =? 0)) = 1 /\ 0 < r).
  { destruct (Z.eqb_spec r 0); cbn; [left|right]; split; lia. }
  set (st := Z.b2z (negb (r =? 0))) in *. clearbody st.
  assert (Q1 : (2 * q + st) / (2 * D) = u) by (symmetry; apply (Z.div_unique _ _ u (2 * v + st)); lia).
  assert (R1 : (2 * q + st) mod (2 * D) = 2 * v + st) by (symmetry; apply (Z.mod_unique _ _ u (2 * v + st)); lia).
  assert (Q2 : A / (D * B) = u).
  { symmetry. apply (Z.div_unique _ _ u (v * B + r)); [left; nia|]. rewrite EA, Eq. ring. }
  assert (R2 : A mod (D * B) = v * B + r).
  { symmetry. apply (Z.mod_unique _ _ u (v * B + r)); [left; nia|]. rewrite EA, Eq. ring. }
  unfold rne_div. rewrite Q1, R1, Q2, R2. clear Q1 R1 Q2 R2.
  assert (C1 : (2 * (2 * v + st) <? 2 * D) = (2 * (v * B + r) <? D * B)).
  { destruct (Z.ltb_spec (2 * (2 * v + st)) (2 * D)), (Z.ltb_spec (2 * (v * B + r)) (D * B)); try reflexivity; exfalso.
    - assert (2 * v + 2 <= D \/ st = 0) by lia. destruct S01 as [[? ?]|[? ?]]; nia.
    - assert (2 * v >= D) by (destruct S01; lia). nia. }
  assert (C2 : (2 * D <? 2 * (2 * v + st)) = (D * B <? 2 * (v * B + r))).
  { destruct (Z.ltb_spec (2 * D) (2 * (2 * v + st))), (Z.ltb_spec (D * B) (2 * (v * B + r))); try reflexivity; exfalso.
    - assert (2 * v >= D) by lia. destruct S01 as [[? ?]|[? ?]]; nia.
    - assert (2 * v + 2 <= D \/ (2 * v <= D /\ st = 0)) by (destruct S01; lia). destruct S01 as [[? ?]|[? ?]]; nia. }
  rewrite C1, C2. reflexivity.
Qed.

Lemma sticky_exact A B : 0 < B -> A mod B = 0 -> sticky_form A B * B = 2 * A.
Proof.
  intros HB H. unfold sticky_form. rewrite H. cbn [Z.eqb negb Z.b2z].
  pose proof (Z.div_mod A B ltac:(lia)). lia.
Qed.

(** The sticky form bounds the ratio 2A/B up to powers of two. *)
Lemma sticky_le A B n : 0 < B -> 1 <= n -> (2 ^ n <= sticky_form A B <-> 2 ^ (n - 1) * B <= A).
Proof.
  intros HB Hn. unfold sticky_form. replace n with (n - 1 + 1) at 1 by lia. rewrite pow2_S by lia.
  set (p := 2 ^ (n - 1)). assert (S01 : 0 <= Z.b2z (negb (A mod B =? 0)) <= 1) by (destruct (A mod B =? 0); cbn; lia).
  split; intros H.
  - assert (p <= A / B) by lia. pose proof (Z.mul_div_le A B HB). nia.
  - assert (p <= A / B) by (apply Z.div_le_lower_bound; lia). lia.
Qed.

(** ** The normalised sum: significand M with M*2^d +- N exact, sticky form G, c leading zeros. *)
Lemma norm_round wF V B G c :
  1 <= wF -> 0 < B -> G = sticky_form (4 * V) B -> 0 <= c ->
  2 ^ (wF + 4) <= G * 2 ^ c < 2 ^ (wF + 5) ->
  ((4 * V) mod B <> 0 -> c <= 2) ->
  rne_div (G * 2 ^ c) 16 = rne_div (8 * V * 2 ^ c) (16 * B) /\
  2 ^ wF * (16 * B) <= 8 * V * 2 ^ c < 2 ^ (wF + 1) * (16 * B).
Proof.
  intros HF HB HG Hc Hr Hst.
  assert (P4 : 2 ^ (wF + 4) = 2 ^ wF * 16) by (rewrite pow2_add by lia; reflexivity).
  assert (P5 : 2 ^ (wF + 5) = 2 ^ wF * 32) by (rewrite pow2_add by lia; reflexivity).
  assert (P1 : 2 ^ (wF + 1) = 2 * 2 ^ wF) by (apply pow2_S; lia).
  pose proof (pow2_pos wF ltac:(lia)) as PF. pose proof (pow2_pos c Hc) as PC.
  destruct (Z.eq_dec ((4 * V) mod B) 0) as [Hz|Hnz].
  - pose proof (sticky_exact (4 * V) B HB Hz) as Hex. rewrite <- HG in Hex. clear HG Hst Hz.
    assert (Hx : G * 2 ^ c * B = 8 * V * 2 ^ c) by nia. split.
    + rewrite <- Hx. rewrite (Z.mul_comm 16). rewrite (Z.mul_comm _ B), (Z.mul_comm B 16).
      rewrite (Z.mul_comm B). symmetry. apply rne_div_scale; lia.
    + rewrite <- Hx, P1. rewrite P4, P5 in Hr. nia.
  - specialize (Hst Hnz).
    assert (Hlo : 2 ^ (wF + 4 - c) <= G).
    { assert (2 ^ (wF + 4) = 2 ^ (wF + 4 - c) * 2 ^ c) by (rewrite <- pow2_add by lia; f_equal; lia). nia. }
    assert (Hhi : ~ 2 ^ (wF + 5 - c) <= G).
    { assert (2 ^ (wF + 5) = 2 ^ (wF + 5 - c) * 2 ^ c) by (rewrite <- pow2_add by lia; f_equal; lia). nia. }
    rewrite HG in Hlo, Hhi. rewrite sticky_le in Hlo, Hhi by lia. split.
    + assert (Hp : 2 ^ (4 - c) * 2 ^ c = 16) by (rewrite <- pow2_add by lia; replace (4 - c + c) with 4 by lia; reflexivity).
      rewrite <- Hp at 1. rewrite rne_div_scale by (try apply pow2_pos; lia).
      assert (Hd : 2 ^ (4 - c) = 2 * 2 ^ (3 - c)) by (rewrite <- pow2_S by lia; f_equal; lia).
      rewrite Hd, HG, sticky_rne.
      * pose proof (pow2_pos (3 - c) ltac:(lia)). apply rne_div_cross; try nia.
        transitivity (4 * V * B * 16); [ring|]. rewrite <- Hp, Hd. ring.
      * lia.
      * apply pow2_pos; lia.
      * rewrite Z.even_pow by lia. reflexivity.
    + assert (2 ^ (wF + 4 - c - 1) * 2 ^ c = 2 ^ wF * 8).
      { rewrite <- pow2_add by lia. replace (wF + 4 - c - 1 + c) with (wF + 3) by lia. rewrite pow2_add by lia. reflexivity. }
      assert (2 ^ (wF + 5 - c - 1) * 2 ^ c = 2 ^ wF * 16).
      { rewrite <- pow2_add by lia. replace (wF + 5 - c - 1 + c) with (wF + 4) by lia. rewrite pow2_add by lia. reflexivity. }
      nia.
Qed.

(** Rounding of an exact V * 2^k in terms of the normalised quotient. *)
Lemma round_to_norm E F s V d k c m :
  0 <= F -> 0 < V -> 0 <= d -> 0 <= c ->
  2 ^ F * (16 * 2 ^ d) <= 8 * V * 2 ^ c < 2 ^ (F + 1) * (16 * 2 ^ d) ->
  m = rne_div (8 * V * 2 ^ c) (16 * 2 ^ d) ->
  round_to E F s V 1 k = finish (emin E) (emax E) F s (norm_me F m (k + d + 1 - c)).
Proof.
  intros HF HV Hd Hc Hr ->. unfold round_to. pose proof (pow2_pos d Hd). apply round_range_char; try lia.
  replace (k - (k + d + 1 - c)) with (c - (d + 1)) by lia.
  pose proof (num2_den2_cross V 1 (c - (d + 1)) (d + 1) ltac:(lia) ltac:(lia)) as H0.
  replace (d + 1 + (c - (d + 1))) with c in H0 by lia. rewrite pow2_S in H0 by lia.
  transitivity (8 * (V * 2 ^ c * den2 1 (c - (d + 1)))); [ring|]. rewrite <- H0. ring.
Qed.
