(** What add_single_v4 computes. The proofs follow those of v1 with [skew_div] for [rne_div]. *)
From Coq Require Import ZArith Lia Bool List.
From Verif Require Import Fw Spec SpecV4 Flopoco AddSingle AddSingleAlt FwLemmas SpecLemmas ValueLemmas FlopocoLemmas AddLemmas MulProofs AddSingleProofs AddSingleProofs2 AddSingleProofs3.
Open Scope Z_scope.

Lemma skew_div_scale n d k : 0 < d -> 0 < k -> skew_div (n * k) (d * k) = skew_div n d.
Proof.
  intros Hd Hk. unfold skew_div.
  rewrite Z.div_mul_cancel_r by lia. rewrite Z.mul_mod_distr_r by lia.
  replace (2 * (n mod d * k)) with ((2 * (n mod d)) * k) by lia.
  destruct (Z.eqb_spec (2 * (n mod d)) d) as [H1|H1];
  destruct (Z.eqb_spec (2 * (n mod d) * k) (d * k)) as [H2|H2]; try reflexivity; exfalso; nia.
Qed.

Lemma skew_div_cross n d n' d' : 0 < d -> 0 < d' -> n * d' = n' * d -> skew_div n d = skew_div n' d'.
Proof.
  intros Hd Hd' H. rewrite <- (skew_div_scale n d d'), <- (skew_div_scale n' d' d) by lia.
  f_equal; lia.
Qed.

Lemma skew_div_unique n d q : 0 < d -> q * d <= n < (q + 1) * d -> 2 * (n - q * d) <> d \/ Z.even q = false -> skew_div n d = q.
Proof.
  intros Hd Hq Ht. assert (E : n / d = q) by (symmetry; apply (Z.div_unique _ _ q (n - q * d)); lia).
  assert (M : n mod d = n - q * d) by (symmetry; apply (Z.mod_unique _ _ q (n - q * d)); lia).
  unfold skew_div. rewrite E, M. destruct (Z.eqb_spec (2 * (n - q * d)) d); [|reflexivity]. destruct Ht as [|Ht]; [lia|]. rewrite Ht. reflexivity.
Qed.

Lemma skew_div_bounds n d : n / d <= skew_div n d <= n / d + 1.
Proof. unfold skew_div. destruct (_ && _); lia. Qed.

Lemma sticky_skew A B D : 0 < B -> 0 < D -> Z.even D = true ->
  skew_div (sticky_form A B) (2 * D) = skew_div A (D * B).
Proof.
  intros HB HD He. unfold sticky_form.
  pose proof (Z.div_mod A B ltac:(lia)) as EA. pose proof (Z.mod_pos_bound A B HB) as HR.
  set (q := A / B) in *. set (r := A mod B) in *. clearbody q r.
  pose proof (Z.div_mod q D ltac:(lia)) as Eq. pose proof (Z.mod_pos_bound q D HD) as Hv.
  set (u := q / D) in *. set (v := q mod D) in *. clearbody u v.
  apply Z.even_spec in He. destruct He as [h Hh].
  assert (S01 : Z.b2z (negb (r =? 0)) = 0 /\ r = 0 \/ Z.b2z (negb (r =? 0)) = 1 /\ 0 < r).
  { destruct (Z.eqb_spec r 0); cbn; [left|right]; split; lia. }
  set (st := Z.b2z (negb (r =? 0))) in *. clearbody st.
  assert (Q1 : (2 * q + st) / (2 * D) = u) by (symmetry; apply (Z.div_unique _ _ u (2 * v + st)); lia).
  assert (R1 : (2 * q + st) mod (2 * D) = 2 * v + st) by (symmetry; apply (Z.mod_unique _ _ u (2 * v + st)); lia).
  assert (Q2 : A / (D * B) = u).
  { symmetry. apply (Z.div_unique _ _ u (v * B + r)); [left; nia|]. rewrite EA, Eq. ring. }
  assert (R2 : A mod (D * B) = v * B + r).
  { symmetry. apply (Z.mod_unique _ _ u (v * B + r)); [left; nia|]. rewrite EA, Eq. ring. }
  unfold skew_div. rewrite Q1, R1, Q2, R2. clear Q1 R1 Q2 R2.
  assert (C1 : (2 * (2 * v + st) =? 2 * D) = (2 * (v * B + r) =? D * B)).
  { destruct (Z.eqb_spec (2 * (2 * v + st)) (2 * D)), (Z.eqb_spec (2 * (v * B + r)) (D * B)); try reflexivity; exfalso.
    - destruct S01 as [[? ?]|[? ?]]; nia.
    - assert (2 * v < D \/ D <= 2 * v) as [|] by lia; destruct S01 as [[? ?]|[? ?]]; nia. }
  rewrite C1. reflexivity.
Qed.

Lemma norm_skew wF V B G c :
  1 <= wF -> 0 < B -> G = sticky_form (4 * V) B -> 0 <= c ->
  2 ^ (wF + 4) <= G * 2 ^ c < 2 ^ (wF + 5) ->
  ((4 * V) mod B <> 0 -> c <= 2) ->
  skew_div (G * 2 ^ c) 16 = skew_div (8 * V * 2 ^ c) (16 * B) /\
  2 ^ wF * (16 * B) <= 8 * V * 2 ^ c < 2 ^ (wF + 1) * (16 * B).
Proof.
  intros HF HB HG Hc Hr Hst.
  assert (P4 : 2 ^ (wF + 4) = 2 ^ wF * 16) by (rewrite pow2_add by lia; reflexivity).
  assert (P5 : 2 ^ (wF + 5) = 2 ^ wF * 32) by (rewrite pow2_add by lia; reflexivity).
  assert (P1 : 2 ^ (wF + 1) = 2 * 2 ^ wF) by (apply pow2_S; lia).
  pose proof (pow2_pos wF ltac:(lia)) as PF. pose proof (pow2_pos c Hc) as PC.
  destruct (Z.eq_dec ((4 * V) mod B) 0) as [Hz|Hnz].
  - pose proof (sticky_exact (4 * V) B HB Hz) as Hex. rewrite <- HG in Hex. clear HG Hst Hz.
    assert (Hx : G * 2 ^ c * B = 8 * V * 2 ^ c) by nia. split.
    + rewrite <- Hx. rewrite (Z.mul_comm 16). rewrite (Z.mul_comm _ B), (Z.mul_comm B 16).
      rewrite (Z.mul_comm B). symmetry. apply skew_div_scale; lia.
    + rewrite <- Hx, P1. rewrite P4, P5 in Hr. nia.
  - specialize (Hst Hnz).
    assert (Hlo : 2 ^ (wF + 4 - c) <= G).
    { assert (2 ^ (wF + 4) = 2 ^ (wF + 4 - c) * 2 ^ c) by (rewrite <- pow2_add by lia; f_equal; lia). nia. }
    assert (Hhi : ~ 2 ^ (wF + 5 - c) <= G).
    { assert (2 ^ (wF + 5) = 2 ^ (wF + 5 - c) * 2 ^ c) by (rewrite <- pow2_add by lia; f_equal; lia). nia. }
    rewrite HG in Hlo, Hhi. rewrite sticky_le in Hlo, Hhi by lia. split.
    + assert (Hp : 2 ^ (4 - c) * 2 ^ c = 16) by (rewrite <- pow2_add by lia; replace (4 - c + c) with 4 by lia; reflexivity).
      rewrite <- Hp at 1. rewrite skew_div_scale by (try apply pow2_pos; lia).
      assert (Hd : 2 ^ (4 - c) = 2 * 2 ^ (3 - c)) by (rewrite <- pow2_S by lia; f_equal; lia).
      rewrite Hd, HG, sticky_skew.
      * pose proof (pow2_pos (3 - c) ltac:(lia)). apply skew_div_cross; try nia.
        transitivity (4 * V * B * 16); [ring|]. rewrite <- Hp, Hd. ring.
      * lia.
      * apply pow2_pos; lia.
      * rewrite Z.even_pow by lia. reflexivity.
    + assert (2 ^ (wF + 4 - c - 1) * 2 ^ c = 2 ^ wF * 8).
      { rewrite <- pow2_add by lia. replace (wF + 4 - c - 1 + c) with (wF + 3) by lia. rewrite pow2_add by lia. reflexivity. }
      assert (2 ^ (wF + 5 - c - 1) * 2 ^ c = 2 ^ wF * 16).
      { rewrite <- pow2_add by lia. replace (wF + 5 - c - 1 + c) with (wF + 4) by lia. rewrite pow2_add by lia. reflexivity. }
      nia.
Qed.

Lemma skew_pos_char F n d e N D :
  0 <= F -> 0 < n -> 0 < d -> 0 < D ->
  N * den2 d (- e) = num2 n (- e) * D ->
  2 ^ F * D <= N < 2 ^ (F + 1) * D ->
  skew_pos F n d = norm_me F (skew_div N D) e.
Proof.
  intros HF Hn Hd HD Hx [Hlo Hhi].
  assert (Hm : mag n d = e + F).
  { apply mag_unique; try assumption.
    set (c := Z.abs e + F).
    pose proof (num2_den2_cross n d (- (e + F)) c ltac:(lia) ltac:(lia)) as X.
    pose proof (num2_den2_cross n d (- e) c ltac:(lia) ltac:(lia)) as Y.
    pose proof (den2_pos d (- (e + F)) Hd) as D1. pose proof (den2_pos d (- e) Hd) as D2.
    pose proof (pow2_pos c ltac:(lia)) as Pc.
    assert (E2 : 2 ^ (c + - e) = 2 ^ F * 2 ^ (c + - (e + F))).
    { rewrite <- pow2_add by lia. f_equal; lia. }
    pose proof (pow2_pos (c + - (e + F)) ltac:(lia)) as Pq. pose proof (pow2_pos F HF) as PF.
    assert (Hx' : N * (d * 2 ^ c) = (n * 2 ^ (c + - e)) * D).
    { apply (Z.mul_reg_r _ _ (den2 d (- e))); [lia|].
      transitivity ((N * den2 d (- e)) * (d * 2 ^ c)); [ring|]. rewrite Hx.
      transitivity (num2 n (- e) * (d * 2 ^ c) * D); [ring|]. rewrite Y. ring. }
    apply (ratio_le_iff _ _ _ _ _ Hx' HD ltac:(nia)) in Hlo.
    apply (ratio_lt_iff _ _ _ _ _ Hx' HD ltac:(nia)) in Hhi.
    rewrite pow2_S in Hhi by lia. rewrite E2 in Hlo, Hhi.
    rewrite <- (Z.mul_1_l (den2 d (- (e + F)))) at 1. split.
    - apply (ratio_le_iff _ _ _ _ 1 X D1 ltac:(nia)). nia.
    - apply (ratio_lt_iff _ _ _ _ 2 X D1 ltac:(nia)). nia. }
  unfold skew_pos. rewrite Hm. replace (e + F - F) with e by lia.
  rewrite (skew_div_cross (num2 n (- e)) (den2 d (- e)) N D); try assumption; try lia.
  - reflexivity.
  - apply den2_pos; assumption.
Qed.

Lemma skew_to_norm E F s V d k c m :
  0 <= F -> 0 < V -> 0 <= d -> 0 <= c ->
  2 ^ F * (16 * 2 ^ d) <= 8 * V * 2 ^ c < 2 ^ (F + 1) * (16 * 2 ^ d) ->
  m = skew_div (8 * V * 2 ^ c) (16 * 2 ^ d) ->
  skew_to E F s V 1 k = finish (emin E) (emax E) F s (norm_me F m (k + d + 1 - c)).
Proof.
  intros HF HV Hd Hc Hr ->. unfold skew_to. pose proof (pow2_pos d Hd).
  rewrite (skew_pos_char F V 1 (d + 1 - c) (8 * V * 2 ^ c) (16 * 2 ^ d)); try lia.
  - unfold norm_me. destruct (_ =? _); cbv iota beta; f_equal; f_equal; lia.
  - replace (- (d + 1 - c)) with (c - (d + 1)) by lia.
    pose proof (num2_den2_cross V 1 (c - (d + 1)) (d + 1) ltac:(lia) ltac:(lia)) as H0.
    replace (d + 1 + (c - (d + 1))) with c in H0 by lia. rewrite pow2_S in H0 by lia.
    transitivity (8 * (V * 2 ^ c * den2 1 (c - (d + 1)))); [ring|]. rewrite <- H0. ring.
Qed.

(** add_round with the rounding bit of v4. *)
Definition add_round4 (wE wF expX shiftedFrac nZerosNew : Z) : Z :=
  let extendedExpInc := fadd (wE + 2) (zpad_hi 2 wE expX) 1 in
  let wC := intlog2 (wF + 5) in
  let updatedExp := fsub (wE + 2) extendedExpInc (zpad_hi (wE + 2 - wC) wC nZerosNew) in
  let expFrac := cat (wF + 1) updatedExp (bits (wF + 3) 3 shiftedFrac) in
  let stk := for_ 1 (bits 1 1 shiftedFrac) (bits 0 0 shiftedFrac) in
  let rnd := bits 2 2 shiftedFrac in
  let grd := bits 3 3 shiftedFrac in
  let lsb := bits 4 4 shiftedFrac in
  let addToRoundBit := feq (cat 1 (cat 1 (cat 1 lsb grd) rnd) stk) 4 in
  add_cin (wE + 2 + wF + 1) expFrac addToRoundBit.

Lemma round_bit4 S : 0 <= S ->
  (S / 8 + (if negb (Z.odd (S / 2 ^ 4)) && Z.odd (S / 2 ^ 3) && (S mod 8 =? 0) then 1 else 0)) / 2 = skew_div S 16.
Proof.
  intros HS. change (2 ^ 4) with 16. change (2 ^ 3) with 8. unfold skew_div.
  replace (negb (Z.odd (S / 16))) with (Z.even (S / 16)) by (rewrite <- Z.negb_odd; reflexivity).
  replace (Z.even (S / 16) && Z.odd (S / 8) && (S mod 8 =? 0)) with ((2 * (S mod 16) =? 16) && Z.even (S / 16)).
  - destruct ((2 * (S mod 16) =? 16) && Z.even (S / 16)) eqn:H.
    + apply andb_true_iff in H. destruct H as [H _]. apply Z.eqb_eq in H. clear - H. Z.to_euclidean_division_equations; lia.
    + clear. Z.to_euclidean_division_equations; lia.
  - rewrite (andb_comm _ (Z.even _)), <- andb_assoc. f_equal.
    assert (Ho : Z.odd (S / 8) = ((S / 8) mod 2 =? 1)) by (rewrite odd_mod2; destruct (Z.odd (S / 8)); reflexivity). rewrite Ho. clear Ho.
    destruct (Z.eqb_spec (2 * (S mod 16)) 16), (Z.eqb_spec ((S / 8) mod 2) 1), (Z.eqb_spec (S mod 8) 0); try reflexivity; exfalso; Z.to_euclidean_division_equations; lia.
Qed.

Lemma add_round4_ok wE wF e S c i :
  1 <= wE -> 1 <= wF -> 0 <= e < 2 ^ wE -> 0 <= i <= 1 -> i * 2 ^ (wF + 4) <= S < (i + 1) * 2 ^ (wF + 4) ->
  0 <= c < 2 ^ intlog2 (wF + 5) ->
  let R := add_round4 wE wF e S c in
  0 <= R < 2 ^ (wE + wF + 3) /\
  R / 2 = ((e + 1 - c) * 2 ^ wF + (skew_div S 16 - i * 2 ^ wF)) mod 2 ^ (wE + wF + 2).
Proof.
  intros HE HF He Hi HS Hc R. unfold R, add_round4. clear R. destruct (intlog2_spec (wF + 5) ltac:(lia)) as (I1 & I2 & I3).
  rewrite !zpad_hi_eq by lia. rewrite !bit_eq by lia. rewrite bits_eq by lia. replace (wF + 3 - 3 + 1) with (wF + 1) by lia.
  rewrite for_b2z.
  assert (Hrb : feq (cat 1 (cat 1 (cat 1 (Z.b2z (Z.odd (S / 2 ^ 4))) (Z.b2z (Z.odd (S / 2 ^ 3)))) (Z.b2z (Z.odd (S / 2 ^ 2)))) (Z.b2z (Z.odd (S / 2 ^ 1) || Z.odd (S / 2 ^ 0)))) 4
    = if negb (Z.odd (S / 2 ^ 4)) && Z.odd (S / 2 ^ 3) && (S mod 8 =? 0) then 1 else 0).
  { rewrite low3_zero. destruct (Z.odd (S / 2 ^ 4)), (Z.odd (S / 2 ^ 3)), (Z.odd (S / 2 ^ 2)), (Z.odd (S / 2 ^ 1)), (Z.odd (S / 2 ^ 0)); reflexivity. }
  rewrite Hrb. clear Hrb. pose proof (round_bit4 S) as HR.
  remember (if negb (Z.odd (S / 2 ^ 4)) && Z.odd (S / 2 ^ 3) && (S mod 8 =? 0) then 1 else 0) as ab eqn:Eab.
  assert (A01 : 0 <= ab <= 1) by (rewrite Eab; destruct (_ && _); lia). clear Eab.
  rewrite fadd_eq, fsub_eq by lia. unfold add_cin.
  assert (E4 : 2 ^ (wF + 4) = 8 * 2 ^ (wF + 1)) by (apply (pow2_shift 3); [reflexivity|lia|lia]).
  assert (E1 : 2 ^ (wF + 1) = 2 * 2 ^ wF) by (apply pow2_S; lia).
  pose proof (pow2_pos wF ltac:(lia)) as PF. change (2 ^ 3) with 8.
  assert (HS0 : 0 <= S) by nia.
  assert (HS8 : i * 2 ^ (wF + 1) <= S / 8 < (i + 1) * 2 ^ (wF + 1)).
  { split; [apply Z.div_le_lower_bound; lia|apply Z.div_lt_upper_bound; lia]. }
  assert (Hm8 : (S / 8) mod 2 ^ (wF + 1) = S / 8 - i * 2 ^ (wF + 1)).
  { symmetry. apply (Z.mod_unique _ _ i); lia. }
  rewrite Hm8. rewrite cat_eq by lia. rewrite fadd_eq by lia. replace (wE + 2 + wF + 1) with (wE + wF + 3) by lia.
  split; [apply mod_pow_bound; lia|].
  assert (EM : 2 ^ (wE + wF + 3) = 2 ^ (wE + 2) * 2 ^ (wF + 1)) by (rewrite <- pow2_add by lia; f_equal; lia).
  assert (EM2 : 2 ^ (wE + wF + 3) = 2 * 2 ^ (wE + wF + 2)) by (rewrite <- pow2_S by lia; f_equal; lia).
  pose proof (pow2_pos (wE + 2) ltac:(lia)) as PE2. pose proof (pow2_pos (wE + wF + 2) ltac:(lia)) as PN.
  assert (Hbig : ((((e + 1) mod 2 ^ (wE + 2) - c) mod 2 ^ (wE + 2)) * 2 ^ (wF + 1) + (S / 8 - i * 2 ^ (wF + 1)) + ab) mod 2 ^ (wE + wF + 3)
     = ((e + 1 - c) * 2 ^ (wF + 1) + (S / 8 - i * 2 ^ (wF + 1)) + ab) mod 2 ^ (wE + wF + 3)).
  { rewrite Zminus_mod_idemp_l. rewrite (Z.mod_eq (e + 1 - c)) by lia. remember ((e + 1 - c) / 2 ^ (wE + 2)) as qq.
    replace ((e + 1 - c - 2 ^ (wE + 2) * qq) * 2 ^ (wF + 1) + (S / 8 - i * 2 ^ (wF + 1)) + ab)
      with ((e + 1 - c) * 2 ^ (wF + 1) + (S / 8 - i * 2 ^ (wF + 1)) + ab + (- qq) * 2 ^ (wE + wF + 3)) by (rewrite EM; ring).
    apply Z.mod_add. rewrite EM2. lia. }
  rewrite Hbig. clear Hbig. rewrite EM2.
  rewrite Z.rem_mul_r by lia. rewrite (Z.mul_comm 2 (_ mod _)), Z.div_add by lia.
  rewrite (Z.div_small (_ mod 2)) by (apply Z.mod_pos_bound; lia). rewrite Z.add_0_l. f_equal.
  rewrite <- HR by lia. rewrite E1.
  replace ((e + 1 - c) * (2 * 2 ^ wF) + (S / 8 - i * (2 * 2 ^ wF)) + ab) with (S / 8 + ab + ((e + 1 - c) * 2 ^ wF - i * 2 ^ wF) * 2) by ring.
  rewrite Z.div_add by lia. lia.
Qed.

Definition add_tail4 (wE wF a s b t e G : Z) : option Z :=
  let wC := intlog2 (wF + 5) in
  do lz <- lzoc (wF + 5) (Z.to_nat wC) G;
  let '(shiftedFrac, nZerosNew) := lz in
  Some (add_final wE wF (cat 2 (cat 2 (cat 1 s t) a) b) s (fxor 1 s t) (feq nZerosNew (og wC)) (add_round4 wE wF e shiftedFrac nZerosNew)).

Lemma tail4_num wE wF s b t e G : 1 <= wE -> 1 <= wF -> wF + 3 < 2 ^ wE -> 0 <= e < 2 ^ wE -> b = 0 \/ b = 1 -> 0 < G < 2 ^ (wF + 5) ->
  exists r c, add_tail4 wE wF 1 (Z.b2z s) b (Z.b2z t) e G = Some r /\ wf (wE + wF + 3) r /\ 0 <= c /\
    2 ^ (wF + 4) <= G * 2 ^ c < 2 ^ (wF + 5) /\
    decode wE wF r = finish (emin wE) (emax wE) wF s (norm_me wF (skew_div (G * 2 ^ c) 16) (e + 1 - c - bias wE - wF)).
Proof.
  intros HE HF HEF He Hb HG. unfold add_tail4. destruct (lz_ok wF G HF HG) as (c & L1 & L2 & L3 & L4 & L5).
  rewrite L1. cbn [bind]. rewrite L5.
  destruct (add_round4_ok wE wF e (G * 2 ^ c) c 1 HE HF He ltac:(lia)) as (R1 & R2); try lia.
  { replace (wF + 5) with (wF + 4 + 1) in L3 by lia. rewrite pow2_S in L3 by lia. lia. }
  cbv zeta in R1, R2. remember (add_round4 wE wF e (G * 2 ^ c) c) as R eqn:ER. clear ER.
  remember (skew_div (G * 2 ^ c) 16) as m eqn:Em. rewrite Z.mul_1_l in R2.
  assert (E4 : 2 ^ (wF + 4) = 16 * 2 ^ wF) by (apply (pow2_shift 4); [reflexivity|lia|lia]).
  assert (E5 : 2 ^ (wF + 5) = 32 * 2 ^ wF) by (apply (pow2_shift 5); [reflexivity|lia|lia]).
  assert (Hm : 2 ^ wF <= m <= 2 ^ (wF + 1)).
  { rewrite pow2_S by lia. rewrite Em. pose proof (skew_div_bounds (G * 2 ^ c) 16) as B.
    assert (2 ^ wF <= G * 2 ^ c / 16) by (apply Z.div_le_lower_bound; lia). assert (G * 2 ^ c / 16 < 2 * 2 ^ wF) by (apply Z.div_lt_upper_bound; lia). lia. }
  change 0 with (Z.b2z false) at 1.
  rewrite add_final_ok by (destruct Hb; lia).
  assert (HU : 0 <= R / 2 ^ (wE + wF + 1) < 4).
  { change 4 with (2 ^ 2). apply div_pow_lt; try lia. replace (wE + wF + 1 + 2) with (wE + wF + 3) by lia. lia. }
  rewrite exc_normal by assumption. cbn [andb Z.eqb]. 
  eexists. exists c. split; [reflexivity|].
  assert (Hfl : 0 <= up_flags (R / 2 ^ (wE + wF + 1)) < 4) by (unfold up_flags; destruct (_ =? 0); [lia|]; destruct (_ =? 1); lia).
  assert (Hbd : 0 <= (R / 2) mod 2 ^ (wE + wF) < 2 ^ (wE + wF)) by (apply mod_pow_bound; lia).
  split; [apply fields_bound; lia|]. split; [lia|]. split; [assumption|].
  rewrite <- Em. clear Em. apply pack_decode; try lia.
  - rewrite R2. remember ((e + 1 - c) * 2 ^ wF + (m - 2 ^ wF)) as T. intros HT.
    rewrite (Z.mod_small T (2 ^ (wE + wF + 2))), Z.mod_small; try lia.
    replace (wE + wF + 2) with (wE + wF + 1 + 1) by lia. rewrite !pow2_S by lia. lia.
  - remember ((e + 1 - c) * 2 ^ wF + (m - 2 ^ wF)) as T.
    rewrite pow2_S in Hm by lia. pose proof (pow2_pos wF ltac:(lia)).
    assert (EW : 2 ^ (wE + wF) = 2 ^ wE * 2 ^ wF) by (apply pow2_add; lia).
    pose proof (mod_range_flags T (wE + wF) ltac:(lia)) as HMF. cbv zeta in HMF. destruct HMF as (HB & _).
    { rewrite EW. subst T. assert (2 <= 2 ^ wE) by (change 2 with (2 ^ 1) at 1; apply pow2_le; lia).
      assert (Hu : - 2 ^ wE <= e + 1 - c <= 2 ^ wE) by lia. remember (e + 1 - c) as u. clear - Hu H H0 Hm. nia. }
    rewrite <- R2 in HB. assert (EU : R / 2 / 2 ^ (wE + wF) = R / 2 ^ (wE + wF + 1)).
    { rewrite Z.div_div by (try apply pow2_pos; lia). rewrite pow2_S by lia. reflexivity. }
    rewrite EU in HB. rewrite Z.mod_small in HB by lia. unfold up_flags.
    pose proof (pow2_pos (wE + wF) ltac:(lia)).
    destruct HB as [[HT [-> | ->]]|[[HT ->]|[HT ->]]]; cbn [Z.eqb Pos.eqb];
    destruct (Z.ltb_spec T 0); try lia; destruct (Z.ltb_spec T (2 ^ (wE + wF))); lia.
Qed.

Lemma tail4_zero wE wF s t e : 1 <= wE -> 1 <= wF -> wF + 3 < 2 ^ wE -> 0 <= e < 2 ^ wE -> xorb s t = true ->
  exists r, add_tail4 wE wF 1 (Z.b2z s) 1 (Z.b2z t) e 0 = Some r /\ wf (wE + wF + 3) r /\ decode wE wF r = Zero false.
Proof.
  intros HE HF HEF He Hx. unfold add_tail4. destruct (lz_zero wF HF) as (L1 & L2). rewrite L1. cbn [bind]. rewrite L2.
  destruct (intlog2_spec (wF + 5) ltac:(lia)) as (I1 & I2 & I3). remember (intlog2 (wF + 5)) as w.
  assert (Ew : 2 ^ w = 2 * 2 ^ (w - 1)) by (rewrite <- pow2_S by lia; f_equal; lia).
  pose proof (pow2_pos (wF + 4) ltac:(lia)).
  destruct (add_round4_ok wE wF e 0 (2 ^ w - 1) 0 HE HF He ltac:(lia)) as (R1 & R2); try (rewrite <- ?Heqw; lia).
  cbv zeta in R1, R2. remember (add_round4 wE wF e 0 (2 ^ w - 1)) as R eqn:ER. clear ER.
  pose proof (add_final_ok wE wF 1 s 1 t true R HE HF ltac:(lia) ltac:(lia) R1) as HA. cbv zeta in HA. cbn [Z.b2z] in HA. rewrite HA. clear HA.
  assert (HU : 0 <= R / 2 ^ (wE + wF + 1) < 4).
  { change 4 with (2 ^ 2). apply div_pow_lt; try lia. replace (wE + wF + 1 + 2) with (wE + wF + 3) by lia. lia. }
  rewrite exc_normal by (auto || lia). rewrite Hx. cbn [andb Z.eqb].
  assert (Hbd : 0 <= (R / 2) mod 2 ^ (wE + wF) < 2 ^ (wE + wF)) by (apply mod_pow_bound; lia).
  assert (Hup : R / 2 ^ (wE + wF + 1) <> 1).
  { change (skew_div 0 16) with 0 in R2. remember ((e + 1 - (2 ^ w - 1)) * 2 ^ wF + (0 - 0 * 2 ^ wF)) as T.
    pose proof (pow2_pos wF ltac:(lia)). assert (EW : 2 ^ (wE + wF) = 2 ^ wE * 2 ^ wF) by (apply pow2_add; lia).
    assert (Hu : - (2 * 2 ^ wE) <= e + 1 - (2 ^ w - 1) < 2 ^ wE) by lia.
    assert (HT : - (2 * 2 ^ (wE + wF)) <= T < 2 ^ (wE + wF)).
    { rewrite EW. subst T. remember (e + 1 - (2 ^ w - 1)) as u. clear - Hu H0. nia. }
    pose proof (mod_range_flags T (wE + wF) ltac:(lia) ltac:(lia)) as HMF. cbv zeta in HMF. destruct HMF as (HB & _).
    rewrite <- R2 in HB. assert (EU : R / 2 / 2 ^ (wE + wF) = R / 2 ^ (wE + wF + 1)).
    { rewrite Z.div_div by (try apply pow2_pos; lia). rewrite pow2_S by lia. reflexivity. }
    rewrite EU in HB. rewrite Z.mod_small in HB by lia. lia. }
  eexists. split; [reflexivity|]. unfold up_flags.
  destruct (R / 2 ^ (wE + wF + 1) =? 0); [|destruct (Z.eqb_spec (R / 2 ^ (wE + wF + 1)) 1) as [|_]; [contradiction|]];
  cbn [Z.eqb Pos.eqb andb]; (split; [apply (fields_bound wE wF 0 false); lia|]);
  rewrite (decode_fields wE wF 0 false) by lia; reflexivity.
Qed.

Lemma tail4_rounds wE wF s b t e V d :
  1 <= wE -> 1 <= wF -> wF + 3 < 2 ^ wE -> 0 <= e < 2 ^ wE -> b = 0 \/ b = 1 -> 0 <= d ->
  0 < V < 4 * 2 ^ wF * 2 ^ d -> ((4 * V) mod 2 ^ d <> 0 -> 6 * 2 ^ wF <= sticky_form (4 * V) (2 ^ d)) ->
  exists r, add_tail4 wE wF 1 (Z.b2z s) b (Z.b2z t) e (sticky_form (4 * V) (2 ^ d)) = Some r /\ wf (wE + wF + 3) r /\
    decode wE wF r = skew_to wE wF s V 1 (e - d - bias wE - wF).
Proof.
  intros HE HF HEF He Hb Hd HV Hst. pose proof (pow2_pos d Hd) as PD. pose proof (pow2_pos wF ltac:(lia)) as PF.
  assert (E4 : 2 ^ (wF + 4) = 16 * 2 ^ wF) by (apply (pow2_shift 4); [reflexivity|lia|lia]).
  assert (E5 : 2 ^ (wF + 5) = 32 * 2 ^ wF) by (apply (pow2_shift 5); [reflexivity|lia|lia]).
  assert (HG : 0 < sticky_form (4 * V) (2 ^ d) < 2 ^ (wF + 5)).
  { split; [apply sticky_pos; lia|]. apply sticky_lt; try lia. replace (wF + 5 - 1) with (wF + 4) by lia. rewrite E4. lia. }
  destruct (tail4_num wE wF s b t e _ HE HF HEF He Hb HG) as (r & c & T1 & T2 & T3 & T4 & T5).
  exists r. split; [exact T1|]. split; [exact T2|]. rewrite T5.
  assert (Hc2 : (4 * V) mod 2 ^ d <> 0 -> c <= 2).
  { intros Hn. specialize (Hst Hn). destruct (Z_le_gt_dec c 2); [assumption|].
    pose proof (pow2_le 3 c ltac:(lia)) as H8. change (2 ^ 3) with 8 in H8. nia. }
  destruct (norm_skew wF V (2 ^ d) _ c HF PD eq_refl T3 T4 Hc2) as (N1 & N2).
  rewrite N1. symmetry. replace (e + 1 - c - bias wE - wF) with (e - d - bias wE - wF + d + 1 - c) by ring.
  apply skew_to_norm; try lia.
Qed.

Lemma tail4_sum wE wF s t e M N d :
  1 <= wE -> 1 <= wF -> wF + 3 < 2 ^ wE -> 0 <= e < 2 ^ wE -> 0 <= d ->
  2 ^ wF <= M < 2 * 2 ^ wF -> 2 ^ wF <= N < 2 * 2 ^ wF -> (d = 0 -> N <= M) ->
  let V := if xorb s t then M * 2 ^ d - N else M * 2 ^ d + N in
  exists r, add_tail4 wE wF 1 (Z.b2z s) 1 (Z.b2z t) e (sticky_form (4 * V) (2 ^ d)) = Some r /\ wf (wE + wF + 3) r /\
    decode wE wF r = if V =? 0 then Zero false else skew_to wE wF s V 1 (e - d - bias wE - wF).
Proof.
  intros HE HF HEF He Hd HM HN HMN V. pose proof (pow2_pos d Hd) as PD. pose proof (pow2_pos wF ltac:(lia)) as PF.
  assert (D2 : d <> 0 -> 2 <= 2 ^ d) by (intros; change 2 with (2 ^ 1) at 1; apply pow2_le; lia).
  assert (HV : 0 <= V < 4 * 2 ^ wF * 2 ^ d).
  { unfold V. destruct (Z.eq_dec d 0) as [->|Hn].
    - rewrite Z.pow_0_r. specialize (HMN eq_refl). destruct (xorb s t); lia.
    - specialize (D2 Hn). destruct (xorb s t); nia. }
  destruct (Z.eqb_spec V 0) as [V0|V0].
  - rewrite V0, Z.mul_0_r, sticky_zero by lia. apply tail4_zero; try assumption.
    destruct (xorb s t) eqn:Hx; [reflexivity|]. unfold V in V0. nia.
  - apply tail4_rounds; try lia. intros Hn.
    assert (Hd3 : 3 <= d).
    { destruct (Z_le_gt_dec 3 d); [assumption|]. exfalso. apply Hn. apply Z.mod_divide; [lia|].
      assert (Hc : d = 0 \/ d = 1 \/ d = 2) by lia.
      destruct Hc as [-> | [-> | ->]]; [exists (4 * V)|exists (2 * V)|exists V];
      [change (2 ^ 0) with 1|change (2 ^ 1) with 2|change (2 ^ 2) with 4]; ring. }
    pose proof (pow2_le 3 d ltac:(lia)) as H8. change (2 ^ 3) with 8 in H8.
    assert (Hlow : 3 * 2 ^ wF * 2 ^ d <= 4 * V).
    { unfold V. remember (2 ^ d) as D. destruct (xorb s t); nia. }
    unfold sticky_form. assert (3 * 2 ^ wF <= 4 * V / 2 ^ d) by (apply Z.div_le_lower_bound; lia).
    destruct (negb _); cbn [Z.b2z]; lia.
Qed.

Lemma tail4_any wE wF a s b t e G : 1 <= wE -> 1 <= wF -> 0 <= e < 2 ^ wE -> 0 <= G < 2 ^ (wF + 5) ->
  exists eqd R, 0 <= R < 2 ^ (wE + wF + 3) /\
    add_tail4 wE wF a s b t e G =
    Some (add_final wE wF (cat 2 (cat 2 (cat 1 s t) a) b) s (fxor 1 s t) (Z.b2z eqd) R).
Proof.
  intros HE HF He HG. unfold add_tail4. destruct (Z.eq_dec G 0) as [->|Hn].
  - destruct (lz_zero wF HF) as (L1 & L2). rewrite L1. cbn [bind]. rewrite L2.
    destruct (intlog2_spec (wF + 5) ltac:(lia)) as (I1 & I2 & I3).
    pose proof (pow2_pos (wF + 4) ltac:(lia)).
    destruct (add_round4_ok wE wF e 0 (2 ^ intlog2 (wF + 5) - 1) 0 HE HF He ltac:(lia)) as (R1 & _); try lia.
    exists true. eexists. split; [exact R1|reflexivity].
  - destruct (lz_ok wF G HF ltac:(lia)) as (c & L1 & L2 & L3 & L4 & L5). rewrite L1. cbn [bind]. rewrite L5.
    destruct (add_round4_ok wE wF e (G * 2 ^ c) c 1 HE HF He ltac:(lia)) as (R1 & _); try lia.
    { replace (wF + 5) with (wF + 4 + 1) in L3 by lia. rewrite pow2_S in L3 by lia. lia. }
    exists false. eexists. split; [exact R1|reflexivity].
Qed.

Lemma tail4_special wE wF a s b t e G :
  1 <= wE -> 1 <= wF -> 0 <= e < 2 ^ wE -> 0 <= G < 2 ^ (wF + 5) -> 0 <= b <= a -> a < 4 -> a <> 1 ->
  forall mx ex my ey,
  exists r, add_tail4 wE wF a (Z.b2z s) b (Z.b2z t) e G = Some r /\ wf (wE + wF + 3) r /\
    decode wE wF r = add_skew wE wF
      (if a =? 0 then Zero s else if a =? 1 then Num s mx ex else if a =? 2 then Inf s else NaN)
      (if b =? 0 then Zero t else if b =? 1 then Num t my ey else if b =? 2 then Inf t else NaN).
Proof.
  intros HE HF He HG Hb Ha Ha1 mx ex my ey.
  destruct (tail4_any wE wF a (Z.b2z s) b (Z.b2z t) e G HE HF He HG) as (eqd & R & R1 & R2).
  rewrite R2. rewrite add_final_ok by lia.
  assert (HU : 0 <= R / 2 ^ (wE + wF + 1) < 4).
  { change 4 with (2 ^ 2). apply div_pow_lt; try lia. replace (wE + wF + 1 + 2) with (wE + wF + 3) by lia. lia. }
  remember (R / 2 ^ (wE + wF + 1)) as up. clear Hequp.
  assert (Hbd : 0 <= (R / 2) mod 2 ^ (wE + wF) < 2 ^ (wE + wF)) by (apply mod_pow_bound; lia).
  eexists. split; [reflexivity|]. remember ((R / 2) mod 2 ^ (wE + wF)) as body. clear Heqbody R2 R1.
  apply flags_cases in HU.
  assert (Hab : (a = 0 /\ b = 0) \/ (a = 2 /\ b = 0) \/ (a = 2 /\ b = 1) \/ (a = 2 /\ b = 2) \/
    (a = 3 /\ b = 0) \/ (a = 3 /\ b = 1) \/ (a = 3 /\ b = 2) \/ (a = 3 /\ b = 3)) by lia.
  assert (Hrt : excRt2_lut (cat 2 up (excRt_lut (cat 2 (cat 2 (cat 1 (Z.b2z s) (Z.b2z t)) a) b)))
    = if a =? 0 then 0 else if a =? 2 then if (b =? 2) && xorb s t then 3 else 2 else 3).
  { destruct HU as [->|[->|[->| ->]]]; destruct Hab as [[-> ->]|[[-> ->]|[[-> ->]|[[-> ->]|[[-> ->]|[[-> ->]|[[-> ->]|[-> ->]]]]]]]];
    destruct s, t; reflexivity. }
  rewrite Hrt. clear Hrt HU.
  destruct Hab as [[-> ->]|[[-> ->]|[[-> ->]|[[-> ->]|[[-> ->]|[[-> ->]|[[-> ->]|[-> ->]]]]]]]];
  destruct s, t, eqd; cbn [Z.eqb Pos.eqb andb xorb];
  (split; [apply fields_bound; lia|rewrite decode_fields by lia; reflexivity]).
Qed.

