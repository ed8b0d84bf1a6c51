From Coq Require Import ZArith Bool Lia.
From Verif Require Import Fw FwLemmas Spec SpecDot Flopoco FlopocoLemmas Dot.
Open Scope Z_scope.

(** ** truncation *)
Lemma mag_int m : 0 < m -> mag m 1 = Z.log2 m.
Proof.
  intros Hm. unfold mag, num2, den2. change (Z.log2 1) with 0. rewrite Z.sub_0_r. pose proof (Z.log2_nonneg m).
  rewrite Z.opp_involutive, (Z.max_l 0 (- Z.log2 m)), (Z.max_r 0 (Z.log2 m)) by lia. rewrite Z.pow_0_r, Z.mul_1_r, Z.mul_1_l.
  pose proof (Z.log2_spec m Hm). destruct (Z.ltb_spec m (2 ^ Z.log2 m)); [lia|reflexivity].
Qed.

Lemma trunc_char lo hi F s m k c : 0 <= F <= c -> 2 ^ c <= m < 2 ^ (c + 1) ->
  trunc_range lo hi F s m 1 k = finish lo hi F s (m / 2 ^ (c - F), c - F + k).
Proof.
  intros Hc Hm. assert (P : 0 < 2 ^ c) by (apply pow2_pos; lia).
  assert (L : Z.log2 m = c) by (apply Z.log2_unique; [lia|]; rewrite <- Z.add_1_r; exact Hm).
  unfold trunc_range, trunc_pos. rewrite mag_int, L by lia. unfold num2, den2. rewrite Z.opp_involutive, (Z.max_l 0 (- (c - F))), (Z.max_r 0 (c - F)) by lia.
  rewrite Z.pow_0_r, Z.mul_1_r, Z.mul_1_l. reflexivity.
Qed.

(** Truncating a floor is truncating the number itself. *)
Lemma trunc_floor lo hi F s m k c a b : 0 <= F <= c -> 0 <= a -> 0 <= b -> 0 < m ->
  2 ^ c <= m * 2 ^ a / 2 ^ b < 2 ^ (c + 1) ->
  trunc_range lo hi F s m 1 k = finish lo hi F s (m * 2 ^ a / 2 ^ b / 2 ^ (c - F), c - F + (k + b - a)).
Proof.
  intros Hc Ha Hb Hm H. set (V := m * 2 ^ a / 2 ^ b) in *. assert (Pa : 0 < 2 ^ a) by (apply pow2_pos; lia). assert (Pb : 0 < 2 ^ b) by (apply pow2_pos; lia).
  pose proof (div_mod_eq (m * 2 ^ a) (2 ^ b) Pb) as D. pose proof (Z.mod_pos_bound (m * 2 ^ a) (2 ^ b) Pb) as M. fold V in D.
  assert (R : 2 ^ (c + b) <= m * 2 ^ a < 2 ^ (c + b + 1)).
  { rewrite (pow2_S (c + b)), (pow2_add c b) by lia. rewrite pow2_S in H by lia. split; nia. }
  set (d := Z.log2 m). assert (Hd : 2 ^ d <= m < 2 ^ (d + 1)) by (rewrite Z.add_1_r; apply Z.log2_spec; exact Hm).
  assert (Pd : 0 <= d) by apply Z.log2_nonneg.
  assert (DE : d + a = c + b).
  { assert (2 ^ (d + a) <= m * 2 ^ a < 2 ^ (d + a + 1)).
    { rewrite (pow2_S (d + a)), (pow2_add d a) by lia. rewrite pow2_S in Hd by lia. split; nia. }
    assert (L1 : Z.log2 (m * 2 ^ a) = d + a) by (apply Z.log2_unique; [lia|]; rewrite <- Z.add_1_r; assumption).
    assert (L2 : Z.log2 (m * 2 ^ a) = c + b) by (apply Z.log2_unique; [lia|]; rewrite <- Z.add_1_r; assumption). lia. }
  assert (Q : V / 2 ^ (c - F) = m * 2 ^ a / 2 ^ (b + (c - F))) by (unfold V; rewrite Z.div_div by lia; rewrite pow2_add by lia; reflexivity).
  rewrite Q. destruct (Z_le_gt_dec F d) as [L|L].
  - rewrite (trunc_char lo hi F s m k d) by lia. f_equal. f_equal; [|lia].
    replace (b + (c - F)) with ((d - F) + a) by lia. rewrite pow2_add by lia. rewrite Z.div_mul_cancel_r by lia. reflexivity.
  - unfold trunc_range, trunc_pos. rewrite mag_int by lia. fold d. unfold num2, den2. rewrite Z.opp_involutive, (Z.max_r 0 (- (d - F))), (Z.max_l 0 (d - F)) by lia.
    rewrite Z.pow_0_r, Z.mul_1_l, Z.div_1_r. f_equal. f_equal; [|lia].
    replace a with (- (d - F) + (b + (c - F))) by lia. rewrite (pow2_add (- (d - F))), Z.mul_assoc by lia.
    rewrite Z.div_mul by (apply Z.pow_nonzero; lia). reflexivity.
Qed.

Lemma rndd_scale E F m e a : 0 <= F -> 0 <= a -> 0 < m -> rndd E F (m * 2 ^ a, e) = rndd E F (m, e + a).
Proof.
  intros HF Ha Hm. unfold rndd. set (d := Z.log2 m). assert (Hd : 2 ^ d <= m < 2 ^ (d + 1)) by (rewrite Z.add_1_r; apply Z.log2_spec; exact Hm).
  assert (Pd : 0 <= d) by apply Z.log2_nonneg. assert (Pa : 0 < 2 ^ a) by (apply pow2_pos; lia). assert (PF : 0 < 2 ^ F) by (apply pow2_pos; lia).
  assert (R : 2 ^ (d + F) <= m * 2 ^ F / 2 ^ 0 < 2 ^ (d + F + 1)).
  { rewrite Z.pow_0_r, Z.div_1_r, (pow2_S (d + F)), (pow2_add d F) by lia. rewrite pow2_S in Hd by lia. split; nia. }
  rewrite (trunc_floor _ _ F false m (e + a) (d + F) F 0) by lia.
  rewrite (trunc_floor _ _ F false (m * 2 ^ a) e (d + F) F a).
  - rewrite Z.pow_0_r, Z.div_1_r. replace (m * 2 ^ a * 2 ^ F) with (m * 2 ^ F * 2 ^ a) by ring. rewrite Z.div_mul by lia. f_equal. f_equal. lia.
  - lia.
  - lia.
  - lia.
  - nia.
  - replace (m * 2 ^ a * 2 ^ F) with (m * 2 ^ F * 2 ^ a) by ring. rewrite Z.div_mul by lia. rewrite Z.pow_0_r, Z.div_1_r in R. exact R.
Qed.

(** ** pieces of the model *)
Lemma dot_check_pack E F e f : okf E F 1 e f -> dot_check E F (pack E F 1 false e f) = Some tt.
Proof. intros H. unfold dot_check, is_positive, is_normal. rewrite get_sign_pack, get_flags_pack by exact H. reflexivity. Qed.

Lemma dot_frac_pack E F e f e' f' : okf E F 1 e f -> okf E F 1 e' f' ->
  dot_frac E F (pack E F 1 false e f) (pack E F 1 false e' f') = (2 ^ F + f) * (2 ^ F + f').
Proof.
  intros H H'. unfold dot_frac, fmul. rewrite !get_frac_pack by assumption. destruct H as (_ & ? & _ & _ & ?), H' as (_ & _ & _ & _ & ?).
  rewrite !opad_hi_eq by lia. change (2 ^ 1 - 1) with 1. rewrite !Z.mul_1_l. reflexivity.
Qed.

Lemma dot_exp_pack E F e f e' f' : okf E F 1 e f -> okf E F 1 e' f' ->
  dot_exp E F (pack E F 1 false e f) (pack E F 1 false e' f') = e + e'.
Proof.
  intros H H'. unfold dot_exp. rewrite !get_exp_pack by assumption. destruct H as (? & _ & _ & ? & _), H' as (_ & _ & _ & ? & _).
  rewrite !zpad_hi_eq by lia. rewrite fadd_eq by lia. rewrite Z.mod_small; [reflexivity|]. rewrite pow2_S by lia. lia.
Qed.

Lemma dot_pack_ok E F x f : 1 <= E -> 1 <= F -> 0 <= x < 2 ^ (E + 2) -> 0 <= f < 2 ^ F ->
  exists r, dot_pack E F (2 ^ (E - 1) - 1) x f = Some r /\ wf (E + F + 3) r /\
    decode E F r = finish (emin E) (emax E) F false (2 ^ F + f, x - 2 * bias E - F).
Proof.
  intros HE HF Hx Hf. unfold dot_pack.
  assert (EE : 2 ^ E = 2 * 2 ^ (E - 1)) by (rewrite <- pow2_S by lia; f_equal; lia).
  assert (E2 : 2 ^ (E + 2) = 4 * 2 ^ E) by (rewrite pow2_add by lia; change (2 ^ 2) with 4; lia).
  assert (P1 : 0 < 2 ^ (E - 1)) by (apply pow2_pos; lia).
  rewrite fsub_eq by lia. rewrite take_lsbs_ok; [|lia|apply mod_pow_bound; lia]. cbn [bind].
  remember (((x - (2 ^ (E - 1) - 1)) mod 2 ^ (E + 2)) mod 2 ^ E) as e eqn:Ee.
  assert (Be : 0 <= e < 2 ^ E) by (subst e; apply mod_pow_bound; lia).
  change (zg 1) with (Z.b2z false). rewrite mk_pack by lia. unfold flt, fge. rewrite !to_bool_b2z.
  eexists. split; [reflexivity|].
  assert (O : forall fl, 0 <= fl < 4 -> okf E F fl e f) by (intros; unfold okf; lia).
  unfold finish, emin, emax, bias.
  destruct (Z.ltb_spec x (2 ^ (E - 1) - 1)).
  - split; [apply pack_wf, O; lia|]. rewrite decode_pack by (apply O; lia). cbn [Z.eqb].
    replace (x - 2 * (2 ^ (E - 1) - 1) - F + F <? - (2 ^ (E - 1) - 1)) with true by (symmetry; apply Z.ltb_lt; lia). reflexivity.
  - destruct (Z.leb_spec (2 ^ (E - 1) - 1 + 2 ^ E) x).
    + split; [apply pack_wf, O; lia|]. rewrite decode_pack by (apply O; lia). cbn [Z.eqb Pos.eqb].
      replace (x - 2 * (2 ^ (E - 1) - 1) - F + F <? - (2 ^ (E - 1) - 1)) with false by (symmetry; apply Z.ltb_ge; lia).
      replace (2 ^ (E - 1) - 1 + 1 <? x - 2 * (2 ^ (E - 1) - 1) - F + F) with true by (symmetry; apply Z.ltb_lt; lia). reflexivity.
    + split; [apply pack_wf, O; lia|]. rewrite decode_pack by (apply O; lia). cbn [Z.eqb Pos.eqb].
      replace (x - 2 * (2 ^ (E - 1) - 1) - F + F <? - (2 ^ (E - 1) - 1)) with false by (symmetry; apply Z.ltb_ge; lia).
      replace (2 ^ (E - 1) - 1 + 1 <? x - 2 * (2 ^ (E - 1) - 1) - F + F) with false by (symmetry; apply Z.ltb_ge; lia).
      rewrite Z.mod_small in Ee by (rewrite Z.mod_small; lia). rewrite Z.mod_small in Ee by lia. unfold bias. f_equal. lia.
Qed.

(** The exact sum on a common scale. *)
Lemma dadd_scale p a q b K : 0 <= a - K -> 0 <= b - K ->
  exists m e, dadd (p, a) (q, b) = (m, e) /\ 0 <= e - K /\ m * 2 ^ (e - K) = p * 2 ^ (a - K) + q * 2 ^ (b - K).
Proof.
  intros Ha Hb. unfold dadd. do 2 eexists. split; [reflexivity|]. split; [lia|].
  rewrite Z.mul_add_distr_r, <- !Z.mul_assoc, <- !pow2_add by lia. f_equal; f_equal; f_equal; lia.
Qed.

Lemma sum_div a b d : 0 < d -> a mod d = 0 -> (a + b) / d = a / d + b / d.
Proof. intros Hd Ha. pose proof (div_mod_eq a d Hd) as Q. rewrite Ha, Z.add_0_r in Q. rewrite Q at 1. rewrite Z.mul_comm, Z.div_add_l by lia. reflexivity. Qed.

Lemma shift_div p P X e : 0 <= e <= X -> 0 <= P -> p * 2 ^ P / 2 ^ (X - e) = p * 2 ^ P * 2 ^ e / 2 ^ X.
Proof.
  intros He HP. replace (2 ^ X) with (2 ^ (X - e) * 2 ^ e) by (rewrite <- pow2_add by lia; f_equal; lia).
  rewrite Z.div_mul_cancel_r; [reflexivity| |]; apply Z.pow_nonzero; lia.
Qed.

Lemma norm_mod F V j : 0 <= F -> 0 <= j -> 2 ^ (F + j) <= V < 2 ^ (F + j + 1) ->
  2 ^ F + (V / 2 ^ j) mod 2 ^ F = V / 2 ^ j.
Proof.
  intros HF Hj HV. assert (Pj : 0 < 2 ^ j) by (apply pow2_pos; lia). assert (PF : 0 < 2 ^ F) by (apply pow2_pos; lia).
  rewrite pow2_S, pow2_add in HV by lia.
  assert (B : 2 ^ F <= V / 2 ^ j < 2 * 2 ^ F) by (split; [apply Z.div_le_lower_bound; lia|apply Z.div_lt_upper_bound; lia]).
  replace (V / 2 ^ j) with (1 * 2 ^ F + (V / 2 ^ j - 2 ^ F)) at 1 by lia. rewrite join_mod by lia. lia.
Qed.

Lemma prod_bound F f f' : 0 <= F -> 0 <= f < 2 ^ F -> 0 <= f' < 2 ^ F -> 2 ^ (2 * F) <= (2 ^ F + f) * (2 ^ F + f') < 2 ^ (2 * F + 2).
Proof.
  intros HF H H'. replace (2 * F) with (F + F) by lia. rewrite (pow2_add (F + F) 2), (pow2_add F F) by lia. change (2 ^ 2) with 4. nia.
Qed.

(** A positive normal pattern. *)
Lemma pos_view E F x : 1 <= E -> 1 <= F -> wf (E + F + 3) x -> pos_normal (decode E F x) ->
  exists e f, okf E F 1 e f /\ x = pack E F 1 false e f /\ decode E F x = Num false (2 ^ F + f) (e - bias E - F).
Proof.
  intros HE HF Hx (m & k & D). destruct (pack_view E F x HE HF Hx) as (a & s & e & f & H & ->). rewrite decode_pack in D by exact H.
  pose proof H as (_ & _ & Ha & _). apply flags_cases in Ha. destruct Ha as [->|[->|[->| ->]]]; cbn [Z.eqb Pos.eqb] in D; try discriminate.
  injection D as -> _ _. exists e, f. split; [exact H|]. split; [reflexivity|]. rewrite decode_pack by exact H. reflexivity.
Qed.
