(** Rounding to p bits, then mpfr_subnormalize: together one rounding to an IEEE format. *)
From Coq Require Import ZArith List Bool Lia.
From Verif Require Import Fw FwLemmas Spec Spec754 SpecLemmas Sf754Lemmas MpfrLib MpfrRange PolicyProofs.
Open Scope Z_scope.

Lemma rne_near a b : 0 < b -> 2 * rne_div a b * b - b <= 2 * a <= 2 * rne_div a b * b + b.
Proof.
  intros Hb. unfold rne_div. cbv zeta. pose proof (Z.div_mod a b ltac:(lia)) as D. pose proof (Z.mod_pos_bound a b Hb) as B. remember (a / b) as q. remember (a mod b) as r.
  destruct (2 * r <? b) eqn:A1; [nia|]. destruct (b <? 2 * r) eqn:A2; [nia|]. destruct (Z.even q); nia.
Qed.
Lemma rne_lt a b r : 0 < b -> 2 * r * b - b < 2 * a < 2 * r * b + b -> rne_div a b = r.
Proof.
  intros Hb H. pose proof (rne_near a b Hb) as N. remember (rne_div a b) as m. clear Heqm. assert (m < r + 1) by nia. assert (r < m + 1) by nia. lia.
Qed.
Lemma rne_tie a b h : 0 < b -> 2 * a = 2 * h * b + b -> rne_div a b = if Z.odd h then h + 1 else h.
Proof.
  intros Hb H. unfold rne_div. cbv zeta. assert (Q : a / b = h) by (symmetry; apply (Z.div_unique a b h (a - h * b)); lia). assert (R : a mod b = a - h * b) by (symmetry; apply (Z.mod_unique a b h (a - h * b)); lia).
  rewrite Q, R. replace (2 * (a - h * b) <? b) with false by lia. replace (b <? 2 * (a - h * b)) with false by lia. rewrite <- Z.negb_odd. destruct (Z.odd h); reflexivity.
Qed.
(** Rounding twice, the second time by the direction of the first. *)
Definition again (m j : Z) (t : comparison) : Z :=
  let h := m / 2 ^ j in
  let l := m mod 2 ^ j in
  if match l ?= 2 ^ (j - 1) with Lt => false | Gt => true | Eq => match t with Lt => true | Gt => false | Eq => Z.odd h end end then h + 1 else h.
Lemma again_ok a b j : 0 < b -> 1 <= j -> again (rne_div a b) j (rne_div a b * b ?= a) = rne_div a (b * 2 ^ j).
Proof.
  intros Hb Hj. pose proof (rne_near a b Hb) as N. remember (rne_div a b) as m. clear Heqm. unfold again. cbv zeta.
  pose proof (pow2_pos (j - 1) ltac:(lia)) as Pj. assert (E : 2 ^ j = 2 * 2 ^ (j - 1)) by (rewrite <- Z.pow_succ_r by lia; f_equal; lia). rewrite E. remember (2 ^ (j - 1)) as c. clear Heqc E.
  pose proof (Z.div_mod m (2 * c) ltac:(lia)) as D. pose proof (Z.mod_pos_bound m (2 * c) ltac:(lia)) as B. remember (m / (2 * c)) as h. remember (m mod (2 * c)) as l. clear Heqh Heql.
  assert (Pbc : 0 < b * (2 * c)) by nia. symmetry. assert (Ea : m * b = 2 * c * h * b + l * b) by (rewrite D; ring).
  destruct (Z.compare_spec l c) as [X|X|X].
  - subst l. destruct (Z.compare_spec (m * b) a) as [Y|Y|Y].
    + rewrite (rne_tie a (b * (2 * c)) h) by (try lia; nia). reflexivity.
    + apply rne_lt; [lia|]. split; [|assert (b * c >= b) by nia; nia]. nia.
    + apply rne_lt; [lia|]. split; [assert (b * c >= b) by nia; nia|nia].
  - apply rne_lt; [lia|]. assert (L : l * b + b <= c * b) by nia. assert (0 <= l * b) by nia. split; nia.
  - apply rne_lt; [lia|]. assert (L : c * b + b <= l * b) by nia. assert (l * b + b <= 2 * c * b) by nia. split; nia.
Qed.
Lemma subnormalize_again lo p s m e t : mpfr_subnormalize lo p (Num s m e, t) =
  let j := lo - 1 - e in if j <=? 0 then Num s m e else let m' := again m j (signed s t) * 2 ^ j in if m' =? 2 ^ p then Num s (2 ^ (p - 1)) (e + 1) else Num s m' e.
Proof. unfold mpfr_subnormalize. cbn [fst snd]. replace (lo + p - 1 - (e + p)) with (lo - 1 - e) by lia. reflexivity. Qed.

Lemma mag_scaled n d F : 0 <= F -> 0 < n -> 0 < d -> let e := mag n d - F in 2 ^ F * den2 d (- e) <= num2 n (- e) < 2 ^ (F + 1) * den2 d (- e).
Proof.
  intros HF Hn Hd. cbv zeta. pose proof (mag_spec n d Hn Hd) as [M1 M2]. remember (mag n d) as g. clear Heqg.
  pose proof (den2_pos d (- g) Hd) as D1. pose proof (den2_pos d (- (g - F)) Hd) as D2. pose proof (pow2_pos F HF) as PF.
  pose proof (num2_den2_cross n d (- g) (Z.abs g) ltac:(lia) ltac:(lia)) as X. pose proof (num2_den2_cross n d (- (g - F)) (Z.abs g) ltac:(lia) ltac:(lia)) as Y.
  replace (Z.abs g + - (g - F)) with (Z.abs g + - g + F) in Y by lia. rewrite (pow2_add (Z.abs g + - g) F) in Y by lia. pose proof (pow2_pos (Z.abs g) ltac:(lia)) as PA. pose proof (pow2_pos (Z.abs g + - g) ltac:(lia)) as PB.
  rewrite pow2_S by lia. remember (2 ^ Z.abs g) as a. remember (2 ^ (Z.abs g + - g)) as b. remember (num2 n (- g)) as N. remember (den2 d (- g)) as DD. remember (num2 n (- (g - F))) as N'. remember (den2 d (- (g - F))) as D'. remember (2 ^ F) as c.
  assert (PU : 0 < d * a) by (apply Z.mul_pos_pos; lia).
  assert (L1 : d * a <= n * b) by (apply (Z.mul_le_mono_pos_r _ _ DD); [lia|]; rewrite <- X; rewrite (Z.mul_comm N); apply Z.mul_le_mono_nonneg_l; lia).
  assert (L2 : n * b < 2 * (d * a)) by (apply (Z.mul_lt_mono_pos_r DD); [lia|]; rewrite <- X; rewrite (Z.mul_comm N); replace (2 * (d * a) * DD) with (d * a * (2 * DD)) by ring; apply Z.mul_lt_mono_pos_l; lia).
  assert (PC : 0 < c * D') by (apply Z.mul_pos_pos; lia). remember (d * a) as u. split.
  - apply (Z.mul_le_mono_pos_r _ _ u); [lia|]. rewrite Y. replace (n * (b * c) * D') with (c * D' * (n * b)) by ring. apply Z.mul_le_mono_nonneg_l; lia.
  - apply (Z.mul_lt_mono_pos_r u); [lia|]. rewrite Y. replace (n * (b * c) * D') with (c * D' * (n * b)) by ring. replace (2 * c * D' * u) with (c * D' * (2 * u)) by ring. apply Z.mul_lt_mono_pos_l; lia.
Qed.
Lemma samev_scaled n d k e : samev n d k (num2 n (- e)) (den2 d (- e)) (e + k).
Proof. exists (Z.abs e). split; [lia|]. split; [lia|]. replace (Z.abs e + (k - (e + k))) with (Z.abs e + - e) by lia. apply num2_den2_cross; lia. Qed.

(** An MPFR number of F+1 bits that is a number of the IEEE format. *)
Definition nice (E F : Z) (v : fval) : Prop :=
  match v with
  | Num _ m e => 2 ^ F <= m < 2 ^ (F + 1) /\ qmin E F - F <= e <= bias E - F /\ (e < qmin E F -> m mod 2 ^ (qmin E F - e) = 0)
  | _ => True
  end.
Lemma veq_up s m e j : 0 <= j -> veq (Num s (m * 2 ^ j) e) (Num s m (e + j)).
Proof. intros H. pose proof (CompareProofs.veq_scale j (Num s m (e + j)) H) as V. cbn [CompareProofs.scale_v] in V. replace (e + j - j) with e in V by lia. exact V. Qed.

Lemma subnormal_round E F s n d k : 2 <= E -> 1 <= F -> 0 < n -> 0 < d ->
  let v := mpfr_subnormalize (qmin E F + 1) (F + 1) (mp_round_t (qmin E F + 1) (bias E + 1) (F + 1) s n d k) in
  nice E F v /\ veq v (round754 E F s n d k).
Proof.
  intros HE HF Hn Hd. assert (HB : 1 <= bias E) by (unfold bias; assert (2 ^ 1 <= 2 ^ (E - 1)) by (apply Z.pow_le_mono_r; lia); lia).
  pose proof (mag_scaled n d F ltac:(lia) Hn Hd) as MS. cbv zeta in MS |- *. unfold mp_round_t. replace (F + 1 - 1) with F by lia. cbv zeta. pose proof (samev_scaled n d k (mag n d - F)) as SV.
  pose proof (den2_pos d (- (mag n d - F)) Hd) as Pb. remember (mag n d - F) as e. remember (num2 n (- e)) as a. remember (den2 d (- e)) as b.
  pose proof (pow2_pos F ltac:(lia)) as PF. pose proof (pow2_S F ltac:(lia)) as PS.
  assert (M1 : 2 ^ F <= rne_div a b) by (apply rne_div_lower; lia). assert (M2 : rne_div a b <= 2 ^ (F + 1)) by (apply rne_div_upper; lia).
  assert (QB : qmin E F + F = 1 - bias E) by (unfold qmin; lia).
  destruct (Z_le_gt_dec (qmin E F) (e + k)) as [HA|HA].
  - (* no second rounding *)
    rewrite (round754_char E F s n d k (e + k) a b) by (try assumption; lia). unfold fin754.
    set (m' := if rne_div a b =? 2 ^ (F + 1) then 2 ^ F else rne_div a b). assert (M' : 2 ^ F <= m' < 2 ^ (F + 1)) by (unfold m'; destruct (rne_div a b =? 2 ^ (F + 1)) eqn:C; lia).
    replace (rne_div a b =? 0) with false by lia.
    replace ((if rne_div a b =? 2 ^ (F + 1) then e + 1 else e) + k) with (if rne_div a b =? 2 ^ (F + 1) then e + k + 1 else e + k) by (destruct (_ =? _); lia).
    set (q' := if rne_div a b =? 2 ^ (F + 1) then e + k + 1 else e + k). assert (Q' : e + k <= q') by (unfold q'; destruct (_ =? _); lia). clearbody m' q'.
    replace (bias E + 1 <? q' + (F + 1)) with (bias E <? q' + F) by (destruct (bias E <? q' + F) eqn:C; symmetry; lia).
    destruct (bias E <? q' + F) eqn:C; [cbn; split; [exact I|reflexivity]|]. replace (q' + (F + 1) <? qmin E F + 1) with false by lia.
    rewrite subnormalize_again. cbv zeta. replace (qmin E F + 1 - 1 - q' <=? 0) with true by lia. split; [|apply veq_refl]. cbn [nice]. split; [exact M'|]. split; lia.
  - remember (qmin E F - (e + k)) as j. assert (Hj : 1 <= j) by lia. pose proof (pow2_pos j ltac:(lia)) as Pj.
    assert (PD : 0 < b * 2 ^ j) by (apply Z.mul_pos_pos; lia).
    rewrite (round754_char E F s n d k (qmin E F) a (b * 2 ^ j)).
    2-4: lia. 2: exact PD.
    2: { apply (samev_trans n d k a b (e + k)); [lia|exact SV|]. replace (qmin E F) with (e + k + j) by lia. apply samev_den. lia. }
    2: lia. 2: nia. 2: right; reflexivity.
    pose proof (again_ok a b j Pb Hj) as AG. remember (rne_div a (b * 2 ^ j)) as M.
    assert (UM : M <= 2 ^ F). { subst M. apply rne_div_upper; [lia|]. assert (2 ^ 1 <= 2 ^ j) by (apply Z.pow_le_mono_r; lia). clear - MS PS H Pb PF. assert (2 ^ F * (b * 2) <= 2 ^ F * (b * 2 ^ j)) by (apply Z.mul_le_mono_nonneg_l; [lia|]; apply Z.mul_le_mono_nonneg_l; lia). lia. }
    assert (FM : fin754 E F s (qmin E F) M = if M =? 0 then Zero s else Num s M (qmin E F)).
    { unfold fin754. replace (M =? 2 ^ (F + 1)) with false by lia. replace (bias E <? qmin E F + F) with false by lia. reflexivity. }
    rewrite FM.
    assert (NM : exists m' e', (if rne_div a b =? 2 ^ (F + 1) then 2 ^ F else rne_div a b) = m' /\ (if rne_div a b =? 2 ^ (F + 1) then e + 1 else e) + k = e' /\
      e' <= qmin E F /\ 2 ^ F <= m' < 2 ^ (F + 1) /\ (e' = e + k /\ m' = rne_div a b \/ e' = e + k + 1 /\ m' = 2 ^ F /\ rne_div a b = 2 ^ (F + 1))).
    { clear - HA M1 M2 PS PF. destruct (rne_div a b =? 2 ^ (F + 1)) eqn:C; do 2 eexists; (split; [reflexivity|]); (split; [reflexivity|]); (split; [lia|]); split; lia. }
    destruct NM as [m' [e' [Q1 [Q2 [E' [M' NM]]]]]]. rewrite Q1, Q2. clear Q1 Q2.
    replace (bias E + 1 <? e' + (F + 1)) with false by (symmetry; apply Z.ltb_ge; lia).
    destruct (e' + (F + 1) <? qmin E F + 1) eqn:C.
    + (* below half of the smallest subnormal number, or just above it *)
      assert (HH : (den2 d (k - (qmin E F + 1 - 2)) <? num2 n (k - (qmin E F + 1 - 2))) = (b * 2 ^ j <? 2 * a)).
      { replace (k - (qmin E F + 1 - 2)) with (k - (qmin E F - 1)) by lia.
        assert (S2 : samev n d k a (b * 2 ^ (j - 1)) (qmin E F - 1)). { apply (samev_trans n d k a b (e + k)); [lia|exact SV|]. replace (qmin E F - 1) with (e + k + (j - 1)) by lia. apply samev_den. lia. }
        destruct S2 as [c [c1 [c2 c3]]]. pose proof (num2_den2_cross n d (k - (qmin E F - 1)) c c1 c2) as Y. pose proof (den2_pos d (k - (qmin E F - 1)) Hd) as PY.
        replace (2 ^ j) with (2 * 2 ^ (j - 1)) by (rewrite <- Z.pow_succ_r by lia; f_equal; lia). pose proof (pow2_pos (j - 1) ltac:(lia)) as Pj1. pose proof (pow2_pos c c1) as Pc. pose proof (pow2_pos _ c2) as Pc2.
        remember (num2 n (k - (qmin E F - 1))) as N. remember (den2 d (k - (qmin E F - 1))) as DD. remember (2 ^ (c + (k - (qmin E F - 1)))) as w. remember (2 ^ c) as y. remember (2 ^ (j - 1)) as z.
        assert (PZ : 0 < b * z) by (apply Z.mul_pos_pos; lia). assert (PDY : 0 < d * y) by (apply Z.mul_pos_pos; lia).
        assert (EQ : N * (b * z) = a * DD). { apply (Z.mul_reg_r _ _ (d * y)); [lia|]. transitivity (N * (d * y) * (b * z)); [ring|]. rewrite Y. transitivity (n * w * (b * z) * DD); [ring|]. rewrite <- c3. ring. }
        replace (b * (2 * z) <? 2 * a) with (b * z <? a) by (destruct (b * z <? a) eqn:L; symmetry; lia). clear - EQ PZ PY. remember (b * z) as u. clear Hequ.
        destruct (Z.ltb_spec u a); destruct (Z.ltb_spec DD N); try reflexivity; nia. }
      rewrite HH. assert (JF : F + 1 <= j) by lia.
      assert (P2 : 2 ^ (F + 1) <= 2 ^ j) by (apply Z.pow_le_mono_r; lia). assert (LT : a < b * 2 ^ j) by nia.
      destruct (b * 2 ^ j <? 2 * a) eqn:L.
      * assert (M0 : M = 1) by (subst M; apply rne_lt; lia). rewrite M0. cbn [Z.eqb]. rewrite subnormalize_again. cbv zeta. replace (qmin E F + 1 - 1 - (qmin E F + 1 - (F + 1))) with F by lia. replace (F <=? 0) with false by lia.
        unfold again. cbv zeta. rewrite Z.div_same, Z_mod_same_full by lia. pose proof (pow2_pos (F - 1) ltac:(lia)). replace (0 ?= 2 ^ (F - 1)) with Lt by (symmetry; apply Z.compare_lt_iff; lia).
        rewrite Z.mul_1_l. replace (2 ^ F =? 2 ^ (F + 1)) with false by lia. split.
        -- cbn [nice]. split; [lia|]. split; [lia|]. intros _. replace (qmin E F - (qmin E F + 1 - (F + 1))) with F by lia. apply Z_mod_same_full.
        -- replace (Num s 1 (qmin E F)) with (Num s 1 (qmin E F + 1 - (F + 1) + F)) by (f_equal; lia). replace (2 ^ F) with (1 * 2 ^ F) by lia. apply veq_up. lia.
      * assert (M0 : M = 0). { destruct (Z.eq_dec (2 * a) (b * 2 ^ j)) as [T|T]; [subst M; rewrite (rne_tie a (b * 2 ^ j) 0) by lia; reflexivity|]. subst M. apply rne_lt; [lia|]. split; [nia|lia]. }
        rewrite M0. cbn. split; [exact I|reflexivity].
    + (* a second rounding *)
      rewrite subnormalize_again. cbv zeta. replace (qmin E F + 1 - 1 - e') with (qmin E F - e') by lia.
      assert (SS : forall c, signed s (signed s c) = c) by (intros []; destruct s; reflexivity). rewrite SS.
      assert (C' : qmin E F <= e' + F) by lia. clear C.
      destruct NM as [[N1 N2]|[N1 [N2 N3]]].
      * replace (qmin E F - e') with j by lia. replace (j <=? 0) with false by lia. rewrite N2, AG.
        assert (PJ : 2 ^ F = 2 ^ (F - j) * 2 ^ j) by (rewrite <- Z.pow_add_r by lia; f_equal; lia). assert (PJ1 : 2 ^ (F + 1) = 2 ^ (F + 1 - j) * 2 ^ j) by (rewrite <- Z.pow_add_r by lia; f_equal; lia).
        assert (L1 : 2 ^ (F - j) <= M) by (subst M; apply rne_div_lower; [lia|]; replace (2 ^ (F - j) * (b * 2 ^ j)) with (2 ^ F * b) by (rewrite PJ; ring); lia).
        assert (L2 : M <= 2 ^ (F + 1 - j)) by (subst M; apply rne_div_upper; [lia|]; replace (2 ^ (F + 1 - j) * (b * 2 ^ j)) with (2 ^ (F + 1) * b) by (rewrite PJ1; ring); lia).
        pose proof (pow2_pos (F - j) ltac:(lia)). replace (M =? 0) with false by lia.
        assert (L3 : 2 ^ F <= M * 2 ^ j) by (rewrite PJ; apply Z.mul_le_mono_nonneg_r; lia). assert (L4 : M * 2 ^ j <= 2 ^ (F + 1)) by (rewrite PJ1; apply Z.mul_le_mono_nonneg_r; lia).
        destruct (M * 2 ^ j =? 2 ^ (F + 1)) eqn:T.
        -- apply Z.eqb_eq in T. replace (F + 1 - 1) with F by lia. split.
           ++ cbn [nice]. split; [lia|]. split; [lia|]. intros _. replace (qmin E F - (e' + 1)) with (j - 1) by lia. replace (2 ^ F) with (2 ^ (F - (j - 1)) * 2 ^ (j - 1)) by (rewrite <- Z.pow_add_r by lia; f_equal; lia). apply Z_mod_mult.
           ++ assert (2 ^ F = M * 2 ^ (j - 1)). { assert (2 ^ j = 2 * 2 ^ (j - 1)) by (rewrite <- Z.pow_succ_r by lia; f_equal; lia). lia. } rewrite H0. replace (Num s M (qmin E F)) with (Num s M (e' + 1 + (j - 1))) by (f_equal; lia). apply veq_up. lia.
        -- apply Z.eqb_neq in T. split.
           ++ cbn [nice]. split; [lia|]. split; [lia|]. intros _. replace (qmin E F - e') with j by lia. apply Z_mod_mult.
           ++ replace (Num s M (qmin E F)) with (Num s M (e' + j)) by (f_equal; lia). apply veq_up. lia.
      * rewrite N3 in AG. assert (PJ : 2 ^ (F + 1) = 2 ^ (F + 1 - j) * 2 ^ j) by (rewrite <- Z.pow_add_r by lia; f_equal; lia). unfold again in AG. cbv zeta in AG.
        replace (2 ^ (F + 1) mod 2 ^ j) with 0 in AG by (rewrite PJ; symmetry; apply Z_mod_mult). replace (2 ^ (F + 1) / 2 ^ j) with (2 ^ (F + 1 - j)) in AG by (rewrite PJ; symmetry; apply Z.div_mul; lia). pose proof (pow2_pos (j - 1) ltac:(lia)). replace (0 ?= 2 ^ (j - 1)) with Lt in AG by (symmetry; apply Z.compare_lt_iff; lia). cbn iota in AG.
        pose proof (pow2_pos (F + 1 - j) ltac:(lia)). replace (M =? 0) with false by lia. subst m'.
        assert (V : nice E F (Num s (2 ^ F) e') /\ veq (Num s (2 ^ F) e') (Num s M (qmin E F))).
        { replace (2 ^ F) with (M * 2 ^ (j - 1)) at 1 2 by (rewrite <- AG, <- Z.pow_add_r by lia; f_equal; lia). split.
          - cbn [nice]. replace (M * 2 ^ (j - 1)) with (2 ^ F) at 1 2 by (rewrite <- AG, <- Z.pow_add_r by lia; f_equal; lia). split; [lia|]. split; [lia|]. intros _. replace (qmin E F - e') with (j - 1) by lia. apply Z_mod_mult.
          - replace (Num s M (qmin E F)) with (Num s M (e' + (j - 1))) by (f_equal; lia). apply veq_up. lia. }
        destruct (qmin E F - e' <=? 0) eqn:Z0; [exact V|]. unfold again. cbv zeta. replace (qmin E F - e') with (j - 1) by lia.
        assert (PK : 2 ^ F = 2 ^ (F + 1 - j) * 2 ^ (j - 1)) by (rewrite <- Z.pow_add_r by lia; f_equal; lia).
        replace (2 ^ F mod 2 ^ (j - 1)) with 0 by (rewrite PK; symmetry; apply Z_mod_mult). replace (2 ^ F / 2 ^ (j - 1)) with (2 ^ (F + 1 - j)) by (rewrite PK; symmetry; apply Z.div_mul; lia).
        pose proof (pow2_pos (j - 1 - 1) ltac:(lia)). replace (0 ?= 2 ^ (j - 1 - 1)) with Lt by (symmetry; apply Z.compare_lt_iff; lia). rewrite <- PK. replace (2 ^ F =? 2 ^ (F + 1)) with false by lia. exact V.
Qed.
