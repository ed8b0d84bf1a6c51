(** SoftFloat: decoding of a packed word, and rounding and packing. *)
From Coq Require Import ZArith Bool Lia.
From Verif Require Import Spec Spec754 Fw FwLemmas SpecLemmas Sf754Lemmas SoftFloat.
Open Scope Z_scope.

Lemma land_lnot1 a : Z.land a (Z.lnot 1) = 2 * (a / 2).
Proof.
  apply Z.bits_inj'. intros i Hi. rewrite Z.land_spec, Z.lnot_spec by lia.
  destruct (Z.eq_dec i 0) as [->|].
  - rewrite Z.testbit_even_0. change (Z.testbit 1 0) with true. apply andb_false_r.
  - assert (T1 : Z.testbit 1 i = false).
    { change 1 with (2 ^ 0). apply Z.pow2_bits_false. lia. }
    rewrite T1. cbn [negb]. rewrite andb_true_r. replace i with (Z.succ (i - 1)) by lia.
    rewrite Z.testbit_even_succ by lia. rewrite <- Z.div2_bits by lia. reflexivity.
Qed.

Lemma land_low a k : 0 <= k -> Z.land a (2 ^ k - 1) = a mod 2 ^ k.
Proof. intros. replace (2 ^ k - 1) with (Z.ones k) by (rewrite Z.ones_equiv; lia). apply Z.land_ones. assumption. Qed.

Lemma round_bits P G : 0 <= P -> 1 <= G ->
  Z.land (Z.shiftr (P + 2 ^ (G - 1)) G) (Z.lnot (Z.b2z (Z.land P (2 ^ G - 1) =? 2 ^ (G - 1)))) = rne_div P (2 ^ G).
Proof.
  intros HP HG. rewrite land_low, Z.shiftr_div_pow2 by lia. unfold rne_div.
  pose proof (pow2_pos (G - 1) ltac:(lia)) as Ph.
  replace (2 ^ G) with (2 * 2 ^ (G - 1)) by (rewrite <- pow2_S by lia; f_equal; lia).
  remember (2 ^ (G - 1)) as h eqn:Eh. clear Eh.
  pose proof (Z.div_mod P (2 * h) ltac:(lia)) as DM. pose proof (Z.mod_pos_bound P (2 * h) ltac:(lia)) as B.
  remember (P / (2 * h)) as q eqn:Eq. remember (P mod (2 * h)) as r eqn:Er.
  destruct (Z.lt_trichotomy r h) as [H|[H|H]].
  - replace (r =? h) with false by (symmetry; apply Z.eqb_neq; lia).
    replace (2 * r <? 2 * h) with true by (symmetry; apply Z.ltb_lt; lia).
    cbn [Z.b2z]. change (Z.lnot 0) with (-1). rewrite Z.land_m1_r. symmetry. apply (Z.div_unique _ _ _ (r + h)); lia.
  - replace (r =? h) with true by (symmetry; apply Z.eqb_eq; lia).
    replace (2 * r <? 2 * h) with false by (symmetry; apply Z.ltb_ge; lia).
    replace (2 * h <? 2 * r) with false by (symmetry; apply Z.ltb_ge; lia).
    cbn [Z.b2z]. rewrite land_lnot1.
    replace ((P + h) / (2 * h)) with (q + 1) by (apply (Z.div_unique _ _ _ 0); lia).
    pose proof (Z.div_mod (q + 1) 2 ltac:(lia)) as D2. pose proof (Z.mod_pos_bound (q + 1) 2 ltac:(lia)) as B2.
    destruct (Z.even q) eqn:Ev.
    + apply Z.even_spec in Ev. destruct Ev as [v Hv]. lia.
    + rewrite <- Z.negb_odd in Ev. apply negb_false_iff in Ev. apply Z.odd_spec in Ev. destruct Ev as [v Hv]. lia.
  - replace (r =? h) with false by (symmetry; apply Z.eqb_neq; lia).
    replace (2 * r <? 2 * h) with false by (symmetry; apply Z.ltb_ge; lia).
    replace (2 * h <? 2 * r) with true by (symmetry; apply Z.ltb_lt; lia).
    cbn [Z.b2z]. change (Z.lnot 0) with (-1). rewrite Z.land_m1_r. symmetry. apply (Z.div_unique _ _ _ (r - h)); lia.
Qed.

Lemma decode754_fields E F s ex fr : 1 <= E -> 0 <= F -> 0 <= ex < 2 ^ E -> 0 <= fr < 2 ^ F ->
  decode754 E F (Z.b2z s * 2 ^ (E + F) + (ex * 2 ^ F + fr)) =
  if ex =? 2 ^ E - 1 then if fr =? 0 then Inf s else NaN
  else if ex =? 0 then if fr =? 0 then Zero s else Num s fr (1 - bias E - F)
  else Num s (2 ^ F + fr) (ex - bias E - F).
Proof.
  intros HE HF He Hf. unfold decode754. pose proof (pow2_pos F HF) as PF. pose proof (pow2_pos E ltac:(lia)) as PE.
  rewrite pow2_add by lia.
  replace (Z.b2z s * (2 ^ E * 2 ^ F) + (ex * 2 ^ F + fr)) with ((Z.b2z s * 2 ^ E + ex) * 2 ^ F + fr) by ring.
  rewrite join_mod, join_div by lia.
  replace (((Z.b2z s * 2 ^ E + ex) * 2 ^ F + fr) / (2 ^ E * 2 ^ F)) with (Z.b2z s).
  2: { rewrite Z.mul_comm with (n := 2 ^ E), <- Z.div_div by lia. rewrite join_div by lia. now rewrite join_div by lia. }
  rewrite join_mod by lia. replace (Z.odd (Z.b2z s)) with s by (destruct s; reflexivity). reflexivity.
Qed.

Lemma decode754_body E F s exp m : 2 <= E -> 1 <= F -> 0 <= exp -> 0 <= m <= 2 ^ (F + 1) -> (exp = 0 \/ 2 ^ F <= m) ->
  exp * 2 ^ F + m <= (2 ^ E - 1) * 2 ^ F ->
  decode754 E F (Z.b2z s * 2 ^ (E + F) + (exp * 2 ^ F + m)) = fin754 E F s (exp + 1 - bias E - F) m.
Proof.
  intros HE HF He Hm Hc HT. pose proof (pow2_pos F ltac:(lia)) as PF. rewrite pow2_S in Hm by lia.
  assert (PE : 4 <= 2 ^ E) by (change 4 with (2 ^ 2); apply pow2_le; lia).
  assert (EB : 2 ^ E = 2 * (bias E + 1)).
  { unfold bias. replace (2 ^ E) with (2 ^ (E - 1 + 1)) by (f_equal; lia). rewrite pow2_S by lia. lia. }
  unfold fin754. rewrite pow2_S by lia.
  destruct (Z.eqb_spec m (2 * 2 ^ F)) as [M2|M2].
  - replace (exp * 2 ^ F + m) with ((exp + 2) * 2 ^ F + 0) by lia.
    assert (exp + 2 <= 2 ^ E - 1) by nia.
    rewrite decode754_fields by lia.
    replace (m =? 0) with false by (symmetry; apply Z.eqb_neq; lia).
    replace (exp + 2 =? 0) with false by (symmetry; apply Z.eqb_neq; lia).
    destruct (Z.eqb_spec (exp + 2) (2 ^ E - 1)) as [EX|EX].
    + cbn [Z.eqb]. replace (bias E <? exp + 1 - bias E - F + 1 + F) with true; [reflexivity|].
      symmetry. apply Z.ltb_lt. lia.
    + replace (bias E <? exp + 1 - bias E - F + 1 + F) with false; [f_equal; lia|].
      symmetry. apply Z.ltb_ge. lia.
  - destruct (Z_lt_ge_dec m (2 ^ F)) as [ML|ML].
    + assert (exp = 0) by (destruct Hc; lia). subst exp. rewrite decode754_fields by lia.
      replace (0 =? 2 ^ E - 1) with false by (symmetry; apply Z.eqb_neq; lia).
      cbn [Z.eqb]. destruct (m =? 0); [reflexivity|].
      replace (bias E <? 0 + 1 - bias E - F + F) with false; [f_equal; lia|].
      symmetry. apply Z.ltb_ge. lia.
    + replace (exp * 2 ^ F + m) with ((exp + 1) * 2 ^ F + (m - 2 ^ F)) by ring.
      assert (exp + 1 <= 2 ^ E - 1) by nia.
      rewrite decode754_fields by lia.
      replace (m =? 0) with false by (symmetry; apply Z.eqb_neq; lia).
      replace (exp + 1 =? 0) with false by (symmetry; apply Z.eqb_neq; lia).
      destruct (Z.eqb_spec (exp + 1) (2 ^ E - 1)) as [EX|EX].
      * assert (m = 2 ^ F) by nia. replace (m - 2 ^ F =? 0) with true by (symmetry; apply Z.eqb_eq; lia).
        replace (bias E <? exp + 1 - bias E - F + F) with true; [reflexivity|].
        symmetry. apply Z.ltb_lt. lia.
      * replace (bias E <? exp + 1 - bias E - F + F) with false; [f_equal; lia|].
        symmetry. apply Z.ltb_ge. lia.
Qed.

Section Pack.
Context (E F U C W : Z).
Context (HW : W = E + F + 1) (HE : 3 <= E <= 15) (HF : 1 <= F) (HU : W <= U) (HC : 16 <= C).
Context (Hpow : exists w, 0 <= w /\ W = 2 ^ w).

Lemma sf_EB : 2 ^ E = 2 * (bias E + 1) /\ 3 <= bias E.
Proof.
  unfold bias. replace (2 ^ E) with (2 ^ (E - 1 + 1)) by (f_equal; lia). rewrite pow2_S by lia.
  assert (2 ^ 2 <= 2 ^ (E - 1)) by (apply pow2_le; lia). lia.
Qed.

Lemma packUI_eq s exp sig : 0 <= exp * 2 ^ F + sig < 2 ^ (E + F) ->
  packUI E F s exp sig = Z.b2z s * 2 ^ (E + F) + (exp * 2 ^ F + sig).
Proof.
  intros H. unfold packUI, uw. rewrite !Z.shiftl_mul_pow2 by lia.
  replace (E + F + 1 - 1) with (E + F) by lia. rewrite pow2_S by lia.
  rewrite Z.mod_small; [ring|]. pose proof (pow2_pos (E + F) ltac:(lia)). destruct s; cbn [Z.b2z]; lia.
Qed.

Lemma pack_wf s T : 0 <= T < 2 ^ (E + F) -> 0 <= Z.b2z s * 2 ^ (E + F) + T < 2 ^ W.
Proof. intros. subst W. rewrite pow2_S by lia. destruct s; cbn [Z.b2z]; lia. Qed.

Lemma shiftRightJam_eq a t : 0 <= a < 2 ^ W -> 1 <= t -> shiftRightJam E F a t = jam a (2 ^ t).
Proof.
  intros Ha Ht. destruct Hpow as (w & Hw & EW).
  assert (HW2 : 2 <= W) by lia. unfold shiftRightJam, uw. cbv zeta. rewrite <- HW.
  rewrite (Z.mod_small a) by lia. pose proof (pow2_pos t ltac:(lia)) as Pt.
  destruct (Z.ltb_spec t (W - 1)) as [Hlt|Hge].
  - assert (Hl : Z.land (- t) (W - 1) = W - t).
    { rewrite EW, land_low by lia. rewrite <- EW. symmetry. apply (Z.mod_unique _ _ (-1)); lia. }
    rewrite Hl, Z.shiftr_div_pow2, Z.shiftl_mul_pow2 by lia. unfold jam. do 3 f_equal.
    replace (2 ^ W) with (2 ^ t * 2 ^ (W - t)) by (rewrite <- pow2_add by lia; f_equal; lia).
    pose proof (pow2_pos (W - t) ltac:(lia)). rewrite Z.mul_mod_distr_r by lia.
    pose proof (Z.mod_pos_bound a (2 ^ t) Pt).
    destruct (Z.eqb_spec (a mod 2 ^ t) 0) as [->|]; [reflexivity|]. apply Z.eqb_neq. nia.
  - rewrite jam_val by lia.
    assert (HP : 2 ^ W <= 2 * 2 ^ t) by (rewrite <- pow2_S by lia; apply pow2_le; lia).
    destruct (Z_lt_ge_dec a (2 ^ t)) as [L|G].
    + rewrite Z.mod_small, Z.div_small by lia. destruct (a =? 0); reflexivity.
    + replace (a / 2 ^ t) with 1 by (apply (Z.div_unique _ _ _ (a - 2 ^ t)); lia).
      replace (a =? 0) with false by (symmetry; apply Z.eqb_neq; lia). destruct (a mod 2 ^ t =? 0); reflexivity.
Qed.

Lemma rne_div_bounds P j lo hi : 0 < 2 ^ j -> lo * 2 ^ j <= P <= hi * 2 ^ j -> lo <= rne_div P (2 ^ j) <= hi.
Proof.
  intros Hj [H1 H2]. unfold rne_div. pose proof (Z.div_mod P (2 ^ j) ltac:(lia)) as DM.
  pose proof (Z.mod_pos_bound P (2 ^ j) Hj) as B.
  assert (lo <= P / 2 ^ j) by (apply Z.div_le_lower_bound; lia).
  assert (P / 2 ^ j <= hi) by (apply Z.div_le_upper_bound; lia).
  assert (P / 2 ^ j = hi -> P mod 2 ^ j = 0) by nia.
  destruct (Z.ltb_spec (2 * (P mod 2 ^ j)) (2 ^ j)); [lia|].
  destruct (Z.ltb_spec (2 ^ j) (2 * (P mod 2 ^ j))); [|destruct (Z.even (P / 2 ^ j))]; lia.
Qed.

(** What the end of softfloat_roundPackToF32 returns. *)
Lemma finish_round s exp sig :
  0 <= exp -> 0 <= sig < 2 ^ (W - 1) -> (exp = 0 \/ 2 ^ (W - 2) <= sig) ->
  exp * 2 ^ F + rne_div sig (2 ^ (E - 1)) <= (2 ^ E - 1) * 2 ^ F ->
  let r := (let roundBits := Z.land sig (2 ^ (E - 1) - 1) in
    let sig := Z.shiftr (uw U (sig + 2 ^ (E - 1 - 1))) (E - 1) in
    let sig := Z.land sig (Z.lnot (Z.b2z (roundBits =? 2 ^ (E - 1 - 1)))) in
    let exp := if sig =? 0 then 0 else exp in
    packUI E F s exp sig) in
  0 <= r < 2 ^ W /\ decode754 E F r = fin754 E F s (exp + 1 - bias E - F) (rne_div sig (2 ^ (E - 1))).
Proof.
  intros He Hs Hn HT. cbv zeta. unfold uw.
  pose proof (pow2_pos (E - 1 - 1) ltac:(lia)) as Ph. pose proof (pow2_pos F ltac:(lia)) as PF.
  pose proof (pow2_pos (E - 1) ltac:(lia)) as PG.
  assert (HUP : 2 * 2 ^ (W - 1) <= 2 ^ U) by (rewrite <- pow2_S by lia; apply pow2_le; lia).
  assert (Hhalf : 2 ^ (E - 1 - 1) <= 2 ^ (W - 1)) by (apply pow2_le; lia).
  rewrite (Z.mod_small (sig + _)) by lia. rewrite round_bits by lia.
  assert (Hb : 0 <= rne_div sig (2 ^ (E - 1)) <= 2 ^ (F + 1)).
  { apply rne_div_bounds; [lia|]. rewrite <- pow2_add by lia. replace (F + 1 + (E - 1)) with (W - 1) by lia. lia. }
  assert (Hb2 : exp = 0 \/ 2 ^ F <= rne_div sig (2 ^ (E - 1))).
  { destruct Hn as [|Hn]; [left; assumption|right]. apply (rne_div_bounds _ _ (2 ^ F) (2 ^ (F + 1))); [lia|].
    rewrite <- !pow2_add by lia. replace (F + 1 + (E - 1)) with (W - 1) by lia. replace (F + (E - 1)) with (W - 2) by lia. lia. }
  remember (rne_div sig (2 ^ (E - 1))) as m eqn:Em.
  replace (if m =? 0 then 0 else exp) with exp.
  2: { destruct (Z.eqb_spec m 0); [|reflexivity]. destruct Hb2; lia. }
  assert (HTT : exp * 2 ^ F + m < 2 ^ (E + F)).
  { rewrite pow2_add by lia. nia. }
  assert (HT0 : 0 <= exp * 2 ^ F + m) by nia.
  rewrite packUI_eq by lia. split; [apply pack_wf; lia|].
  apply decode754_body; try lia.
Qed.

(** The significand has its leading one at W-2 and n/d is on the same side of every multiple of half a last place. *)
Lemma roundPack_gen s exp sig n d : 0 < n -> 0 < d -> - 2 ^ 15 <= exp < 2 ^ 15 ->
  jam (2 * sig) (2 ^ (E - 2)) = jam (2 * n) (d * 2 ^ (E - 2)) -> 2 ^ (W - 2) <= sig < 2 ^ (W - 1) ->
  exists r, roundPack E F U C s exp sig = Some r /\ 0 <= r < 2 ^ W /\
    decode754 E F r = round754 E F s n d (exp + 1 - bias E - (W - 2)).
Proof.
  intros Hn Hd He Hsig Hb. destruct sf_EB as [EB B3].
  pose proof (pow2_pos F ltac:(lia)) as PF.
  pose proof (pow2_pos (E - 1) ltac:(lia)) as PG. pose proof (pow2_pos (E - 1 - 1) ltac:(lia)) as Ph.
  assert (H16 : 2 ^ 16 <= 2 ^ C) by (apply pow2_le; lia).
  assert (HE15 : 2 ^ E <= 2 ^ 15) by (apply pow2_le; lia).
  change (2 ^ 16) with 65536 in H16. change (2 ^ 15) with 32768 in *.
  pose proof (pow2_pos (E - 2) ltac:(lia)) as P2. pose proof (pow2_pos (W - 2) ltac:(lia)) as PW2.
  assert (HdE : 0 < d * 2 ^ (E - 2)) by (apply Z.mul_pos_pos; lia).
  assert (W1 : 2 ^ (W - 1) = 2 ^ (F + 2) * 2 ^ (E - 2)) by (rewrite <- pow2_add by lia; f_equal; lia).
  assert (W2 : 2 ^ (W - 2) = 2 ^ (F + 1) * 2 ^ (E - 2)) by (rewrite <- pow2_add by lia; f_equal; lia).
  (* bounds on n/d *)
  assert (Hlo : 2 ^ (W - 2) * d <= n).
  { assert (2 ^ (F + 2) * (d * 2 ^ (E - 2)) <= 2 * n).
    { apply jam_ge_inv; try lia. { apply even_pow2. lia. }
      rewrite <- Hsig. apply jam_ge; try lia. rewrite <- W1. replace (W - 1) with (W - 2 + 1) by lia. rewrite pow2_S by lia. lia. }
    rewrite W2. replace (F + 2) with (F + 1 + 1) in H by lia. rewrite (pow2_S (F + 1)) in H by lia. lia. }
  assert (Hhi : n < 2 ^ (W - 1) * d).
  { assert (2 * n < 2 ^ (F + 3) * (d * 2 ^ (E - 2))).
    { apply jam_lt_inv; try lia. rewrite <- Hsig. apply jam_lt; try lia. { apply even_pow2. lia. }
      replace (F + 3) with (F + 2 + 1) by lia. rewrite pow2_S by lia. lia. }
    rewrite W1. replace (F + 3) with (F + 2 + 1) in H by lia. rewrite pow2_S in H by lia. lia. }
  (* what the rounding gives, at q = exp + 1 - bias - F + t *)
  assert (HR : forall t, 0 <= t -> (t = 0 /\ 0 <= exp \/ t = - exp) ->
    round754 E F s n d (exp + 1 - bias E - (W - 2)) =
    fin754 E F s (exp + t + 1 - bias E - F) (rne_div sig (2 ^ (t + (E - 1))))).
  { intros t Ht Hc. pose proof (pow2_pos (t + (E - 1)) ltac:(lia)) as Pt.
    assert (EQ : rne_div sig (2 ^ (t + (E - 1))) = rne_div n (d * 2 ^ (t + (E - 1)))).
    { replace (2 ^ (t + (E - 1))) with (2 ^ (E - 2) * 2 ^ (t + 1)) by (rewrite <- pow2_add by lia; f_equal; lia).
      apply rne_div_near; try assumption; lia. }
    rewrite EQ. apply round754_char; try lia.
    - replace (exp + t + 1 - bias E - F) with (exp + 1 - bias E - (W - 2) + (t + (E - 1))) by lia.
      apply samev_den. lia.
    - unfold qmin. lia.
    - apply Z.lt_le_trans with (1 := Hhi).
      replace (2 ^ (F + 1) * (d * 2 ^ (t + (E - 1)))) with (2 ^ (F + 1) * 2 ^ (t + (E - 1)) * d) by ring.
      apply Z.mul_le_mono_nonneg_r; [lia|]. rewrite <- pow2_add by lia. apply pow2_le. lia.
    - destruct Hc as [[-> Hc]| ->]; [left|right; unfold qmin; lia].
      replace (2 ^ F * (d * 2 ^ (0 + (E - 1)))) with (2 ^ F * 2 ^ (0 + (E - 1)) * d) by ring.
      rewrite <- pow2_add by lia. replace (F + (0 + (E - 1))) with (W - 2) by lia. lia. }
  assert (HWU : 2 * 2 ^ (W - 1) <= 2 ^ W) by (rewrite <- pow2_S by lia; apply pow2_le; lia).
  assert (HUP : 2 * 2 ^ (W - 1) <= 2 ^ U) by (rewrite <- pow2_S by lia; apply pow2_le; lia).
  assert (Hhalf : 2 ^ (E - 1 - 1) <= 2 ^ (W - 1)) by (apply pow2_le; lia).
  (* the ordinary path *)
  assert (Hord : 0 <= exp -> exp * 2 ^ F + rne_div sig (2 ^ (E - 1)) <= (2 ^ E - 1) * 2 ^ F ->
    exists r, Some (packUI E F s (if Z.land (Z.shiftr (uw U (sig + 2 ^ (E - 1 - 1))) (E - 1)) (Z.lnot (Z.b2z (Z.land sig (2 ^ (E - 1) - 1) =? 2 ^ (E - 1 - 1)))) =? 0 then 0 else exp)
       (Z.land (Z.shiftr (uw U (sig + 2 ^ (E - 1 - 1))) (E - 1)) (Z.lnot (Z.b2z (Z.land sig (2 ^ (E - 1) - 1) =? 2 ^ (E - 1 - 1)))))) = Some r /\
      0 <= r < 2 ^ W /\ decode754 E F r = round754 E F s n d (exp + 1 - bias E - (W - 2))).
  { intros Hexp HT. eexists. split; [reflexivity|].
    pose proof (finish_round s exp sig Hexp ltac:(lia) ltac:(right; lia) HT) as [K1 K2]. split; [exact K1|].
    cbv zeta in K2. rewrite K2, (HR 0) by lia. rewrite Z.add_0_r. reflexivity. }
  assert (Hrb : rne_div sig (2 ^ (E - 1)) <= 2 ^ (F + 1)).
  { apply (rne_div_bounds _ _ 0); [lia|]. rewrite <- pow2_add by lia. replace (F + 1 + (E - 1)) with (W - 1) by lia. lia. }
  rewrite pow2_S in Hrb by lia.
  unfold roundPack. cbv zeta.
  destruct (Z.leb_spec (2 ^ E - 1 - 2) (exp mod 2 ^ C)) as [Hbig|Hsmall].
  - destruct (Z.ltb_spec exp 0) as [Hneg|Hpos].
    + rewrite shiftRightJam_eq by lia.
      assert (Hrj : rne_div (jam sig (2 ^ (- exp))) (2 ^ (E - 1)) = rne_div sig (2 ^ (- exp + (E - 1)))).
      { rewrite pow2_add by lia. symmetry. apply rne_div_jam; try lia; apply pow2_pos; lia. }
      assert (Hj1 : 0 <= jam sig (2 ^ (- exp))) by (apply jam_nonneg; [lia|apply pow2_pos; lia]).
      assert (Hj2 : jam sig (2 ^ (- exp)) < 2 ^ (W - 1)).
      { apply jam_lt; [lia|apply pow2_pos; lia|apply even_pow2; lia|].
        pose proof (pow2_pos (- exp) ltac:(lia)). clear - Hb H. nia. }
      assert (HT : 0 * 2 ^ F + rne_div (jam sig (2 ^ (- exp))) (2 ^ (E - 1)) <= (2 ^ E - 1) * 2 ^ F).
      { assert (rne_div (jam sig (2 ^ (- exp))) (2 ^ (E - 1)) <= 2 ^ (F + 1)).
        { apply (rne_div_bounds _ _ 0); [lia|]. rewrite <- pow2_add by lia. replace (F + 1 + (E - 1)) with (W - 1) by lia. lia. }
        rewrite pow2_S in H by lia. clear - H PF EB B3. nia. }
      pose proof (finish_round s 0 _ ltac:(lia) (conj Hj1 Hj2) ltac:(left; reflexivity) HT) as [K1 K2]. cbv zeta in K1, K2.
      eexists. split; [reflexivity|]. split; [exact K1|]. rewrite K2, Hrj. rewrite (HR (- exp)) by lia. f_equal. lia.
    + rewrite Z.mod_small in Hbig by lia. replace (E + F + 1 - 1) with (W - 1) by lia.
      unfold uw. rewrite (Z.mod_small (sig + _) (2 ^ U)) by lia.
      destruct ((2 ^ E - 1 - 2 <? exp) || (2 ^ (W - 1) <=? sig + 2 ^ (E - 1 - 1))) eqn:Hov.
      * (* overflow *)
        eexists. split; [reflexivity|].
        assert (HT : (2 ^ E - 1) * 2 ^ F + 0 < 2 ^ (E + F)) by (rewrite pow2_add by lia; nia).
        assert (HT0 : 0 <= (2 ^ E - 1) * 2 ^ F + 0) by (clear - PF EB B3; nia).
        rewrite packUI_eq by lia. split; [apply pack_wf; lia|].
        rewrite decode754_fields by lia. rewrite Z.eqb_refl. cbn [Z.eqb].
        rewrite (HR 0) by lia. unfold fin754.
        replace (0 + (E - 1)) with (E - 1) by lia. rewrite pow2_S by lia.
        assert (Hm1 : 2 ^ F <= rne_div sig (2 ^ (E - 1))).
        { apply (rne_div_bounds _ _ (2 ^ F) (2 ^ (F + 1))); [lia|].
          rewrite <- !pow2_add by lia. replace (F + 1 + (E - 1)) with (W - 1) by lia. replace (F + (E - 1)) with (W - 2) by lia. lia. }
        replace (rne_div sig (2 ^ (E - 1)) =? 0) with false by (symmetry; apply Z.eqb_neq; lia).
        match goal with |- _ = if ?b <? ?x then _ else _ => replace (b <? x) with true; [reflexivity|] end.
        symmetry. apply Z.ltb_lt. apply orb_true_iff in Hov. destruct Hov as [Hov|Hov].
        -- apply Z.ltb_lt in Hov. destruct (_ =? 2 * 2 ^ F); lia.
        -- apply Z.leb_le in Hov. rewrite <- round_bits by lia.
           assert (Hg : (sig + 2 ^ (E - 1 - 1)) / 2 ^ (E - 1) = 2 * 2 ^ F).
           { rewrite <- pow2_S by lia. symmetry. apply (Z.div_unique _ _ _ (sig + 2 ^ (E - 1 - 1) - 2 ^ (W - 1))).
             - left. replace (2 ^ (E - 1)) with (2 * 2 ^ (E - 1 - 1)) by (rewrite <- pow2_S by lia; f_equal; lia). lia.
             - replace (2 ^ (W - 1)) with (2 ^ (E - 1) * 2 ^ (F + 1)) by (rewrite <- pow2_add by lia; f_equal; lia). ring. }
           rewrite Z.shiftr_div_pow2, Hg by lia.
           assert (Hz : forall b : bool, Z.land (2 * 2 ^ F) (Z.lnot (Z.b2z b)) = 2 * 2 ^ F).
           { intros [|]; cbn [Z.b2z]; [rewrite land_lnot1; replace (2 * 2 ^ F) with (2 ^ F * 2) by ring; rewrite Z.div_mul by lia; ring
             | change (Z.lnot 0) with (-1); apply Z.land_m1_r]. }
           rewrite Hz, Z.eqb_refl. lia.
      * apply orb_false_iff in Hov. destruct Hov as [Ho1 Ho2]. apply Z.ltb_ge in Ho1. apply Z.leb_gt in Ho2.
        assert (HX := Hord Hpos). unfold uw in HX. rewrite (Z.mod_small (sig + _) (2 ^ U)) in HX by lia. apply HX. clear - Ho1 Hrb PF. nia.
  - assert (Hexp : 0 <= exp).
    { destruct (Z_lt_ge_dec exp 0) as [Hneg|]; [exfalso|lia].
      assert (exp mod 2 ^ C = exp + 2 ^ C) by (symmetry; apply (Z.mod_unique _ _ (-1)); lia). lia. }
    rewrite Z.mod_small in Hsmall by lia. apply (Hord Hexp). clear - Hsmall Hrb PF. nia.
Qed.

(** The value rounded is jam n d * 2^sd. *)
Lemma roundPack_ok s exp sig n d sd : 0 < n -> 0 < d -> 0 <= sd <= E - 3 -> - 2 ^ 15 <= exp < 2 ^ 15 ->
  sig = jam n d * 2 ^ sd -> 2 ^ (W - 2) <= sig < 2 ^ (W - 1) ->
  exists r, roundPack E F U C s exp sig = Some r /\ 0 <= r < 2 ^ W /\
    decode754 E F r = round754 E F s n d (exp + 1 - bias E - (W - 2) + sd).
Proof.
  intros Hn Hd Hsd He Hsig Hb. pose proof (pow2_pos sd ltac:(lia)) as PS.
  assert (Hn' : 0 < n * 2 ^ sd) by (apply Z.mul_pos_pos; lia).
  destruct (roundPack_gen s exp sig (n * 2 ^ sd) d Hn' Hd He) as (r & R1 & R2 & R3); [|assumption|].
  - pose proof (jam_nonneg n d ltac:(lia) Hd) as Jn.
    replace (2 ^ (E - 2)) with (2 ^ (E - 3 - sd) * (2 * 2 ^ sd))
      by (rewrite <- pow2_S, <- pow2_add by lia; f_equal; lia).
    pose proof (pow2_pos (E - 3 - sd) ltac:(lia)).
    replace (2 * sig) with (jam n d * (2 * 2 ^ sd)) by lia. rewrite jam_scale by lia.
    replace (2 * (n * 2 ^ sd)) with (n * (2 * 2 ^ sd)) by ring.
    rewrite (Z.mul_assoc d), jam_scale by (try apply Z.mul_pos_pos; lia). apply jam_jam; lia.
  - exists r. split; [exact R1|]. split; [exact R2|]. rewrite R3.
    replace (exp + 1 - bias E - (W - 2)) with (exp + 1 - bias E - (W - 2) + sd - sd) at 1 by lia.
    symmetry. apply round754_same; try lia. apply samev_num. lia.
Qed.
End Pack.
