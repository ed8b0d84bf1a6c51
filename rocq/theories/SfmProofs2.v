(** SoftFloat in every rounding mode: softfloat_roundPackToF32. Follows SfProofs1.v. *)
From Coq Require Import ZArith Bool Lia.
From Verif Require Import Spec Spec754 Spec754Mode Fw FwLemmas SpecLemmas Sf754Lemmas SoftFloat SoftFloatMode SpecSfMode SfProofs1 SfmProofs1.
Open Scope Z_scope.

Definition is_odd (md : rmode) : bool := match md with Odd => true | _ => false end.
Definition is_ne (md : rmode) : bool := match md with NearEven => true | _ => false end.
(** roundIncrement, for G bits below the last place. *)
Definition rinc (md : rmode) (s : bool) (G : Z) : Z :=
  match md with
  | NearEven | NearMaxMag => 2 ^ (G - 1)
  | Min => if s then 2 ^ G - 1 else 0
  | Max => if s then 0 else 2 ^ G - 1
  | MinMag | Odd => 0
  end.
Definition rfin (md : rmode) (s : bool) (G sig : Z) : Z :=
  if negb (Z.land sig (2 ^ G - 1) =? 0) && is_odd md then Z.lor (Z.shiftr (sig + rinc md s G) G) 1
  else Z.land (Z.shiftr (sig + rinc md s G) G) (Z.lnot (Z.b2z ((Z.land sig (2 ^ G - 1) =? 2 ^ (G - 1)) && is_ne md))).

Lemma rinc_bounds md s G : 1 <= G -> 0 <= rinc md s G < 2 ^ G.
Proof.
  intros HG. pose proof (pow2_pos (G - 1) ltac:(lia)) as P.
  assert (2 ^ G = 2 * 2 ^ (G - 1)) by (rewrite <- pow2_S by lia; f_equal; lia). unfold rinc. destruct md, s; lia.
Qed.

Lemma rfin_ok md s G sig : 0 <= sig -> 1 <= G -> rfin md s G sig = rnd_div md s sig (2 ^ G).
Proof.
  intros Hs HG. unfold rfin. destruct md; cbn [is_odd is_ne rinc].
  1: { rewrite andb_false_r, andb_true_r. apply round_bits; assumption. }
  all: rewrite ?andb_false_r, ?andb_true_r; try rewrite land_low by lia; cbn [Z.b2z]; change (Z.lnot 0) with (-1); rewrite ?Z.land_m1_r.
  all: rewrite Z.shiftr_div_pow2 by lia; unfold rnd_div; cbv zeta.
  all: pose proof (pow2_pos (G - 1) ltac:(lia)) as P; assert (HP : 2 ^ G = 2 * 2 ^ (G - 1)) by (rewrite <- pow2_S by lia; f_equal; lia).
  all: rewrite ?HP; remember (2 ^ (G - 1)) as h eqn:Eh; clear Eh HP.
  all: pose proof (Z.div_mod sig (2 * h) ltac:(lia)) as DM; pose proof (Z.mod_pos_bound sig (2 * h) ltac:(lia)) as B.
  all: rewrite ?Z.add_0_r.
  all: remember (sig / (2 * h)) as q eqn:Eq; remember (sig mod (2 * h)) as r eqn:Er.
  - reflexivity.
  - destruct s; [|rewrite Z.add_0_r, <- Eq; reflexivity].
    destruct (Z.eqb_spec r 0); symmetry; [apply (Z.div_unique _ _ _ (2 * h - 1))|apply (Z.div_unique _ _ _ (r - 1))]; lia.
  - destruct s; [rewrite Z.add_0_r, <- Eq; reflexivity|].
    destruct (Z.eqb_spec r 0); symmetry; [apply (Z.div_unique _ _ _ (2 * h - 1))|apply (Z.div_unique _ _ _ (r - 1))]; lia.
  - destruct (Z.ltb_spec (2 * r) (2 * h)); symmetry; [apply (Z.div_unique _ _ _ (r + h))|apply (Z.div_unique _ _ _ (r - h))]; lia.
  - assert (0 <= q) by (rewrite Eq; apply Z.div_pos; lia).
    destruct (Z.eqb_spec r 0); cbn [negb]; [destruct (Z.odd q); reflexivity|].
    rewrite lor_1_val by assumption. rewrite <- Z.negb_odd. destruct (Z.odd q); reflexivity.
Qed.

(** The sum with the increment reaches the next power of two exactly when the rounded value does. *)
Lemma rnd_top md s G sig k : 1 <= G -> 1 <= k -> 0 <= sig < 2 ^ k * 2 ^ G ->
  (2 ^ k * 2 ^ G <= sig + rinc md s G -> rnd_div md s sig (2 ^ G) = 2 ^ k) /\
  (sig + rinc md s G < 2 ^ k * 2 ^ G -> rnd_div md s sig (2 ^ G) < 2 ^ k).
Proof.
  intros HG Hk Hs. pose proof (rinc_bounds md s G HG) as RB. pose proof (pow2_pos G ltac:(lia)) as PG. pose proof (pow2_pos k ltac:(lia)) as Pk.
  pose proof (rfin_ok md s G sig ltac:(lia) HG) as RF. unfold rfin in RF.
  assert (LN : forall x b, 0 <= x -> Z.land x (Z.lnot (Z.b2z b)) <= x).
  { intros x [|] Hx; cbn [Z.b2z]; [rewrite land_lnot1; pose proof (Z.mul_div_le x 2 ltac:(lia)); lia|change (Z.lnot 0) with (-1); rewrite Z.land_m1_r; lia]. }
  assert (EVk : Z.even (2 ^ k) = true) by (apply even_pow2; lia).
  assert (Dn : 0 <= Z.shiftr (sig + rinc md s G) G) by (apply Z.shiftr_nonneg; lia).
  split; intros H.
  - assert (Hg : Z.shiftr (sig + rinc md s G) G = 2 ^ k).
    { rewrite Z.shiftr_div_pow2 by lia. symmetry. apply (Z.div_unique _ _ _ (sig + rinc md s G - 2 ^ k * 2 ^ G)); lia. }
    rewrite Hg in RF.
    assert (Ho : is_odd md = false) by (destruct md; try reflexivity; cbn [rinc] in H; lia).
    rewrite Ho, andb_false_r in RF. rewrite <- RF.
    match goal with |- Z.land _ (Z.lnot (Z.b2z ?b)) = _ => destruct b end; cbn [Z.b2z].
    + rewrite land_lnot1. apply Z.even_spec in EVk. destruct EVk as [v Hv]. rewrite Hv. rewrite (Z.mul_comm 2 v), Z.div_mul by lia. lia.
    + change (Z.lnot 0) with (-1). apply Z.land_m1_r.
  - assert (Hg : Z.shiftr (sig + rinc md s G) G < 2 ^ k).
    { rewrite Z.shiftr_div_pow2 by lia. apply Z.div_lt_upper_bound; lia. }
    destruct (negb (Z.land sig (2 ^ G - 1) =? 0) && is_odd md).
    + rewrite lor_1_val in RF by assumption. rewrite <- RF.
      remember (Z.shiftr (sig + rinc md s G) G) as x eqn:Ex. clear Ex RF.
      destruct (Z.even x) eqn:Ev; [|lia]. apply Z.even_spec in EVk. destruct EVk as [v Hv]. apply Z.even_spec in Ev. destruct Ev as [w Hw]. lia.
    + rewrite <- RF. apply Z.le_lt_trans with (2 := Hg). apply LN. assumption.
Qed.

Section Pack.
Context (md : rmode) (odd : bool) (Hodd : md = Odd -> odd = true).
Context (E F U C W : Z).
Context (HW : W = E + F + 1) (HE : 3 <= E <= 15) (HF : 1 <= F) (HU : W <= U) (HC : 16 <= C).
Context (Hpow : exists w, 0 <= w /\ W = 2 ^ w).

Lemma mode_inc (s : bool) :
  (if negb (enum_of md =? softfloat_round_near_even) && negb (enum_of md =? softfloat_round_near_maxMag) then
      if enum_of md =? (if s then softfloat_round_min else softfloat_round_max) then 2 ^ (E - 1) - 1 else 0
    else 2 ^ (E - 1 - 1)) = rinc md s (E - 1).
Proof. destruct md, s; reflexivity. Qed.
Lemma mode_ne : (enum_of md =? softfloat_round_near_even) = is_ne md. Proof. destruct md; reflexivity. Qed.
Lemma mode_odd : odd && (enum_of md =? softfloat_round_odd) = is_odd md.
Proof. destruct md; try apply andb_false_r. now rewrite Hodd. Qed.

(** What the end of softfloat_roundPackToF32 returns. *)
Definition fin_of (s : bool) (exp sig : Z) : option Z :=
  (let roundBits := Z.land sig (2 ^ (E - 1) - 1) in
    let sig := Z.shiftr (uw U (sig + rinc md s (E - 1))) (E - 1) in
    if negb (roundBits =? 0) && is_odd md then Some (packUI E F s exp (Z.lor sig 1))
    else
    let sig := Z.land sig (Z.lnot (Z.b2z ((roundBits =? 2 ^ (E - 1 - 1)) && is_ne md))) in
    let exp := if sig =? 0 then 0 else exp in
    Some (packUI E F s exp sig)).

Lemma finish_round s exp sig :
  0 <= exp -> 0 <= sig < 2 ^ (W - 1) -> (exp = 0 \/ 2 ^ (W - 2) <= sig) ->
  exp * 2 ^ F + rnd_div md s sig (2 ^ (E - 1)) < (2 ^ E - 1) * 2 ^ F ->
  exists r, fin_of s exp sig = Some r /\
  0 <= r < 2 ^ W /\ decode754 E F r = fin754m md E F s (exp + 1 - bias E - F) (rnd_div md s sig (2 ^ (E - 1))).
Proof.
  intros He Hs Hn HT. unfold fin_of. cbv zeta. unfold uw. destruct (sf_EB E ltac:(lia)) as [EB B3].
  pose proof (rinc_bounds md s (E - 1) ltac:(lia)) as RB. pose proof (pow2_pos F ltac:(lia)) as PF.
  pose proof (pow2_pos (E - 1) ltac:(lia)) as PG.
  assert (HUP : 2 * 2 ^ (W - 1) <= 2 ^ U) by (rewrite <- pow2_S by lia; apply pow2_le; lia).
  assert (Hhalf : 2 ^ (E - 1) <= 2 ^ (W - 1)) by (apply pow2_le; lia).
  rewrite (Z.mod_small (sig + _)) by lia.
  pose proof (rfin_ok md s (E - 1) sig ltac:(lia) ltac:(lia)) as RF. unfold rfin in RF.
  assert (Hb : 0 <= rnd_div md s sig (2 ^ (E - 1)) <= 2 ^ (F + 1)).
  { apply rnd_div_bounds; [lia|]. rewrite <- pow2_add by lia. replace (F + 1 + (E - 1)) with (W - 1) by lia. lia. }
  assert (Hb2 : exp = 0 \/ 2 ^ F <= rnd_div md s sig (2 ^ (E - 1))).
  { destruct Hn as [|Hn]; [left; assumption|right]. apply (rnd_div_bounds md s _ _ (2 ^ F) (2 ^ (F + 1))); [lia|].
    rewrite <- !pow2_add by lia. replace (F + 1 + (E - 1)) with (W - 1) by lia. replace (F + (E - 1)) with (W - 2) by lia. lia. }
  remember (rnd_div md s sig (2 ^ (E - 1))) as m eqn:Em.
  assert (HTT : exp * 2 ^ F + m < 2 ^ (E + F)).
  { rewrite pow2_add by lia. clear - HT PF. nia. }
  assert (HT0 : 0 <= exp * 2 ^ F + m) by (clear - He Hb PF; nia).
  assert (R : 0 <= packUI E F s exp m < 2 ^ W /\ decode754 E F (packUI E F s exp m) = fin754m md E F s (exp + 1 - bias E - F) m).
  { rewrite packUI_eq by lia. split; [apply (pack_wf E F U); try assumption; lia|]. rewrite decode754_body by lia. symmetry. apply fin754m_fin.
    rewrite pow2_S in * by lia. destruct (Z.eqb_spec m (2 * 2 ^ F)) as [M|M].
    - assert (exp + 2 < 2 ^ E - 1) by (clear - HT M PF; nia). lia.
    - destruct Hb2 as [->|Hb2]; [lia|]. assert (exp + 1 < 2 ^ E - 1) by (clear - HT Hb2 PF; nia). lia. }
  destruct (negb (Z.land sig (2 ^ (E - 1) - 1) =? 0) && is_odd md).
  - rewrite RF. eexists. split; [reflexivity|exact R].
  - rewrite RF. replace (if m =? 0 then 0 else exp) with exp.
    + eexists. split; [reflexivity|exact R].
    + destruct (Z.eqb_spec m 0); [|reflexivity]. destruct Hb2; lia.
Qed.

(** The significand has its leading one at W-2 and n/d is on the same side of every multiple of half a last place. *)
Lemma roundPackM_gen s exp sig n d : 0 < n -> 0 < d -> - 2 ^ 15 <= exp < 2 ^ 15 ->
  jam (2 * sig) (2 ^ (E - 2)) = jam (2 * n) (d * 2 ^ (E - 2)) -> 2 ^ (W - 2) <= sig < 2 ^ (W - 1) ->
  exists r, roundPackM (enum_of md) odd E F U C s exp sig = Some r /\ 0 <= r < 2 ^ W /\
    decode754 E F r = round754m md E F s n d (exp + 1 - bias E - (W - 2)).
Proof.
  intros Hn Hd He Hsig Hb. destruct (sf_EB E ltac:(lia)) as [EB B3].
  pose proof (pow2_pos F ltac:(lia)) as PF.
  pose proof (pow2_pos (E - 1) ltac:(lia)) as PG. pose proof (pow2_pos (E - 1 - 1) ltac:(lia)) as Ph.
  assert (H16 : 2 ^ 16 <= 2 ^ C) by (apply pow2_le; lia).
  assert (HE15 : 2 ^ E <= 2 ^ 15) by (apply pow2_le; lia).
  change (2 ^ 16) with 65536 in H16. change (2 ^ 15) with 32768 in *.
  pose proof (pow2_pos (E - 2) ltac:(lia)) as P2. pose proof (pow2_pos (W - 2) ltac:(lia)) as PW2.
  assert (HdE : 0 < d * 2 ^ (E - 2)) by (apply Z.mul_pos_pos; lia).
  assert (W1 : 2 ^ (W - 1) = 2 ^ (F + 2) * 2 ^ (E - 2)) by (rewrite <- pow2_add by lia; f_equal; lia).
  assert (W2 : 2 ^ (W - 2) = 2 ^ (F + 1) * 2 ^ (E - 2)) by (rewrite <- pow2_add by lia; f_equal; lia).
  (* bounds on n/d *)
  assert (Hlo : 2 ^ (W - 2) * d <= n).
  { assert (2 ^ (F + 2) * (d * 2 ^ (E - 2)) <= 2 * n).
    { apply jam_ge_inv; try lia. { apply even_pow2. lia. }
      rewrite <- Hsig. apply jam_ge; try lia. rewrite <- W1. replace (W - 1) with (W - 2 + 1) by lia. rewrite pow2_S by lia. lia. }
    rewrite W2. replace (F + 2) with (F + 1 + 1) in H by lia. rewrite (pow2_S (F + 1)) in H by lia. lia. }
  assert (Hhi : n < 2 ^ (W - 1) * d).
  { assert (2 * n < 2 ^ (F + 3) * (d * 2 ^ (E - 2))).
    { apply jam_lt_inv; try lia. rewrite <- Hsig. apply jam_lt; try lia. { apply even_pow2. lia. }
      replace (F + 3) with (F + 2 + 1) by lia. rewrite pow2_S by lia. lia. }
    rewrite W1. replace (F + 3) with (F + 2 + 1) in H by lia. rewrite pow2_S in H by lia. lia. }
  (* what the rounding gives, at q = exp + 1 - bias - F + t *)
  assert (HR : forall t, 0 <= t -> (t = 0 /\ 0 <= exp \/ t = - exp) ->
    round754m md E F s n d (exp + 1 - bias E - (W - 2)) =
    fin754m md E F s (exp + t + 1 - bias E - F) (rnd_div md s sig (2 ^ (t + (E - 1))))).
  { intros t Ht Hc. pose proof (pow2_pos (t + (E - 1)) ltac:(lia)) as Pt.
    assert (EQ : rnd_div md s sig (2 ^ (t + (E - 1))) = rnd_div md s n (d * 2 ^ (t + (E - 1)))).
    { replace (2 ^ (t + (E - 1))) with (2 ^ (E - 2) * 2 ^ (t + 1)) by (rewrite <- pow2_add by lia; f_equal; lia).
      apply rnd_div_near; try assumption; lia. }
    rewrite EQ. apply round754m_char; try lia.
    - replace (exp + t + 1 - bias E - F) with (exp + 1 - bias E - (W - 2) + (t + (E - 1))) by lia.
      apply samev_den. lia.
    - unfold qmin. lia.
    - apply Z.lt_le_trans with (1 := Hhi).
      replace (2 ^ (F + 1) * (d * 2 ^ (t + (E - 1)))) with (2 ^ (F + 1) * 2 ^ (t + (E - 1)) * d) by ring.
      apply Z.mul_le_mono_nonneg_r; [lia|]. rewrite <- pow2_add by lia. apply pow2_le. lia.
    - destruct Hc as [[-> Hc]| ->]; [left|right; unfold qmin; lia].
      replace (2 ^ F * (d * 2 ^ (0 + (E - 1)))) with (2 ^ F * 2 ^ (0 + (E - 1)) * d) by ring.
      rewrite <- pow2_add by lia. replace (F + (0 + (E - 1))) with (W - 2) by lia. lia. }
  assert (HWU : 2 * 2 ^ (W - 1) <= 2 ^ W) by (rewrite <- pow2_S by lia; apply pow2_le; lia).
  assert (HUP : 2 * 2 ^ (W - 1) <= 2 ^ U) by (rewrite <- pow2_S by lia; apply pow2_le; lia).
  pose proof (rinc_bounds md s (E - 1) ltac:(lia)) as RB.
  assert (Hhalf : 2 ^ (E - 1) <= 2 ^ (W - 1)) by (apply pow2_le; lia).
  (* the ordinary path *)
  assert (Hord : 0 <= exp -> exp * 2 ^ F + rnd_div md s sig (2 ^ (E - 1)) < (2 ^ E - 1) * 2 ^ F ->
    exists r, fin_of s exp sig = Some r /\
      0 <= r < 2 ^ W /\ decode754 E F r = round754m md E F s n d (exp + 1 - bias E - (W - 2))).
  { intros Hexp HT.
    destruct (finish_round s exp sig Hexp ltac:(lia) ltac:(right; lia) HT) as (r & K0 & K1 & K2). exists r. split; [exact K0|]. split; [exact K1|].
    rewrite K2, (HR 0) by lia. rewrite Z.add_0_r. reflexivity. }
  assert (Hrb : rnd_div md s sig (2 ^ (E - 1)) <= 2 ^ (F + 1)).
  { apply (rnd_div_bounds md s _ _ 0); [lia|]. rewrite <- pow2_add by lia. replace (F + 1 + (E - 1)) with (W - 1) by lia. lia. }
  rewrite pow2_S in Hrb by lia.
  unfold roundPackM. cbv zeta. rewrite mode_inc, mode_odd, mode_ne.
  destruct (Z.leb_spec (2 ^ E - 1 - 2) (exp mod 2 ^ C)) as [Hbig|Hsmall].
  - destruct (Z.ltb_spec exp 0) as [Hneg|Hpos].
    + rewrite (shiftRightJam_eq E F W) by (assumption || lia).
      assert (Hrj : rnd_div md s (jam sig (2 ^ (- exp))) (2 ^ (E - 1)) = rnd_div md s sig (2 ^ (- exp + (E - 1)))).
      { rewrite pow2_add by lia. symmetry. apply rnd_div_jam; try lia; apply pow2_pos; lia. }
      assert (Hj1 : 0 <= jam sig (2 ^ (- exp))) by (apply jam_nonneg; [lia|apply pow2_pos; lia]).
      assert (Hj2 : jam sig (2 ^ (- exp)) < 2 ^ (W - 1)).
      { apply jam_lt; [lia|apply pow2_pos; lia|apply even_pow2; lia|].
        pose proof (pow2_pos (- exp) ltac:(lia)). clear - Hb H. nia. }
      assert (HT : 0 * 2 ^ F + rnd_div md s (jam sig (2 ^ (- exp))) (2 ^ (E - 1)) < (2 ^ E - 1) * 2 ^ F).
      { assert (rnd_div md s (jam sig (2 ^ (- exp))) (2 ^ (E - 1)) <= 2 ^ (F + 1)).
        { apply (rnd_div_bounds md s _ _ 0); [lia|]. rewrite <- pow2_add by lia. replace (F + 1 + (E - 1)) with (W - 1) by lia. lia. }
        rewrite pow2_S in H by lia. clear - H PF EB B3. nia. }
      destruct (finish_round s 0 _ ltac:(lia) (conj Hj1 Hj2) ltac:(left; reflexivity) HT) as (r & K0 & K1 & K2).
      exists r. split; [exact K0|]. split; [exact K1|]. rewrite K2, Hrj. rewrite (HR (- exp)) by lia. f_equal. lia.
    + rewrite Z.mod_small in Hbig by lia. replace (E + F + 1 - 1) with (W - 1) by lia.
      assert (WT : 2 ^ (W - 1) = 2 ^ (F + 1) * 2 ^ (E - 1)) by (rewrite <- pow2_add by lia; f_equal; lia).
      destruct (rnd_top md s (E - 1) sig (F + 1) ltac:(lia) ltac:(lia) ltac:(lia)) as [T1 T2]. rewrite <- WT in T1, T2.
      assert (EU : uw U (sig + rinc md s (E - 1)) = sig + rinc md s (E - 1)) by (unfold uw; rewrite Z.mod_small; lia).
      destruct ((2 ^ E - 1 - 2 <? exp) || (2 ^ (W - 1) <=? uw U (sig + rinc md s (E - 1)))) eqn:Hov; rewrite EU in Hov; clear EU.
      * (* overflow *)
        eexists. split; [reflexivity|].
        assert (VAL : round754m md E F s n d (exp + 1 - bias E - (W - 2)) = overflow754 md E F s).
        { rewrite (HR 0) by lia. unfold fin754m.
          replace (0 + (E - 1)) with (E - 1) by lia. rewrite (pow2_S F) by lia.
          assert (Hm1 : 2 ^ F <= rnd_div md s sig (2 ^ (E - 1))).
          { apply (rnd_div_bounds md s _ _ (2 ^ F) (2 ^ (F + 1))); [lia|].
            rewrite <- !pow2_add by lia. replace (F + 1 + (E - 1)) with (W - 1) by lia. replace (F + (E - 1)) with (W - 2) by lia. lia. }
          replace (rnd_div md s sig (2 ^ (E - 1)) =? 0) with false by (symmetry; apply Z.eqb_neq; lia).
          match goal with |- (if ?b <? ?x then _ else _) = _ => replace (b <? x) with true; [reflexivity|] end.
          symmetry. apply Z.ltb_lt. apply orb_true_iff in Hov. destruct Hov as [Hov|Hov].
          - apply Z.ltb_lt in Hov. destruct (_ =? 2 * 2 ^ F); lia.
          - apply Z.leb_le in Hov. rewrite (T1 Hov), pow2_S, Z.eqb_refl by lia. lia. }
        rewrite VAL.
        assert (HT : (2 ^ E - 1) * 2 ^ F + 0 < 2 ^ (E + F)) by (rewrite pow2_add by lia; clear - PF; nia).
        assert (HT0 : 0 <= (2 ^ E - 1) * 2 ^ F + 0) by (clear - PF EB B3; nia).
        rewrite packUI_eq by lia. pose proof (pack_wf E F U W HW ltac:(lia) HF HU Hpow s _ (conj HT0 HT)) as PW.
        assert (HWU' : 2 ^ W <= 2 ^ U) by (apply pow2_le; lia). unfold uw.
        assert (IN : 0 < rinc md s (E - 1) -> overflow754 md E F s = Inf s) by (unfold rinc, overflow754; destruct md, s; intros; reflexivity || lia).
        assert (FI : rinc md s (E - 1) = 0 -> overflow754 md E F s = Num s (2 ^ (F + 1) - 1) (bias E - F)).
        { assert (2 ^ (E - 1) = 2 * 2 ^ (E - 1 - 1)) by (rewrite <- pow2_S by lia; f_equal; lia).
          unfold rinc, overflow754; destruct md, s; intros; reflexivity || lia. }
        destruct (Z.eqb_spec (rinc md s (E - 1)) 0) as [I0|I0]; cbn [Z.b2z].
        -- replace (Z.b2z s * 2 ^ (E + F) + ((2 ^ E - 1) * 2 ^ F + 0) - 1) with (Z.b2z s * 2 ^ (E + F) + ((2 ^ E - 2) * 2 ^ F + (2 ^ F - 1))) by ring.
           assert (K0 : 0 <= (2 ^ E - 2) * 2 ^ F + (2 ^ F - 1) < 2 ^ (E + F)) by (split; [clear - PF EB B3; nia|lia]).
           pose proof (pack_wf E F U W HW ltac:(lia) HF HU Hpow s _ K0) as PW'.
           rewrite Z.mod_small by lia. split; [exact PW'|]. rewrite decode754_fields by lia.
           replace (2 ^ E - 2 =? 2 ^ E - 1) with false by (symmetry; apply Z.eqb_neq; lia).
           replace (2 ^ E - 2 =? 0) with false by (symmetry; apply Z.eqb_neq; lia).
           rewrite (FI I0), pow2_S by lia. f_equal; lia.
        -- rewrite Z.sub_0_r, Z.mod_small by lia. split; [exact PW|].
           rewrite decode754_fields by lia. rewrite Z.eqb_refl. cbn [Z.eqb]. symmetry. apply IN. lia.
      * apply orb_false_iff in Hov. destruct Hov as [Ho1 Ho2]. apply Z.ltb_ge in Ho1. apply Z.leb_gt in Ho2.
        apply (Hord Hpos). specialize (T2 Ho2). rewrite pow2_S in T2 by lia. clear - Ho1 T2 PF. nia.
  - assert (Hexp : 0 <= exp).
    { destruct (Z_lt_ge_dec exp 0) as [Hneg|]; [exfalso|lia].
      assert (exp mod 2 ^ C = exp + 2 ^ C) by (symmetry; apply (Z.mod_unique _ _ (-1)); lia). lia. }
    rewrite Z.mod_small in Hsmall by lia. apply (Hord Hexp). clear - Hsmall Hrb PF. nia.
Qed.

(** The value rounded is jam n d * 2^sd. *)
Lemma roundPackM_ok s exp sig n d sd : 0 < n -> 0 < d -> 0 <= sd <= E - 3 -> - 2 ^ 15 <= exp < 2 ^ 15 ->
  sig = jam n d * 2 ^ sd -> 2 ^ (W - 2) <= sig < 2 ^ (W - 1) ->
  exists r, roundPackM (enum_of md) odd E F U C s exp sig = Some r /\ 0 <= r < 2 ^ W /\
    decode754 E F r = round754m md E F s n d (exp + 1 - bias E - (W - 2) + sd).
Proof.
  intros Hn Hd Hsd He Hsig Hb. pose proof (pow2_pos sd ltac:(lia)) as PS.
  assert (Hn' : 0 < n * 2 ^ sd) by (apply Z.mul_pos_pos; lia).
  destruct (roundPackM_gen s exp sig (n * 2 ^ sd) d Hn' Hd He) as (r & R1 & R2 & R3); [|assumption|].
  - pose proof (jam_nonneg n d ltac:(lia) Hd) as Jn.
    replace (2 ^ (E - 2)) with (2 ^ (E - 3 - sd) * (2 * 2 ^ sd))
      by (rewrite <- pow2_S, <- pow2_add by lia; f_equal; lia).
    pose proof (pow2_pos (E - 3 - sd) ltac:(lia)).
    replace (2 * sig) with (jam n d * (2 * 2 ^ sd)) by lia. rewrite jam_scale by lia.
    replace (2 * (n * 2 ^ sd)) with (n * (2 * 2 ^ sd)) by ring.
    rewrite (Z.mul_assoc d), jam_scale by (try apply Z.mul_pos_pos; lia). apply jam_jam; lia.
  - exists r. split; [exact R1|]. split; [exact R2|]. rewrite R3.
    replace (exp + 1 - bias E - (W - 2)) with (exp + 1 - bias E - (W - 2) + sd - sd) at 1 by lia.
    symmetry. apply round754m_same; try lia. apply samev_num. lia.
Qed.
End Pack.
