(** The flags of the operations on every pair of words, in every rounding mode. Follows FlagProofs4.v. *)
From Coq Require Import ZArith Bool Lia Reals Lra.
From Flocq Require Import Core.
From Verif Require Import Spec Spec754 Spec754Mode Fw FwLemmas SpecLemmas ValueLemmas Sf754Lemmas SpecFlocq SpecReal SpecFlocq754Mode SoftFloat SfProofs1 SfProofs2 SfProofs3 SfProofs4 SfProofs5 SfProofs6 SfProofs8 SfProofs9 SfProofs10 SoftFloatMode SpecSfMode SoftFloatFlags SpecFlags SoftFloatFlagsMode SpecFlagsMode SpecFlocq754Mode FlagProofs1 FlagmProofs1 FlagmProofs2 FlagmProofs3.
Open Scope Z_scope.

Section Ops.
Context (md : rmode) (odd : bool).
Context (E F U C W : Z).
Context (HW : W = E + F + 1) (HE : 4 <= E <= 15) (HF : 1 <= F) (HU : W <= U) (HC : 16 <= C) (H64 : W <= 64).
Context (Hpow : exists w, 0 <= w /\ W = 2 ^ w) (HE14 : E <= 14).

(** A word is a NaN, an infinity, zero or a number that is not zero. *)
Lemma word_class s e f : 0 <= e < 2 ^ E -> 0 <= f < 2 ^ F ->
  (e = 2 ^ E - 1 /\ f <> 0 /\ decode754 E F (word E F s e f) = NaN) \/
  (e = 2 ^ E - 1 /\ f = 0 /\ decode754 E F (word E F s e f) = Inf s /\ ~ signalling E F (word E F s e f)) \/
  (e < 2 ^ E - 1 /\ e = 0 /\ f = 0 /\ decode754 E F (word E F s e f) = Zero s /\ ~ signalling E F (word E F s e f)) \/
  (e < 2 ^ E - 1 /\ (e =? 0) && (f =? 0) = false /\ (exists m q, decode754 E F (word E F s e f) = Num s m q) /\ ~ signalling E F (word E F s e f)).
Proof.
  intros He Hf. rewrite (signalling_word E F HE HF) by assumption. rewrite decode_word by lia.
  destruct (Z.eqb_spec e (2 ^ E - 1)) as [EX|EX].
  - destruct (Z.eqb_spec f 0) as [F0|F0]; [right; left|left]; repeat split; try assumption; lia.
  - right. right. destruct (Z.eqb_spec e 0) as [E0|E0]; [destruct (Z.eqb_spec f 0) as [F0|F0]|].
    + left. repeat split; try assumption; lia.
    + right. cbn [andb]. repeat split; try reflexivity; try lia. eexists _, _. reflexivity.
    + right. cbn [andb]. repeat split; try reflexivity; try lia. eexists _, _. reflexivity.
Qed.

Definition okopm (o : option (Z * Z)) (inv dz ex : Prop) (x : R) : Prop :=
  exists r fl, o = Some (r, fl) /\ signalsm md E F inv dz ex x fl /\ inexact_overflow fl.
Lemma okop_exact_m o (inv dz ex : Prop) x : okfm md E F o x -> ~ inv -> ~ dz -> ex -> okopm o inv dz ex x.
Proof. intros (r & fl & H1 & H2) HI HD HX. exists r, fl. split; [exact H1|]. apply signals_exact_m; assumption. Qed.
Lemma okop_none_m r (inv dz ex : Prop) x : ~ inv -> ~ dz -> ~ ex -> okopm (Some (r, 0)) inv dz ex x.
Proof. intros. eexists _, _. split; [reflexivity|]. apply signals_none_m; assumption. Qed.
Lemma okop_invalid_m r (inv dz ex : Prop) x : inv -> ~ dz -> ~ ex -> okopm (Some (r, softfloat_flag_invalid)) inv dz ex x.
Proof. intros. eexists _, _. split; [reflexivity|]. apply signals_invalid_m; assumption. Qed.
Lemma okop_divzero_m r (inv dz ex : Prop) x : ~ inv -> dz -> ~ ex -> okopm (Some (r, softfloat_flag_infinite)) inv dz ex x.
Proof. intros. eexists _, _. split; [reflexivity|]. apply signals_divzero_m; assumption. Qed.

(** The same, case by case. *)
Lemma c_nan s f : 0 <= f < 2 ^ F -> f <> 0 -> decode754 E F (word E F s (2 ^ E - 1) f) = NaN.
Proof. intros Hf F0. destruct (sf_EB E ltac:(lia)) as [EB B3]. apply decode_nan_word; lia. Qed.
Lemma c_inf s : decode754 E F (word E F s (2 ^ E - 1) 0) = Inf s /\ ~ signalling E F (word E F s (2 ^ E - 1) 0).
Proof.
  destruct (sf_EB E ltac:(lia)) as [EB B3]. pose proof (pow2_pos F ltac:(lia)).
  destruct (word_class s (2 ^ E - 1) 0 ltac:(lia) ltac:(lia)) as [H1|[H1|[H1|H1]]]; decompose [and] H1; try lia. split; assumption.
Qed.
Lemma c_fin s e f : 0 <= e < 2 ^ E - 1 -> 0 <= f < 2 ^ F ->
  exists v, decode754 E F (word E F s e f) = v /\ is_value v /\ ~ signalling E F (word E F s e f).
Proof.
  intros He Hf. destruct (word_class s e f ltac:(lia) ltac:(lia)) as [H1|[H1|[(_ & _ & _ & H1 & H2)|(_ & _ & (m & q & H1) & H2)]]]; try lia.
  - eexists. split; [exact H1|]. split; [exact I|exact H2].
  - eexists. split; [exact H1|]. split; [exact I|exact H2].
Qed.
Lemma c_zero s e f : 0 <= e < 2 ^ E - 1 -> 0 <= f < 2 ^ F -> (e =? 0) && (f =? 0) = true ->
  decode754 E F (word E F s e f) = Zero s /\ ~ signalling E F (word E F s e f).
Proof.
  intros He Hf H. destruct (word_class s e f ltac:(lia) ltac:(lia)) as [H1|[H1|[(_ & _ & _ & H1 & H2)|(_ & K & _ & _)]]]; try lia.
  split; assumption.
Qed.
Lemma c_num s e f : 0 <= e < 2 ^ E - 1 -> 0 <= f < 2 ^ F -> (e =? 0) && (f =? 0) = false ->
  (exists m q, decode754 E F (word E F s e f) = Num s m q) /\ ~ signalling E F (word E F s e f).
Proof.
  intros He Hf H. destruct (word_class s e f ltac:(lia) ltac:(lia)) as [H1|[H1|[(_ & K1 & K2 & H1 & H2)|(_ & K & H1 & H2)]]]; try lia.
  all: first [split; assumption|subst e f; discriminate].
Qed.

(** The claims about the operands, from what they decode to. *)
Ltac split_inv := repeat match goal with
  | H : _ \/ _ |- _ => destruct H
  | H : exists _, _ |- _ => destruct H
  | H : _ /\ _ |- _ => destruct H
  end.
Ltac shape := repeat match goal with H : _ <= _ < _ |- _ => clear H | H : _ \/ _ |- _ => clear H | H : exists _, _ |- _ => clear H | H : _ <= _ <= _ |- _ => clear H end; unfold add_invalid, mul_invalid, div_invalid, div_by_zero, finite;
  repeat match goal with H : decode754 _ _ ?w = _ |- _ => rewrite !H; clear H end; cbn [is_value];
  first [ solve [intros ?K; split_inv; (contradiction || discriminate || congruence)]
        | solve [split; intros ?K; split_inv; (discriminate || congruence || contradiction || (left; assumption) || (right; left; assumption) || (right; assumption))]
        | solve [right; right; eexists; split; reflexivity]
        | solve [right; right; do 2 eexists; left; split; reflexivity]
        | solve [right; right; do 2 eexists; right; split; reflexivity]
        | solve [do 4 eexists; split; reflexivity] ].

Lemma SHL x k : 0 <= x < 2 ^ F -> 0 <= k < E -> ushl U x k = Some (x * 2 ^ k).
Proof.
  intros Hx Hk. pose proof (pow2_pos k ltac:(lia)). pose proof (U_W U W HU) as UW.
  assert (x * 2 ^ k < 2 ^ F * 2 ^ k) by (apply Z.mul_lt_mono_pos_r; lia). assert (2 ^ F * 2 ^ k < 2 ^ W) by (rewrite <- pow2_add by lia; apply pow2_lt; lia).
  apply ushl_ok; [lia|]. split; [apply Z.mul_nonneg_nonneg; lia|lia].
Qed.
Section Special.
Context (s : bool) (e f : Z) (t : bool) (e' g : Z).
Context (He : 0 <= e < 2 ^ E) (Hf : 0 <= f < 2 ^ F) (He' : 0 <= e' < 2 ^ E) (Hg : 0 <= g < 2 ^ F).
Context (SP : e = 2 ^ E - 1 \/ e' = 2 ^ E - 1).
Let A := word E F s e f.
Let B := word E F t e' g.

Lemma prop_ok_m (inv dz ex : Prop) x : (inv <-> signalling E F A \/ signalling E F B) -> ~ dz -> ~ ex ->
  okopm (Some (propagateNaNF E F A B)) inv dz ex x.
Proof. intros. apply (prop_flags_m md E F W HW HE HF H64 _ _ s e f t e' g); try assumption; reflexivity. Qed.
End Special.

Lemma addMagsFM_special quick s e f e' g : 0 <= e < 2 ^ E -> 0 <= f < 2 ^ F -> 0 <= e' < 2 ^ E -> 0 <= g < 2 ^ F -> e = 2 ^ E - 1 \/ e' = 2 ^ E - 1 ->
  okopm (addMagsFM (enum_of md) odd E F U C quick (word E F s e f) (word E F s e' g)) (add_invalid E F (word E F s e f) (word E F s e' g)) False
  (finite E F (word E F s e f) /\ finite E F (word E F s e' g)) (value E F (word E F s e f) + value E F (word E F s e' g)).
Proof.
  intros He Hf He' Hg SP. destruct (sf_EB E ltac:(lia)) as [EB B3]. unfold addMagsFM. cbv zeta. rewrite !expUI_word, !fracUI_word, !signUI_word by lia.
  rewrite !(SHL f), !(SHL g) by lia. cbn [bind]. rewrite !shl_zero, lor_zero by lia.
  destruct (Z.eqb_spec (e - e') 0) as [D0|D0].
  - assert (e' = 2 ^ E - 1) by lia. assert (e = 2 ^ E - 1) by lia. subst e e'. replace (2 ^ E - 1 =? 0) with false by (symmetry; apply Z.eqb_neq; lia). rewrite Z.eqb_refl.
    destruct (Z.eqb_spec f 0) as [F0|F0], (Z.eqb_spec g 0) as [G0|G0]; cbn [andb negb].
    + subst f g. destruct (c_inf s) as [D N]. apply okop_none_m; [intros [K|[K|(u & K1 & K2)]]; [exact (N K)|exact (N K)|rewrite D in K1, K2; injection K1 as K1; injection K2 as K2; rewrite K1 in K2; destruct u; discriminate]|intros []|shape].
    + subst f. destruct (c_inf s) as [D N]. pose proof (c_nan s g Hg G0) as D2. apply prop_ok_m; try assumption; [shape|intros []|shape].
    + subst g. destruct (c_inf s) as [D N]. pose proof (c_nan s f Hf F0) as D2. apply prop_ok_m; try assumption; [shape|intros []|shape].
    + pose proof (c_nan s f Hf F0) as D1. pose proof (c_nan s g Hg G0) as D2. apply prop_ok_m; try assumption; [shape|intros []|shape].
  - destruct (Z.ltb_spec (e - e') 0) as [L|L].
    + assert (e' = 2 ^ E - 1) by lia. subst e'. rewrite Z.eqb_refl. destruct (c_fin s e f ltac:(lia) Hf) as (v & D & IV & N).
      destruct (Z.eqb_spec g 0) as [G0|G0]; cbn [negb].
      * subst g. destruct (c_inf s) as [D2 N2]. destruct v; try contradiction; (apply okop_none_m; [shape|intros []|shape]).
      * pose proof (c_nan s g Hg G0) as D2. destruct v; try contradiction; (apply prop_ok_m; try assumption; [shape|intros []|shape]).
    + assert (e = 2 ^ E - 1) by lia. subst e. rewrite Z.eqb_refl. destruct (c_fin s e' g ltac:(lia) Hg) as (v & D & IV & N).
      destruct (Z.eqb_spec f 0) as [G0|G0]; cbn [negb].
      * subst f. destruct (c_inf s) as [D2 N2]. destruct v; try contradiction; (apply okop_none_m; [shape|intros []|shape]).
      * pose proof (c_nan s f Hf G0) as D2. destruct v; try contradiction; (apply prop_ok_m; try assumption; [shape|intros []|shape]).
Qed.
Lemma subMagsFM_special s e f e' g : 0 <= e < 2 ^ E -> 0 <= f < 2 ^ F -> 0 <= e' < 2 ^ E -> 0 <= g < 2 ^ F -> e = 2 ^ E - 1 \/ e' = 2 ^ E - 1 ->
  okopm (subMagsFM (enum_of md) odd E F U C (word E F s e f) (word E F (negb s) e' g)) (add_invalid E F (word E F s e f) (word E F (negb s) e' g)) False
  (finite E F (word E F s e f) /\ finite E F (word E F (negb s) e' g)) (value E F (word E F s e f) + value E F (word E F (negb s) e' g)).
Proof.
  intros He Hf He' Hg SP. destruct (sf_EB E ltac:(lia)) as [EB B3]. unfold subMagsFM. cbv zeta. rewrite !expUI_word, !fracUI_word, !signUI_word by lia.
  rewrite !(SHL f), !(SHL g) by lia. cbn [bind]. rewrite !shl_zero, lor_zero by lia.
  destruct (Z.eqb_spec (e - e') 0) as [D0|D0].
  - assert (e' = 2 ^ E - 1) by lia. assert (e = 2 ^ E - 1) by lia. subst e e'. rewrite Z.eqb_refl.
    destruct (Z.eqb_spec f 0) as [F0|F0], (Z.eqb_spec g 0) as [G0|G0]; cbn [andb negb].
    + subst f g. destruct (c_inf s) as [D N]. destruct (c_inf (negb s)) as [D2 N2]. apply okop_invalid_m; [shape|intros []|shape].
    + subst f. destruct (c_inf s) as [D N]. pose proof (c_nan (negb s) g Hg G0) as D2. apply prop_ok_m; try assumption; [shape|intros []|shape].
    + subst g. destruct (c_inf (negb s)) as [D N]. pose proof (c_nan s f Hf F0) as D2. apply prop_ok_m; try assumption; [shape|intros []|shape].
    + pose proof (c_nan s f Hf F0) as D1. pose proof (c_nan (negb s) g Hg G0) as D2. apply prop_ok_m; try assumption; [shape|intros []|shape].
  - destruct (Z.ltb_spec (e - e') 0) as [L|L].
    + assert (e' = 2 ^ E - 1) by lia. subst e'. rewrite Z.eqb_refl. destruct (c_fin s e f ltac:(lia) Hf) as (v & D & IV & N).
      destruct (Z.eqb_spec g 0) as [G0|G0]; cbn [negb].
      * subst g. destruct (c_inf (negb s)) as [D2 N2]. destruct v; try contradiction; (apply okop_none_m; [shape|intros []|shape]).
      * pose proof (c_nan (negb s) g Hg G0) as D2. destruct v; try contradiction; (apply prop_ok_m; try assumption; [shape|intros []|shape]).
    + assert (e = 2 ^ E - 1) by lia. subst e. rewrite Z.eqb_refl. destruct (c_fin (negb s) e' g ltac:(lia) Hg) as (v & D & IV & N).
      destruct (Z.eqb_spec f 0) as [G0|G0]; cbn [negb].
      * subst f. destruct (c_inf s) as [D2 N2]. destruct v; try contradiction; (apply okop_none_m; [shape|intros []|shape]).
      * pose proof (c_nan s f Hf G0) as D2. destruct v; try contradiction; (apply prop_ok_m; try assumption; [shape|intros []|shape]).
Qed.

Lemma sf_addFM_ok quick a b : 0 <= a < 2 ^ W -> 0 <= b < 2 ^ W ->
  okopm (sf_addFM (enum_of md) odd E F U C quick a b) (add_invalid E F a b) False (finite E F a /\ finite E F b) (value E F a + value E F b).
Proof.
  intros Ha Hb. rewrite HW in Ha, Hb.
  destruct (word_split E F ltac:(lia) HF a Ha) as (s & e & f & -> & He & Hf).
  destruct (word_split E F ltac:(lia) HF b Hb) as (t & e' & g & -> & He' & Hg).
  unfold sf_addFM. rewrite signUI_lxor by assumption.
  assert (CC : (e < 2 ^ E - 1 /\ e' < 2 ^ E - 1) \/ (e = 2 ^ E - 1 \/ e' = 2 ^ E - 1)) by lia. destruct CC as [[LA LB]|SP].
  - destruct (c_fin s e f ltac:(lia) Hf) as (v & D & IV & N). destruct (c_fin t e' g ltac:(lia) Hg) as (v' & D' & IV' & N').
    assert (HFIN : finite E F (word E F s e f) /\ finite E F (word E F t e' g)) by (unfold finite; rewrite D, D'; split; assumption).
    apply okop_exact_m; [|destruct v, v'; try contradiction; shape|intros []|exact HFIN]. clear D D' N N'.
    unfold value. rewrite !(rv_word E F HE HF) by lia.
    destruct (xorb s t) eqn:X.
    + assert (t = negb s) by (destruct s, t; try discriminate; reflexivity). subst t. apply (subMagsFM_fin md odd E F U C W); try assumption; lia.
    + assert (t = s) by (destruct s, t; try discriminate; reflexivity). subst t. apply (addMagsFM_fin md odd E F U C W); try assumption; lia.
  - destruct (xorb s t) eqn:X.
    + assert (t = negb s) by (destruct s, t; try discriminate; reflexivity). subst t. apply subMagsFM_special; assumption.
    + assert (t = s) by (destruct s, t; try discriminate; reflexivity). subst t. apply addMagsFM_special; assumption.
Qed.

Section Mul.
Context (mulsig : Z -> Z -> option Z).
Context (Hms : forall a b, 2 ^ F <= a < 2 ^ (F + 1) -> 2 ^ F <= b < 2 ^ (F + 1) -> mulsig a b = Some (jam (a * b * 2 ^ (2 * E - 1)) (2 ^ W))).
Lemma sf_mulFM_ok a b : 0 <= a < 2 ^ W -> 0 <= b < 2 ^ W ->
  okopm (sf_mulFM (enum_of md) odd E F U C mulsig a b) (mul_invalid E F a b) False (finite E F a /\ finite E F b) (value E F a * value E F b).
Proof.
  intros Ha Hb. rewrite HW in Ha, Hb.
  destruct (word_split E F ltac:(lia) HF a Ha) as (s & e & f & -> & He & Hf).
  destruct (word_split E F ltac:(lia) HF b Hb) as (t & e' & g & -> & He' & Hg).
  assert (CC : (e < 2 ^ E - 1 /\ e' < 2 ^ E - 1) \/ (e = 2 ^ E - 1 \/ e' = 2 ^ E - 1)) by lia. destruct CC as [[LA LB]|SP].
  { destruct (c_fin s e f ltac:(lia) Hf) as (v & D & IV & N). destruct (c_fin t e' g ltac:(lia) Hg) as (v' & D' & IV' & N').
    assert (HFIN : finite E F (word E F s e f) /\ finite E F (word E F t e' g)) by (unfold finite; rewrite D, D'; split; assumption).
    apply okop_exact_m; [|destruct v, v'; try contradiction; shape|intros []|exact HFIN]. clear D D' N N'.
    unfold value. apply (sf_mulFM_fin md odd E F U C W); try assumption; lia. }
  destruct (sf_EB E ltac:(lia)) as [EB B3]. unfold sf_mulFM. cbv zeta. rewrite !expUI_word, !fracUI_word, !signUI_word by lia. rewrite !lor_zero by lia.
  destruct (Z.eqb_spec e (2 ^ E - 1)) as [EX|EX].
  - subst e. destruct (Z.eqb_spec f 0) as [F0|F0]; cbn [negb orb].
    + subst f. destruct (c_inf s) as [D N]. destruct (Z.eqb_spec e' (2 ^ E - 1)) as [EY|EY]; cbn [andb].
      * subst e'. replace (2 ^ E - 1 =? 0) with false by (symmetry; apply Z.eqb_neq; lia). destruct (Z.eqb_spec g 0) as [G0|G0]; cbn [negb andb].
        -- subst g. destruct (c_inf t) as [D2 N2]. apply okop_none_m; [shape|intros []|shape].
        -- pose proof (c_nan t g Hg G0) as D2. apply prop_ok_m; try assumption; [shape|intros []|shape].
      * destruct ((e' =? 0) && (g =? 0)) eqn:Z0.
        -- destruct (c_zero t e' g ltac:(lia) Hg Z0) as [D2 N2]. apply okop_invalid_m; [shape|intros []|shape].
        -- destruct (c_num t e' g ltac:(lia) Hg Z0) as [(m & q & D2) N2]. apply okop_none_m; [shape|intros []|shape].
    + pose proof (c_nan s f Hf F0) as D. assert (CB : e' = 2 ^ E - 1 \/ e' < 2 ^ E - 1) by lia. destruct CB as [CB|CB].
      * subst e'. destruct (Z.eq_dec g 0) as [G0|G0].
        -- subst g. destruct (c_inf t) as [D2 N2]. apply prop_ok_m; try assumption; [shape|intros []|shape].
        -- pose proof (c_nan t g Hg G0) as D2. apply prop_ok_m; try assumption; [shape|intros []|shape].
      * destruct (c_fin t e' g ltac:(lia) Hg) as (v & D2 & IV & N). destruct v; try contradiction; (apply prop_ok_m; try assumption; [shape|intros []|shape]).
  - destruct (Z.eqb_spec e' (2 ^ E - 1)) as [EY|EY]; [|lia]. subst e'. destruct (c_fin s e f ltac:(lia) Hf) as (v & D & IV & N).
    destruct (Z.eqb_spec g 0) as [G0|G0]; cbn [negb].
    + subst g. destruct (c_inf t) as [D2 N2]. destruct ((e =? 0) && (f =? 0)) eqn:Z0.
      * destruct (c_zero s e f ltac:(lia) Hf Z0) as [D3 N3]. clear D. apply okop_invalid_m; [shape|intros []|shape].
      * destruct (c_num s e f ltac:(lia) Hf Z0) as [(m & q & D3) N3]. clear D. apply okop_none_m; [shape|intros []|shape].
    + pose proof (c_nan t g Hg G0) as D2. destruct v; try contradiction; (apply prop_ok_m; try assumption; [shape|intros []|shape]).
Qed.
End Mul.

Section Div.
Context (divsig : Z -> Z -> option Z).
Context (Hds : forall a b, 2 ^ F <= a < 2 ^ (F + 1) -> 2 ^ F <= b < 2 ^ (F + 1) ->
  exists r, divsig a b = Some r /\ 2 ^ (W - 2) <= r < 2 ^ (W - 1) /\
    jam (2 * r) (2 ^ (E - 2)) = jam (2 * div_num W a b) (b * 2 ^ (E - 2))).
Lemma rv_num_neq s e f m q : 0 <= e < 2 ^ E - 1 -> 0 <= f < 2 ^ F -> decode754 E F (word E F s e f) = Num s m q -> value E F (word E F s e f) <> 0%R.
Proof.
  intros He Hf D. unfold value. rewrite D, rv_sgn. rewrite decode_fin in D by lia. unfold fin_val in D.
  destruct (_ =? 0) eqn:Q in D; [discriminate|]. apply Z.eqb_neq in Q. injection D as <- <-.
  assert (IZR (if e =? 0 then f else 2 ^ F + f) <> 0)%R by (apply IZR_neq; exact Q). pose proof (bpow_gt_0 radix2 ((if e =? 0 then 1 else e) - bias E - F)).
  assert (IZR (if e =? 0 then f else 2 ^ F + f) * bpow radix2 ((if e =? 0 then 1 else e) - bias E - F) <> 0)%R by (apply Rmult_integral_contrapositive_currified; lra).
  destruct s; cbn [sgnR]; lra.
Qed.
Lemma sf_divFM_ok a b : 0 <= a < 2 ^ W -> 0 <= b < 2 ^ W ->
  okopm (sf_divFM (enum_of md) odd E F U C divsig a b) (div_invalid E F a b) (div_by_zero E F a b) (finite E F a /\ finite E F b /\ value E F b <> 0%R) (value E F a / value E F b).
Proof.
  intros Ha Hb. rewrite HW in Ha, Hb.
  destruct (word_split E F ltac:(lia) HF a Ha) as (s & e & f & -> & He & Hf).
  destruct (word_split E F ltac:(lia) HF b Hb) as (t & e' & g & -> & He' & Hg).
  destruct (sf_EB E ltac:(lia)) as [EB B3].
  assert (CC : (e < 2 ^ E - 1 /\ e' < 2 ^ E - 1) \/ (e = 2 ^ E - 1 \/ e' = 2 ^ E - 1)) by lia. destruct CC as [[LA LB]|SP].
  { destruct (c_fin s e f ltac:(lia) Hf) as (v & D & IV & N). destruct (c_fin t e' g ltac:(lia) Hg) as (v' & D' & IV' & N').
    destruct ((e' =? 0) && (g =? 0)) eqn:Z1.
    - destruct (c_zero t e' g ltac:(lia) Hg Z1) as [D2 _]. clear D' IV' v'.
      assert (V0 : ~ (finite E F (word E F s e f) /\ finite E F (word E F t e' g) /\ value E F (word E F t e' g) <> 0%R)).
      { intros (_ & _ & K). apply K. unfold value. rewrite D2. reflexivity. }
      unfold sf_divFM. cbv zeta. rewrite !expUI_word, !fracUI_word, !signUI_word by lia. rewrite lor_zero by lia.
      replace (e =? 2 ^ E - 1) with false by (symmetry; apply Z.eqb_neq; lia). replace (e' =? 2 ^ E - 1) with false by (symmetry; apply Z.eqb_neq; lia).
      rewrite Z1. destruct ((e =? 0) && (f =? 0)) eqn:Z0.
      + destruct (c_zero s e f ltac:(lia) Hf Z0) as [D3 _]. clear D. apply okop_invalid_m; [shape|shape|exact V0].
      + destruct (c_num s e f ltac:(lia) Hf Z0) as [(m & q & D3) _]. clear D. apply okop_divzero_m; [shape|shape|exact V0].
    - destruct (c_num t e' g ltac:(lia) Hg Z1) as [(m & q & D2) _]. clear D' IV' v'. pose proof (rv_num_neq t e' g m q ltac:(lia) Hg D2) as NZ.
      assert (HFIN : finite E F (word E F s e f) /\ finite E F (word E F t e' g)) by (unfold finite; rewrite D, D2; split; [assumption|exact I]).
      apply okop_exact_m; [|destruct v; try contradiction; shape|destruct v; try contradiction; shape|exact (conj (proj1 HFIN) (conj (proj2 HFIN) NZ))]. clear D D2.
      unfold value. apply (sf_divFM_fin md odd E F U C W); try assumption; lia. }
  unfold sf_divFM. cbv zeta. rewrite !expUI_word, !fracUI_word, !signUI_word by lia.
  destruct (Z.eqb_spec e (2 ^ E - 1)) as [EX|EX].
  - subst e. destruct (Z.eqb_spec f 0) as [F0|F0]; cbn [negb orb].
    + subst f. destruct (c_inf s) as [D N]. destruct (Z.eqb_spec e' (2 ^ E - 1)) as [EY|EY].
      * subst e'. destruct (Z.eqb_spec g 0) as [G0|G0]; cbn [negb].
        -- subst g. destruct (c_inf t) as [D2 N2]. apply okop_invalid_m; shape.
        -- pose proof (c_nan t g Hg G0) as D2. apply prop_ok_m; try assumption; shape.
      * destruct (c_fin t e' g ltac:(lia) Hg) as (v & D2 & IV & N2). destruct v; try contradiction; apply okop_none_m; shape.
    + pose proof (c_nan s f Hf F0) as D. assert (CB : e' = 2 ^ E - 1 \/ e' < 2 ^ E - 1) by lia. destruct CB as [CB|CB].
      * subst e'. destruct (Z.eq_dec g 0) as [G0|G0].
        -- subst g. destruct (c_inf t) as [D2 N2]. apply prop_ok_m; try assumption; shape.
        -- pose proof (c_nan t g Hg G0) as D2. apply prop_ok_m; try assumption; shape.
      * destruct (c_fin t e' g ltac:(lia) Hg) as (v & D2 & IV & N). destruct v; try contradiction; (apply prop_ok_m; try assumption; shape).
  - destruct (Z.eqb_spec e' (2 ^ E - 1)) as [EY|EY]; [|lia]. subst e'. destruct (c_fin s e f ltac:(lia) Hf) as (v & D & IV & N).
    destruct (Z.eqb_spec g 0) as [G0|G0]; cbn [negb].
    + subst g. destruct (c_inf t) as [D2 N2]. destruct v; try contradiction; apply okop_none_m; shape.
    + pose proof (c_nan t g Hg G0) as D2. destruct v; try contradiction; (apply prop_ok_m; try assumption; shape).
Qed.
End Div.
End Ops.
