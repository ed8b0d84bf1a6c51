(** What the flags tell about the result. *)
From Coq Require Import ZArith Bool Lia Reals Lra.
From Flocq Require Import Core.
From Verif Require Import Spec Spec754 Fw FwLemmas SpecLemmas ValueLemmas SpecFlocq SpecReal SpecFlocq754 SpecFlocq754Mode SoftFloat SfProofs1 SoftFloatFlags SpecFlags SpecFlagTells FlagProofs5.
Open Scope Z_scope.

Section Fmt.
Context (E F W : Z).
Context (HW : W = E + F + 1) (HE : 4 <= E <= 15) (HF : 1 <= F) (H64 : W <= 64).
Local Notation flt := (FLT_exp (1 - bias E - F) (F + 1)).
Local Notation flx := (FLX_exp (F + 1)).
Local Instance PP : Prec_gt_0 (F + 1).
Proof. red. lia. Qed.

Lemma flx_min : generic_format radix2 flx (bpow radix2 (1 - bias E)).
Proof. apply generic_format_bpow. unfold FLX_exp. lia. Qed.
Lemma flt_min : generic_format radix2 flt (bpow radix2 (1 - bias E)).
Proof. apply generic_format_bpow. unfold FLT_exp. lia. Qed.
Lemma small_of_flx x : (Rabs (rounded_unbounded F x) < bpow radix2 (1 - bias E))%R -> (Rabs x < bpow radix2 (1 - bias E))%R.
Proof.
  intros H. destruct (Rle_or_lt (bpow radix2 (1 - bias E)) (Rabs x)) as [L|L]; [|exact L]. exfalso.
  apply (Rlt_not_le _ _ H). apply abs_round_ge_generic; [typeclasses eauto|typeclasses eauto|exact flx_min|exact L].
Qed.
Lemma small_of_flt x : (Rabs (rounded_format E F x) < bpow radix2 (1 - bias E))%R -> (Rabs x < bpow radix2 (1 - bias E))%R.
Proof.
  intros H. destruct (Rle_or_lt (bpow radix2 (1 - bias E)) (Rabs x)) as [L|L]; [|exact L]. exfalso.
  apply (Rlt_not_le _ _ H). apply abs_round_ge_generic; [typeclasses eauto|typeclasses eauto|exact flt_min|exact L].
Qed.
Lemma flx_small x : (Rabs x < bpow radix2 (1 - bias E))%R -> (Rabs (rounded_unbounded F x) <= bpow radix2 (1 - bias E))%R.
Proof. intros H. apply abs_round_le_generic; [typeclasses eauto|typeclasses eauto|exact flx_min|now apply Rlt_le]. Qed.
Lemma flt_small x : (Rabs x < bpow radix2 (1 - bias E))%R -> (Rabs (rounded_format E F x) <= bpow radix2 (1 - bias E))%R.
Proof. intros H. apply abs_round_le_generic; [typeclasses eauto|typeclasses eauto|exact flt_min|now apply Rlt_le]. Qed.

(** Too large, with or without the exponents of the format. *)
Lemma overflows_flt x : overflows E F x <-> (bpow radix2 (bias E + 1) <= Rabs (rounded_format E F x))%R.
Proof.
  unfold overflows. destruct (sf_EB E ltac:(lia)) as [_ B3]. assert (B : (bpow radix2 (1 - bias E) < bpow radix2 (bias E + 1))%R) by (apply bpow_lt; lia).
  destruct (Rle_or_lt (bpow radix2 (1 - bias E)) (Rabs x)) as [L|L].
  - unfold rounded_unbounded, rounded_format. rewrite round_FLT_FLX; [tauto|]. replace (1 - bias E - F + (F + 1) - 1) with (1 - bias E) by lia. exact L.
  - pose proof (flx_small x L). pose proof (flt_small x L). split; intros; lra.
Qed.

(** Between the least normal number and its predecessor the two roundings differ, but not so that the one with an unbounded
    exponent reaches the least normal number and the other does not. *)
Lemma tiny_agree x : (Rabs (rounded_format E F x) < bpow radix2 (1 - bias E))%R -> (Rabs (rounded_unbounded F x) < bpow radix2 (1 - bias E))%R.
Proof.
  intros H. pose proof (small_of_flt x H) as X. pose proof (flx_small x X) as L.
  destruct (Rle_lt_or_eq_dec _ _ L) as [K|K]; [exact K|exfalso].
  set (rr := rounded_format E F x) in *. set (fx := rounded_unbounded F x) in *.
  assert (G1 : generic_format radix2 flt rr) by (apply generic_format_round; typeclasses eauto).
  assert (G2 : generic_format radix2 flx rr) by (apply (generic_format_FLX_FLT radix2 (1 - bias E - F)); exact G1).
  assert (FX : fx = bpow radix2 (1 - bias E) \/ fx = (- bpow radix2 (1 - bias E))%R).
  { unfold Rabs in K. destruct (Rcase_abs fx); [right|left]; lra. }
  assert (G3 : generic_format radix2 flt fx) by (destruct FX as [-> | ->]; [|apply generic_format_opp]; exact flt_min).
  destruct (round_N_pt radix2 flx (fun n => negb (Z.even n)) x) as [_ N1]. destruct (round_N_pt radix2 flt (fun n => negb (Z.even n)) x) as [_ N2].
  specialize (N1 rr G2). specialize (N2 fx G3). fold ZnearestE in N1, N2.
  change (Rabs (fx - x) <= Rabs (rr - x))%R in N1. change (Rabs (rr - x) <= Rabs (fx - x))%R in N2.
  assert (D : (fx + rr = 2 * x)%R).
  { assert (NE : fx <> rr) by (intros Q; rewrite Q in K; lra). revert N1 N2. unfold Rabs. destruct (Rcase_abs (fx - x)), (Rcase_abs (rr - x)); intros; lra. }
  destruct (FLT_format_generic radix2 (1 - bias E - F) (F + 1) rr G1) as [[m e] RM _ EM]. cbn [Fnum Fexp] in *. unfold F2R in RM. cbn [Fnum Fexp] in RM.
  set (k := m * 2 ^ (e - (1 - bias E - F))).
  assert (RK : rr = (IZR k * bpow radix2 (1 - bias E - F))%R).
  { rewrite RM. unfold k. rewrite mult_IZR. change 2 with (radix_val radix2) at 1. rewrite IZR_Zpower by lia. rewrite Rmult_assoc, <- bpow_plus. f_equal. f_equal. lia. }
  assert (KB : Z.abs k < 2 ^ F).
  { apply lt_IZR. rewrite abs_IZR. change 2 with (radix_val radix2). rewrite IZR_Zpower by lia. apply (Rmult_lt_reg_r (bpow radix2 (1 - bias E - F))); [apply bpow_gt_0|].
    rewrite <- bpow_plus. replace (F + (1 - bias E - F)) with (1 - bias E) by lia. rewrite RK in H. rewrite Rabs_mult in H. rewrite (Rabs_pos_eq (bpow _ _)) in H by apply bpow_ge_0. exact H. }
  assert (BB : bpow radix2 (1 - bias E) = (IZR (2 ^ F) * bpow radix2 (1 - bias E - F))%R).
  { change 2 with (radix_val radix2) at 1. rewrite IZR_Zpower by lia. rewrite <- bpow_plus. f_equal. lia. }
  assert (XF : exists j, Z.abs j < 2 ^ (F + 1) /\ x = (IZR j * bpow radix2 (- bias E - F))%R).
  { assert (HB : bpow radix2 (1 - bias E - F) = (2 * bpow radix2 (- bias E - F))%R). { replace (1 - bias E - F) with (1 + (- bias E - F)) by lia. rewrite bpow_plus. reflexivity. }
    assert (P2 : 2 ^ (F + 1) = 2 * 2 ^ F) by (rewrite pow2_add by lia; lia).
    destruct FX as [FX|FX]; [exists (2 ^ F + k)|exists (- 2 ^ F + k)]; (split; [lia|]).
    - rewrite plus_IZR. rewrite FX, RK, BB, HB in D. lra.
    - rewrite plus_IZR, opp_IZR. rewrite FX, RK, BB, HB in D. lra. }
  destruct XF as (j & JB & XJ).
  assert (GX : generic_format radix2 flx x). { apply generic_format_FLX. exists (Float radix2 j (- bias E - F)); [exact XJ|exact JB]. }
  assert (FXX : fx = x) by (apply round_generic; [typeclasses eauto|exact GX]).
  rewrite FXX in K. lra.
Qed.

(** An operation with an exact result. *)
Lemma tells_fin (inv dz ex : Prop) x a b r fl : 0 <= a < 2 ^ W -> 0 <= b < 2 ^ W -> ex -> ~ inv -> ~ dz -> finite E F a -> finite E F b ->
  signals E F inv dz ex x fl -> rounded754 E F x (decode754 E F r) -> tells E F ex x a b r fl.
Proof.
  intros Ha Hb EX NI ND FA FB (S1 & S2 & S3 & S4) R. unfold rounded754 in R. cbv zeta in R. fold (rounded_format E F x) in R.
  assert (NN : decode754 E F r <> NaN) by (intros Q; rewrite Q in R; exact R).
  assert (V : finite E F r -> value E F r = rounded_format E F x /\ (Rabs (rounded_format E F x) < bpow radix2 (bias E + 1))%R).
  { unfold finite, value. destruct (decode754 E F r); cbn [is_value]; try tauto; intros _.
    destruct R as [_ R]. rewrite R. split; [reflexivity|]. rewrite Rabs_R0. apply bpow_gt_0. }
  assert (IO : (exists t, decode754 E F r = Inf t) <-> overflows E F x).
  { rewrite overflows_flt. split.
    - intros [t Q]. rewrite Q in R. apply R.
    - intros O. destruct (decode754 E F r) as [|t| |] eqn:D; [contradiction|exists t; reflexivity| |]; exfalso; destruct (V ltac:(unfold finite; rewrite D; exact I)) as [_ K]; lra. }
  assert (FI : finite E F r \/ exists t, decode754 E F r = Inf t).
  { unfold finite. destruct (decode754 E F r); [contradiction|right; eexists; reflexivity|left; exact I|left; exact I]. }
  split; [|split; [|split]].
  - split; [contradiction|]. intros [Q|[Q|Q]]; [unfold finite in FA; rewrite Q in FA; contradiction|unfold finite in FB; rewrite Q in FB; contradiction|tauto].
  - intros _ _. rewrite IO, S2, S3. tauto.
  - intros Q. apply S4 in Q. destruct Q as [_ [U1 U2]]. pose proof (small_of_flx x U1) as X. pose proof (flt_small x X) as X2.
    assert (FR : finite E F r). { destruct FI as [FI|FI]; [exact FI|]. apply IO in FI. apply overflows_flt in FI. destruct (sf_EB E ltac:(lia)) as [_ B3]. assert (B : (bpow radix2 (1 - bias E) < bpow radix2 (bias E + 1))%R) by (apply bpow_lt; lia). lra. }
    destruct (V FR) as [-> _]. split; [exact FR|]. split; [exact X2|exact U2].
  - intros _ FR. destruct (V FR) as [-> _]. intros L. destruct (Req_dec (rounded_format E F x) x) as [Q|Q]; [right; exact Q|left].
    apply S4. split; [exact EX|]. split; [apply tiny_agree; exact L|exact Q].
Qed.

(** The other operands. *)
Lemma tells_special (inv dz ex : Prop) x a b r fl : ~ ex -> signals E F inv dz ex x fl ->
  (decode754 E F r = NaN <-> decode754 E F a = NaN \/ decode754 E F b = NaN \/ inv) ->
  (finite E F a -> finite E F b -> ((exists s, decode754 E F r = Inf s) <-> dz)) -> tells E F ex x a b r fl.
Proof.
  intros NX (S1 & S2 & S3 & S4) HN HI. split; [rewrite S1; exact HN|]. split; [|split; [tauto|tauto]].
  intros FA FB. rewrite S2, S3, (HI FA FB). tauto.
Qed.
Ltac wit := first [ left; reflexivity | right; left; reflexivity
  | right; right; right; right; eexists; split; reflexivity
  | right; right; right; right; do 2 eexists; left; split; reflexivity
  | right; right; right; right; do 2 eexists; right; split; reflexivity ].
Ltac nans SA SB := split;
  [ intros ?K; first [discriminate | wit]
  | intros [?K|[?K|[?K|[?K|?K]]]]; first [reflexivity | discriminate | match goal with H : signalling _ _ _ |- _ => (discriminate (SA H) || discriminate (SB H)) end
      | exfalso; repeat match goal with
          | H : exists _, _ |- _ => destruct H
          | H : _ \/ (_ = _ /\ _) |- _ => destruct H
          | H : _ = _ /\ _ |- _ => destruct H end; first [congruence | repeat match goal with z : bool |- _ => destruct z end; cbn [negb] in *; congruence] ] ].
Lemma add_special a b r fl x : 0 <= a < 2 ^ W -> 0 <= b < 2 ^ W -> ~ (finite E F a /\ finite E F b) ->
  signals E F (add_invalid E F a b) False (finite E F a /\ finite E F b) x fl -> decode754 E F r = add754 E F (decode754 E F a) (decode754 E F b) ->
  tells E F (finite E F a /\ finite E F b) x a b r fl.
Proof.
  intros Ha Hb NX S D. apply (tells_special _ _ _ _ _ _ _ _ NX S); [|tauto]. rewrite D. clear S D.
  pose proof (sig_nan E F W HW HE HF a Ha) as SA. pose proof (sig_nan E F W HW HE HF b Hb) as SB. unfold add_invalid, finite in *. clear - NX SA SB.
  destruct (decode754 E F a) as [|s|s|s m e], (decode754 E F b) as [|t|t|t n e']; cbn [is_value] in NX; try (exfalso; tauto); try destruct s; try destruct t; unfold add754; cbn [add_gen Bool.eqb negb]; nans SA SB.
Qed.
Lemma mul_special a b r fl x : 0 <= a < 2 ^ W -> 0 <= b < 2 ^ W -> ~ (finite E F a /\ finite E F b) ->
  signals E F (mul_invalid E F a b) False (finite E F a /\ finite E F b) x fl -> decode754 E F r = mul754 E F (decode754 E F a) (decode754 E F b) ->
  tells E F (finite E F a /\ finite E F b) x a b r fl.
Proof.
  intros Ha Hb NX S D. apply (tells_special _ _ _ _ _ _ _ _ NX S); [|tauto]. rewrite D. clear S D.
  pose proof (sig_nan E F W HW HE HF a Ha) as SA. pose proof (sig_nan E F W HW HE HF b Hb) as SB. unfold mul_invalid, finite in *. clear - NX SA SB.
  destruct (decode754 E F a) as [|s|s|s m e], (decode754 E F b) as [|t|t|t n e']; cbn [is_value] in NX; try (exfalso; tauto); unfold mul754; cbn [mul_gen]; nans SA SB.
Qed.
Lemma div_special a b r fl x : 0 <= a < 2 ^ W -> 0 <= b < 2 ^ W -> ~ (finite E F a /\ finite E F b /\ value E F b <> 0%R) ->
  signals E F (div_invalid E F a b) (div_by_zero E F a b) (finite E F a /\ finite E F b /\ value E F b <> 0%R) x fl ->
  decode754 E F r = div754 E F (decode754 E F a) (decode754 E F b) ->
  tells E F (finite E F a /\ finite E F b /\ value E F b <> 0%R) x a b r fl.
Proof.
  intros Ha Hb NX S D.
  assert (NZ : forall t n e', decode754 E F b = Num t n e' -> value E F b <> 0%R).
  { intros t n e' Q. unfold value. rewrite Q. pose proof (decode754_number E F HF b ltac:(lia)) as H. rewrite Q in H. specialize (H I). cbn [number] in H.
    rewrite rv_sgn. assert (IZR n <> 0)%R by (apply IZR_neq; lia). pose proof (bpow_gt_0 radix2 e').
    assert (IZR n * bpow radix2 e' <> 0)%R by (apply Rmult_integral_contrapositive_currified; lra). destruct t; cbn [sgnR]; lra. }
  apply (tells_special _ _ _ _ _ _ _ _ NX S); rewrite D; clear S D;
  pose proof (sig_nan E F W HW HE HF a Ha) as SA; pose proof (sig_nan E F W HW HE HF b Hb) as SB.
  - unfold div_invalid, finite in *. clear - NX SA SB NZ.
    destruct (decode754 E F a) as [|s|s|s m e], (decode754 E F b) as [|t|t|t n e']; cbn [is_value] in NX; try (exfalso; pose proof (NZ _ _ _ eq_refl); tauto); unfold div754; cbn [div_gen]; nans SA SB.
  - unfold div_by_zero, finite in *. clear - NX SA SB NZ.
    destruct (decode754 E F a) as [|s|s|s m e], (decode754 E F b) as [|t|t|t n e']; cbn [is_value] in *; intros FA FB; try contradiction; try (exfalso; pose proof (NZ _ _ _ eq_refl); tauto); unfold div754; cbn [div_gen].
    + split; [intros [u K]; discriminate|intros (? & ? & ? & ? & K & _); discriminate].
    + split; [intros _; do 4 eexists; split; reflexivity|intros _; eexists; reflexivity].
Qed.

Lemma finite_dec a : finite E F a \/ ~ finite E F a.
Proof. unfold finite. destruct (decode754 E F a); cbn [is_value]; tauto. Qed.
Lemma add_tells a b r fl x : 0 <= a < 2 ^ W -> 0 <= b < 2 ^ W ->
  signals E F (add_invalid E F a b) False (finite E F a /\ finite E F b) x fl -> decode754 E F r = add754 E F (decode754 E F a) (decode754 E F b) ->
  (finite E F a -> finite E F b -> rounded754 E F x (decode754 E F r)) -> tells E F (finite E F a /\ finite E F b) x a b r fl.
Proof.
  intros Ha Hb S D R. destruct (finite_dec a) as [FA|FA], (finite_dec b) as [FB|FB]; try (apply add_special; tauto).
  apply (tells_fin (add_invalid E F a b) False _ x a b r fl Ha Hb); try tauto. clear S.
  pose proof (sig_nan E F W HW HE HF a Ha) as SA. pose proof (sig_nan E F W HW HE HF b Hb) as SB. unfold finite in *.
  intros [K|[K|(u & K1 & K2)]]; [rewrite (SA K) in FA|rewrite (SB K) in FB|rewrite K1 in FA]; contradiction.
Qed.
Lemma mul_tells a b r fl x : 0 <= a < 2 ^ W -> 0 <= b < 2 ^ W ->
  signals E F (mul_invalid E F a b) False (finite E F a /\ finite E F b) x fl -> decode754 E F r = mul754 E F (decode754 E F a) (decode754 E F b) ->
  (finite E F a -> finite E F b -> rounded754 E F x (decode754 E F r)) -> tells E F (finite E F a /\ finite E F b) x a b r fl.
Proof.
  intros Ha Hb S D R. destruct (finite_dec a) as [FA|FA], (finite_dec b) as [FB|FB]; try (apply mul_special; tauto).
  apply (tells_fin (mul_invalid E F a b) False _ x a b r fl Ha Hb); try tauto. clear S.
  pose proof (sig_nan E F W HW HE HF a Ha) as SA. pose proof (sig_nan E F W HW HE HF b Hb) as SB. unfold finite in *.
  intros [K|[K|(u & v & [[K1 K2]|[K1 K2]])]]; [rewrite (SA K) in FA|rewrite (SB K) in FB|rewrite K1 in FA|rewrite K2 in FB]; contradiction.
Qed.
Lemma div_tells a b r fl x : 0 <= a < 2 ^ W -> 0 <= b < 2 ^ W ->
  signals E F (div_invalid E F a b) (div_by_zero E F a b) (finite E F a /\ finite E F b /\ value E F b <> 0%R) x fl ->
  decode754 E F r = div754 E F (decode754 E F a) (decode754 E F b) ->
  (finite E F a -> finite E F b -> value E F b <> 0%R -> rounded754 E F x (decode754 E F r)) ->
  tells E F (finite E F a /\ finite E F b /\ value E F b <> 0%R) x a b r fl.
Proof.
  intros Ha Hb S D R. destruct (finite_dec a) as [FA|FA], (finite_dec b) as [FB|FB]; try (apply div_special; tauto).
  destruct (Req_dec (value E F b) 0) as [Z|Z]; [apply div_special; tauto|].
  assert (Z2 : forall t, decode754 E F b <> Zero t) by (intros t Q; apply Z; unfold value; rewrite Q; reflexivity).
  apply (tells_fin (div_invalid E F a b) (div_by_zero E F a b) _ x a b r fl Ha Hb); try tauto; clear S.
  - pose proof (sig_nan E F W HW HE HF a Ha) as SA. pose proof (sig_nan E F W HW HE HF b Hb) as SB. unfold finite in *.
    intros [K|[K|(u & v & [[K1 K2]|[K1 K2]])]]; [rewrite (SA K) in FA; contradiction|rewrite (SB K) in FB; contradiction|rewrite K1 in FA; contradiction|exact (Z2 _ K2)].
  - intros (? & ? & ? & ? & _ & K). exact (Z2 _ K).
Qed.
End Fmt.
