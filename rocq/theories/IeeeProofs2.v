From Coq Require Import ZArith Bool Lia.
From Verif Require Import Fw FwLemmas Spec SpecLemmas Flopoco FlopocoLemmas CompareProofs ValueLemmas AddDualProofs AddDualProofs4 AddDual AddDualProofs6 Ieee IeeeProofs.
Open Scope Z_scope.

Lemma decode_convert E F x : 1 <= E -> 1 <= F -> wf (E + F + 3) x -> convert_gen (round_to E F) (decode E F x) = decode E F x.
Proof.
  intros HE HF Hx. destruct (pack_view E F x HE HF Hx) as (a & s & e & f & H & ->). rewrite decode_pack by exact H.
  destruct H as (_ & _ & Ha & He & Hf). apply flags_cases in Ha. destruct Ha as [->|[->|[->| ->]]]; cbn [Z.eqb Pos.eqb convert_gen]; try reflexivity.
  rewrite round_to_exact by lia. apply finish_code; lia.
Qed.

(** Exporting is rounding the datum to the IEEE format. *)
Theorem to_ieee_rounds E F x : 1 <= E -> 1 <= F -> wf (E + F + 3) x ->
  wf (E + F + 1) (to_ieee E F x) /\ decode_ieee E F (to_ieee E F x) = convert_gen (round_ieee E F) (decode E F x).
Proof.
  intros HE HF Hx. destruct (to_ieee_ok E F x HE HF Hx) as [W D]. split; [exact W|]. rewrite D.
  rewrite <- (decode_convert E F x HE HF Hx) at 1. destruct (decode E F x); try reflexivity. cbn [convert_gen]. apply clamp_round. exact HE.
Qed.

Theorem roundtrip_ok E F x : 1 <= E -> 1 <= F -> wf (E + F + 1) x ->
  let y := to_ieee E F (to_flopoco E F x) in
  wf (E + F + 1) y /\ decode_ieee E F y = decode_ieee E F x /\ ie_equals E F x y = 1 /\
  (decode_ieee E F x <> NaN -> (forall s, decode_ieee E F x <> Zero s) -> y = x).
Proof.
  intros HE HF Hx y. destruct (to_flopoco_ok E F x HE HF Hx) as [W1 D1]. destruct (to_ieee_ok E F _ HE HF W1) as [W2 D2].
  split; [exact W2|]. fold y in W2, D2. subst y.
  destruct (ie_view E F x HE HF Hx) as (s & e & f & H & ->).
  rewrite to_flopoco_pack in * by exact H. pose proof (oki_okf E F e f _ H (iflags_range E e f)) as H'.
  rewrite to_ieee_pack by exact H'. rewrite to_ieee_pack in D2, W2 by exact H'. clear D2.
  pose proof H as (_ & _ & He & Hf).
  assert (EE : 2 ^ E = 2 * 2 ^ (E - 1)) by (rewrite <- pow2_S by lia; f_equal; lia).
  assert (PE : 0 < 2 ^ (E - 1)) by (apply pow2_pos; lia). assert (PF : 2 <= 2 ^ F) by (change 2 with (2 ^ 1) at 1; apply Z.pow_le_mono_r; lia).
  assert (O0 : oki E F 0 0) by (unfold oki; lia). assert (O1 : oki E F (2 ^ E - 1) 0) by (unfold oki; lia).
  assert (O2 : oki E F (2 ^ E - 1) (2 ^ F - 1)) by (unfold oki; lia).
  assert (N1 : (2 ^ E - 1 =? 0) = false) by (apply Z.eqb_neq; lia). assert (N2 : (2 ^ F - 1 =? 0) = false) by (apply Z.eqb_neq; lia).
  unfold ie_equals. rewrite (decode_ipack E F s e f H).
  assert (S1 : og E = 2 ^ E - 1) by (apply og_eq; lia).
  unfold iflags. destruct (Z.eqb_spec e 0) as [E0|E0]; [|destruct (Z.eqb_spec e (2 ^ E - 1)) as [E1|E1]; [destruct (Z.eqb_spec f 0) as [F0|F0]|]];
    cbn [Z.eqb Pos.eqb andb orb]; rewrite ?ie_sign_pack, ?ie_exp_pack, ?ie_frac_pack by assumption; unfold feq, fne; rewrite ?S1.
  - rewrite decode_ipack by exact O0. subst e. rewrite Z.eqb_refl. cbn [Z.b2z select to_bool Z.eqb Pos.eqb].
    split; [reflexivity|]. split; [reflexivity|]. intros _ Q. exfalso. apply (Q s). reflexivity.
  - subst e f. rewrite decode_ipack by exact O1. rewrite N1, !Z.eqb_refl. split; [reflexivity|]. split; [|reflexivity]. reflexivity.
  - subst e. rewrite decode_ipack by exact O2. rewrite N1, N2, !Z.eqb_refl. replace (f =? 0) with false by (symmetry; apply Z.eqb_neq; exact F0).
    split; [reflexivity|]. split; [reflexivity|]. intros Q. exfalso. apply Q. reflexivity.
  - rewrite decode_ipack by exact H. replace (e =? 0) with false by (symmetry; apply Z.eqb_neq; exact E0).
    replace (e =? 2 ^ E - 1) with false by (symmetry; apply Z.eqb_neq; exact E1). rewrite !Z.eqb_refl.
    split; [reflexivity|]. split; reflexivity.
Qed.

(** ** equals *)
Theorem ie_equals_ok E F x y : 1 <= E -> 1 <= F -> wf (E + F + 1) x -> wf (E + F + 1) y ->
  (ie_equals E F x y = 0 \/ ie_equals E F x y = 1) /\
  (ie_equals E F x y = 1 <->
    (exists s t, decode_ieee E F x = Zero s /\ decode_ieee E F y = Zero t) \/ decode_ieee E F x = decode_ieee E F y).
Proof.
  intros HE HF Hx Hy. destruct (ie_view E F x HE HF Hx) as (s & e & f & H & ->). destruct (ie_view E F y HE HF Hy) as (t & g & h & H' & ->).
  unfold ie_equals. rewrite ?ie_sign_pack, ?ie_exp_pack, ?ie_frac_pack, ?decode_ipack by assumption.
  rewrite og_eq by lia. unfold feq, fne. destruct H as (_ & _ & He & Hf). destruct H' as (_ & _ & Hg & Hh).
  rewrite !fand_b2z. rewrite !select_b2z.
  assert (PE : 2 <= 2 ^ E) by (change 2 with (2 ^ 1) at 1; apply Z.pow_le_mono_r; lia).
  assert (B : forall b : bool, (Z.b2z b = 0 \/ Z.b2z b = 1)) by (intros []; cbn; lia).
  assert (BI : forall (b : bool) P, (b = true <-> P) -> (Z.b2z b = 0 \/ Z.b2z b = 1) /\ (Z.b2z b = 1 <-> P)).
  { intros b P Q. split; [apply B|]. rewrite <- Q. destruct b; cbn; intuition discriminate. }
  destruct (Z.eqb_spec e 0) as [->|E0]; [|destruct (Z.eqb_spec e (2 ^ E - 1)) as [->|E1]; [destruct (Z.eqb_spec f 0) as [->|F0]|]]; apply BI.
  - rewrite Z.eqb_eq. destruct (Z.eqb_spec g 0) as [->|G0].
    + split; [intros _; left; exists s, t; split; reflexivity|intros _; reflexivity].
    + split; [intros Q; congruence|]. intros [(u & v & Q1 & Q2)|Q].
      * destruct (g =? 2 ^ E - 1), (h =? 0); discriminate.
      * destruct (g =? 2 ^ E - 1), (h =? 0); discriminate.
  - rewrite !andb_true_iff, !Z.eqb_eq. destruct (Z.eqb_spec g 0) as [->|G0].
    + split; [intros; lia|]. intros [(u & v & Q1 & Q2)|Q]; discriminate.
    + destruct (Z.eqb_spec g (2 ^ E - 1)) as [->|G1]; [destruct (Z.eqb_spec h 0) as [->|]|].
      * split; [intros [_ Q]; right; f_equal; destruct s, t; try reflexivity; discriminate|]. intros [(u & v & Q1 & Q2)|Q]; [discriminate|]. injection Q as ->. repeat split; reflexivity.
      * split; [intros; lia|]. intros [(u & v & Q1 & Q2)|Q]; discriminate.
      * split; [intros; lia|]. intros [(u & v & Q1 & Q2)|Q]; discriminate.
  - rewrite !andb_true_iff, negb_true_iff, Z.eqb_eq, Z.eqb_neq. destruct (Z.eqb_spec g 0) as [->|G0].
    + split; [intros; lia|]. intros [(u & v & Q1 & Q2)|Q]; discriminate.
    + destruct (Z.eqb_spec g (2 ^ E - 1)) as [->|G1]; [destruct (Z.eqb_spec h 0) as [->|]|].
      * split; [intros; lia|]. intros [(u & v & Q1 & Q2)|Q]; discriminate.
      * split; [intros; right; reflexivity|]. intros _. split; [reflexivity|assumption].
      * split; [intros; lia|]. intros [(u & v & Q1 & Q2)|Q]; discriminate.
  - rewrite !andb_true_iff, !Z.eqb_eq. destruct (Z.eqb_spec g 0) as [->|G0].
    + split; [intros; lia|]. intros [(u & v & Q1 & Q2)|Q]; discriminate.
    + destruct (Z.eqb_spec g (2 ^ E - 1)) as [->|G1].
      * split; [intros; lia|]. intros [(u & v & Q1 & Q2)|Q]; [discriminate|]. destruct (h =? 0); discriminate.
      * split.
        -- intros [[-> ->] Q]. right. f_equal. destruct s, t; try reflexivity; discriminate.
        -- intros [(u & v & Q1 & Q2)|Q]; [discriminate|]. injection Q as Q1 Q2 Q3. subst t. repeat split; lia.
Qed.

(** ** the wrapper's comparisons *)
Lemma same_inf_ieee E F a b : 1 <= E -> 1 <= F -> wf (E + F + 1) a -> wf (E + F + 1) b ->
  same_inf (decode_ieee E F a) (decode_ieee E F b) ->
  exists s, to_flopoco E F a = pack E F 2 s (2 ^ E - 1) 0 /\ to_flopoco E F b = pack E F 2 s (2 ^ E - 1) 0 /\ okf E F 2 (2 ^ E - 1) 0.
Proof.
  intros HE HF Ha Hb (s & Q1 & Q2).
  assert (V : forall x, wf (E + F + 1) x -> decode_ieee E F x = Inf s -> to_flopoco E F x = pack E F 2 s (2 ^ E - 1) 0 /\ okf E F 2 (2 ^ E - 1) 0).
  { intros x Hx Q. destruct (ie_view E F x HE HF Hx) as (u & e & f & H & ->). rewrite to_flopoco_pack by exact H. rewrite decode_ipack in Q by exact H.
    unfold iflags. destruct (e =? 0); [discriminate|]. destruct (Z.eqb_spec e (2 ^ E - 1)) as [E1|]; [|discriminate].
    destruct (Z.eqb_spec f 0) as [F0|]; [|discriminate]. injection Q as Q. subst u e f. split; [reflexivity|]. apply oki_okf; [exact H|lia]. }
  exists s. destruct (V a Ha Q1) as [A1 A2]. destruct (V b Hb Q2) as [B1 _]. repeat split; (assumption || apply A2).
Qed.

Lemma w_cmp_ok op spec E F a b : 1 <= E -> 1 <= F -> wf (E + F + 1) a -> wf (E + F + 1) b ->
  (forall x y, wf (E + F + 3) x -> wf (E + F + 3) y -> ~ same_inf (decode E F x) (decode E F y) ->
     op E F E F x y = Some (Z.b2z (spec (decode E F x) (decode E F y)))) ->
  (forall s, okf E F 2 (2 ^ E - 1) 0 -> op E F E F (pack E F 2 s (2 ^ E - 1) 0) (pack E F 2 s (2 ^ E - 1) 0) = Some (Z.b2z (spec (Inf s) (Inf s)))) ->
  w_cmp op E F a b = Some (spec (decode_ieee E F a) (decode_ieee E F b)).
Proof.
  intros HE HF Ha Hb H1 H2. unfold w_cmp.
  destruct (to_flopoco_ok E F a HE HF Ha) as [Wa Da]. destruct (to_flopoco_ok E F b HE HF Hb) as [Wb Db].
  assert (D : same_inf (decode_ieee E F a) (decode_ieee E F b) \/ ~ same_inf (decode_ieee E F a) (decode_ieee E F b)).
  { destruct (decode_ieee E F a) as [|s|s|s m e], (decode_ieee E F b) as [|t|t|t n f];
      try (right; intros (u & Q1 & Q2); discriminate); (destruct (Bool.bool_dec s t) as [->|N];
      [left; exists t; split; reflexivity|right; intros (u & Q1 & Q2); congruence]). }
  assert (TB : forall c : bool, to_bool (Z.b2z c) = c) by (intros []; reflexivity).
  destruct D as [D|D].
  - destruct (same_inf_ieee E F a b HE HF Ha Hb D) as (s & A & B & O). destruct D as (s' & Q1 & Q2).
    assert (s' = s).
    { rewrite A in Da. rewrite decode_pack in Da by exact O. cbn [Z.eqb Pos.eqb] in Da. congruence. }
    subst s'. rewrite A, B, H2 by exact O. cbn [bind]. rewrite Q1, Q2, TB. reflexivity.
  - rewrite H1; [|exact Wa|exact Wb|rewrite Da, Db; exact D]. cbn [bind]. rewrite Da, Db, TB. reflexivity.
Qed.

Lemma cmp_inf E F s : okf E F 2 (2 ^ E - 1) 0 -> let x := pack E F 2 s (2 ^ E - 1) 0 in
  less_than E F E F x x = Some 0 /\ less_than_equal E F E F x x = Some 1 /\ greater_than E F E F x x = Some 0 /\
  greater_than_equal E F E F x x = Some 1 /\ equal E F E F x x = Some 1.
Proof.
  intros H x. pose proof (comparisons_by_key E F E F 2 s (2 ^ E - 1) 0 2 s (2 ^ E - 1) 0 H H ltac:(lia) ltac:(lia)) as Q.
  cbv zeta in Q. unfold cmpkeys in Q. rewrite Z.compare_refl in Q. exact Q.
Qed.

Theorem w_comparisons_ok E F a b : 1 <= E -> 1 <= F -> wf (E + F + 1) a -> wf (E + F + 1) b ->
  let x := decode_ieee E F a in let y := decode_ieee E F b in
  w_lt E F a b = Some (lt_spec x y) /\ w_le E F a b = Some (le_spec x y) /\
  w_gt E F a b = Some (gt_spec x y) /\ w_ge E F a b = Some (ge_spec x y) /\
  w_eq E F a b = Some (eq_spec x y) /\ w_ne E F a b = Some (negb (eq_spec x y)).
Proof.
  intros HE HF Ha Hb x y.
  assert (EQ : w_eq E F a b = Some (eq_spec x y)).
  { apply (w_cmp_ok equal eq_spec); try assumption.
    - intros. apply equal_correct; assumption.
    - intros s O. destruct (cmp_inf E F s O) as (_ & _ & _ & _ & Q). rewrite Q. destruct s; reflexivity. }
  split; [|split; [|split; [|split; [|split]]]].
  - apply (w_cmp_ok less_than lt_spec); try assumption.
    + intros. apply less_than_correct; assumption.
    + intros s O. destruct (cmp_inf E F s O) as (Q & _). rewrite Q. destruct s; reflexivity.
  - apply (w_cmp_ok less_than_equal le_spec); try assumption.
    + intros. apply less_than_equal_correct; assumption.
    + intros s O. destruct (cmp_inf E F s O) as (_ & Q & _). rewrite Q. destruct s; reflexivity.
  - apply (w_cmp_ok greater_than gt_spec); try assumption.
    + intros. apply greater_than_correct; assumption.
    + intros s O. destruct (cmp_inf E F s O) as (_ & _ & Q & _). rewrite Q. destruct s; reflexivity.
  - apply (w_cmp_ok greater_than_equal ge_spec); try assumption.
    + intros. apply greater_than_equal_correct; assumption.
    + intros s O. destruct (cmp_inf E F s O) as (_ & _ & _ & Q & _). rewrite Q. destruct s; reflexivity.
  - exact EQ.
  - destruct (to_flopoco_ok E F a HE HF Ha) as [Wa _]. destruct (to_flopoco_ok E F b HE HF Hb) as [Wb _].
    destruct (not_equal_complement E F E F _ _ HE HF HE HF Wa Wb) as (c & Q1 & Q2).
    unfold w_eq, w_ne, w_cmp in *. rewrite Q1 in EQ. rewrite Q2. cbn [bind] in *. injection EQ as <-. destruct c; reflexivity.
Qed.

(** ** promotions *)
Lemma promoted_exp DE SE e : 1 <= SE < DE -> 0 <= e < 2 ^ SE -> 1 <= e + (bias DE - bias SE) < 2 ^ DE - 1.
Proof.
  intros H He. unfold bias.
  assert (ES : 2 ^ SE = 2 * 2 ^ (SE - 1)) by (rewrite <- pow2_S by lia; f_equal; lia).
  assert (ED : 2 ^ DE = 2 * 2 ^ (DE - 1)) by (rewrite <- pow2_S by lia; f_equal; lia).
  assert (LE : 2 ^ SE <= 2 ^ (DE - 1)) by (apply Z.pow_le_mono_r; lia). assert (0 < 2 ^ (SE - 1)) by (apply pow2_pos; lia). lia.
Qed.

(** Promotion to an IEEE format with more exponent bits: every pattern becomes a normal number. *)
Theorem ie_promote_wider DE DF SE SF x : 1 <= SE < DE -> 1 <= SF <= DF -> wf (SE + SF + 1) x ->
  exists r s m e, ie_promote DE DF SE SF x = Some r /\ wf (DE + DF + 1) r /\ decode_ieee DE DF r = Num s m e /\
    (forall s' m' e', decode_ieee SE SF x = Num s' m' e' -> veq (Num s m e) (Num s' m' e')).
Proof.
  intros HE HF Hx. destruct (ie_view SE SF x ltac:(lia) ltac:(lia) Hx) as (s & e & f & H & ->).
  unfold ie_promote. replace (DE =? SE) with false by (symmetry; apply Z.eqb_neq; lia). cbn [andb].
  rewrite ie_exp_pack, ie_frac_pack, ie_sign_pack by exact H. pose proof H as (_ & _ & He & Hf).
  destruct (promote_exp_ok DE SE e ltac:(lia) He) as [-> _]. destruct (promote_frac_ok DF SF f ltac:(lia) Hf) as [-> Bf]. cbn [bind].
  pose proof (promoted_exp DE SE e ltac:(lia) He) as Be.
  assert (O : oki DE DF (e + (bias DE - bias SE)) (f * 2 ^ (DF - SF))) by (unfold oki; lia).
  rewrite ie_mk_pack by exact O. do 4 eexists. split; [reflexivity|]. split; [apply ipack_wf, O|].
  rewrite decode_ipack by exact O.
  replace (e + (bias DE - bias SE) =? 0) with false by (symmetry; apply Z.eqb_neq; lia).
  replace (e + (bias DE - bias SE) =? 2 ^ DE - 1) with false by (symmetry; apply Z.eqb_neq; lia).
  split; [reflexivity|]. intros s' m' e' Q. rewrite decode_ipack in Q by exact H.
  destruct (e =? 0); [discriminate|]. destruct (e =? 2 ^ SE - 1); [destruct (f =? 0); discriminate|]. injection Q as <- <- <-.
  pose proof (veq_scale (DF - SF) (Num s (2 ^ SF + f) (e - bias SE - SF)) ltac:(lia)) as V. cbn [scale_v] in V.
  replace (2 ^ DF + f * 2 ^ (DF - SF)) with ((2 ^ SF + f) * 2 ^ (DF - SF)).
  - replace (e + (bias DE - bias SE) - bias DE - DF) with (e - bias SE - SF - (DF - SF)) by lia. exact V.
  - rewrite Z.mul_add_distr_r, <- pow2_add by lia. do 2 f_equal. lia.
Qed.

(** With the same exponent width only the fraction grows, and the datum is kept. *)
Theorem ie_promote_same_exp E DF SF x : 1 <= E -> 1 <= SF <= DF -> wf (E + SF + 1) x ->
  exists r, ie_promote E DF E SF x = Some r /\ wf (E + DF + 1) r /\ veq (decode_ieee E DF r) (decode_ieee E SF x).
Proof.
  intros HE HF Hx. destruct (ie_view E SF x ltac:(lia) ltac:(lia) Hx) as (s & e & f & H & ->).
  pose proof H as (_ & _ & He & Hf).
  destruct (promote_frac_ok DF SF f ltac:(lia) Hf) as [PF Bf].
  assert (O : oki E DF e (f * 2 ^ (DF - SF))) by (unfold oki; lia).
  assert (EP : ie_promote E DF E SF (ipack E SF s e f) = Some (ipack E DF s e (f * 2 ^ (DF - SF)))).
  { unfold ie_promote. rewrite Z.eqb_refl. cbn [andb]. destruct (Z.eqb_spec DF SF) as [->|].
    - rewrite Z.sub_diag, Z.mul_1_r. reflexivity.
    - rewrite ie_exp_pack, ie_frac_pack, ie_sign_pack by exact H. unfold promote_exp. rewrite Z.eqb_refl. cbn [bind]. rewrite PF. cbn [bind].
      rewrite ie_mk_pack by exact O. reflexivity. }
  rewrite EP. eexists. split; [reflexivity|]. split; [apply ipack_wf, O|].
  rewrite !decode_ipack by assumption.
  destruct (e =? 0); [reflexivity|]. destruct (e =? 2 ^ E - 1).
  - assert (0 < 2 ^ (DF - SF)) by (apply pow2_pos; lia).
    destruct (Z.eqb_spec f 0) as [->|]; [reflexivity|]. replace (f * 2 ^ (DF - SF) =? 0) with false by (symmetry; apply Z.eqb_neq; nia). exact I.
  - pose proof (veq_scale (DF - SF) (Num s (2 ^ SF + f) (e - bias E - SF)) ltac:(lia)) as V. cbn [scale_v] in V.
    replace (2 ^ DF + f * 2 ^ (DF - SF)) with ((2 ^ SF + f) * 2 ^ (DF - SF)).
    + replace (e - bias E - DF) with (e - bias E - SF - (DF - SF)) by lia. exact V.
    + rewrite Z.mul_add_distr_r, <- pow2_add by lia. do 2 f_equal. lia.
Qed.

(** flopoco to an IEEE format with more exponent bits. *)
Theorem promote_to_ieee_ok DE DF SE SF x : 1 <= SE < DE -> 1 <= SF <= DF -> wf (SE + SF + 3) x ->
  exists r, promote_to_ieee DE DF SE SF x = Some r /\ wf (DE + DF + 1) r /\ veq (decode_ieee DE DF r) (decode SE SF x).
Proof.
  intros HE HF Hx. destruct (pack_view SE SF x ltac:(lia) ltac:(lia) Hx) as (a & s & e & f & H & ->).
  unfold promote_to_ieee. replace (SE <? DE) with true by (symmetry; apply Z.ltb_lt; lia). cbn [assert_ bind].
  rewrite get_exp_pack, get_frac_pack, get_sign_pack, get_flags_pack, decode_pack by exact H. destruct H as (_ & _ & Ha & He & Hf).
  destruct (promote_exp_ok DE SE e ltac:(lia) He) as [-> _]. destruct (promote_frac_ok DF SF f ltac:(lia) Hf) as [-> Bf]. cbn [bind].
  pose proof (promoted_exp DE SE e ltac:(lia) He) as Be.
  assert (PE : 2 <= 2 ^ DE) by (change 2 with (2 ^ 1) at 1; apply Z.pow_le_mono_r; lia).
  assert (PF : 2 <= 2 ^ DF) by (change 2 with (2 ^ 1) at 1; apply Z.pow_le_mono_r; lia).
  assert (N1 : (2 ^ DE - 1 =? 0) = false) by (apply Z.eqb_neq; lia). assert (N2 : (2 ^ DF - 1 =? 0) = false) by (apply Z.eqb_neq; lia).
  rewrite !og_eq by lia. unfold feq, zg. rewrite !select_b2z.
  eexists. split; [reflexivity|].
  apply flags_cases in Ha. destruct Ha as [->|[->|[->| ->]]]; cbn [Z.eqb Pos.eqb].
  - assert (O : oki DE DF 0 0) by (unfold oki; lia). rewrite ie_mk_pack by exact O. split; [apply ipack_wf, O|]. rewrite decode_ipack by exact O. reflexivity.
  - assert (O : oki DE DF (e + (bias DE - bias SE)) (f * 2 ^ (DF - SF))) by (unfold oki; lia).
    rewrite ie_mk_pack by exact O. split; [apply ipack_wf, O|]. rewrite decode_ipack by exact O.
    replace (e + (bias DE - bias SE) =? 0) with false by (symmetry; apply Z.eqb_neq; lia).
    replace (e + (bias DE - bias SE) =? 2 ^ DE - 1) with false by (symmetry; apply Z.eqb_neq; lia).
    pose proof (veq_scale (DF - SF) (Num s (2 ^ SF + f) (e - bias SE - SF)) ltac:(lia)) as V. cbn [scale_v] in V.
    replace (2 ^ DF + f * 2 ^ (DF - SF)) with ((2 ^ SF + f) * 2 ^ (DF - SF)).
    + replace (e + (bias DE - bias SE) - bias DE - DF) with (e - bias SE - SF - (DF - SF)) by lia. exact V.
    + rewrite Z.mul_add_distr_r, <- pow2_add by lia. do 2 f_equal. lia.
  - assert (O : oki DE DF (2 ^ DE - 1) 0) by (unfold oki; lia). rewrite ie_mk_pack by exact O. split; [apply ipack_wf, O|].
    rewrite decode_ipack by exact O. rewrite N1, Z.eqb_refl. reflexivity.
  - assert (O : oki DE DF (2 ^ DE - 1) (2 ^ DF - 1)) by (unfold oki; lia). rewrite ie_mk_pack by exact O. split; [apply ipack_wf, O|].
    rewrite decode_ipack by exact O. rewrite N1, N2, Z.eqb_refl. reflexivity.
Qed.

(** ** numeric_limits *)
Lemma ie_lim E F s u v w : 2 <= E -> 1 <= F -> 0 <= u < 2 ^ (E - 1) -> 0 <= v < 2 -> 0 <= w < 2 ^ F ->
  cat F (cat 1 (cat (E - 1) (Z.b2z s) u) v) w = ipack E F s (2 * u + v) w /\ oki E F (2 * u + v) w.
Proof.
  intros HE HF Hu Hv Hw.
  assert (EE : 2 ^ E = 2 * 2 ^ (E - 1)) by (rewrite <- pow2_S by lia; f_equal; lia).
  split; [|unfold oki; lia]. rewrite (cat_eq (E - 1)) by lia. rewrite (cat_eq 1) by (change (2 ^ 1) with 2; lia). rewrite cat_eq by lia.
  change (2 ^ 1) with 2. unfold ipack. rewrite (pow2_add E F), EE by lia. ring.
Qed.

Theorem ie_limits_ok E F : 2 <= E -> 1 <= F ->
  (wf (E + F + 1) (ie_max E F) /\ wf (E + F + 1) (ie_lowest E F) /\ wf (E + F + 1) (ie_min E F)) /\
  (forall z s m e, wf (E + F + 1) z -> decode_ieee E F z = Num s m e ->
     vcmp (decode_ieee E F z) (decode_ieee E F (ie_max E F)) <> Some Gt /\
     vcmp (decode_ieee E F (ie_lowest E F)) (decode_ieee E F z) <> Some Gt /\
     (s = false -> vcmp (decode_ieee E F (ie_min E F)) (decode_ieee E F z) <> Some Gt)) /\
  (exists m e, decode_ieee E F (ie_max E F) = Num false m e) /\
  (exists m e, decode_ieee E F (ie_lowest E F) = Num true m e) /\
  (exists m e, decode_ieee E F (ie_min E F) = Num false m e) /\
  decode_ieee E F (ie_infinity E F) = Inf false /\ decode_ieee E F (ie_neg_infinity E F) = Inf true /\
  decode_ieee E F (ie_quiet_NaN E F) = NaN /\
  decode_ieee E F (ie_pos_zero E F) = Zero false /\ decode_ieee E F (ie_neg_zero E F) = Zero true.
Proof.
  intros HE HF.
  assert (EE : 2 ^ E = 2 * 2 ^ (E - 1)) by (rewrite <- pow2_S by lia; f_equal; lia).
  assert (PE : 2 <= 2 ^ (E - 1)) by (change 2 with (2 ^ 1) at 1; apply Z.pow_le_mono_r; lia).
  assert (PF : 2 <= 2 ^ F) by (change 2 with (2 ^ 1) at 1; apply Z.pow_le_mono_r; lia).
  assert (N1 : (2 ^ E - 1 =? 0) = false) by (apply Z.eqb_neq; lia). assert (N2 : (2 ^ F - 1 =? 0) = false) by (apply Z.eqb_neq; lia).
  unfold ie_max, ie_lowest, ie_min, ie_infinity, ie_neg_infinity, ie_quiet_NaN, ie_pos_zero, ie_neg_zero.
  unfold zg. change (og 1) with 1. rewrite !og_eq by lia.
  destruct (ie_lim E F false (2 ^ (E - 1) - 1) 0 (2 ^ F - 1)) as [M1 O1]; try lia.
  destruct (ie_lim E F true (2 ^ (E - 1) - 1) 0 (2 ^ F - 1)) as [M2 _]; try lia.
  destruct (ie_lim E F false 0 1 0) as [M3 O2]; try lia. cbn [Z.b2z] in M1, M2, M3. rewrite M1, M2, M3. clear M1 M2 M3.
  replace (2 * (2 ^ (E - 1) - 1) + 0) with (2 ^ E - 2) in * by lia. change (2 * 0 + 1) with 1 in *.
  assert (OI : oki E F (2 ^ E - 1) 0) by (unfold oki; lia). assert (ON : oki E F (2 ^ E - 1) (2 ^ F - 1)) by (unfold oki; lia).
  assert (OZ : oki E F 0 0) by (unfold oki; lia).
  change (ie_mk E F 0) with (ie_mk E F (Z.b2z false)). change (ie_mk E F 1) with (ie_mk E F (Z.b2z true)).
  rewrite !ie_mk_pack by assumption.
  assert (DM : forall s, decode_ieee E F (ipack E F s (2 ^ E - 2) (2 ^ F - 1)) = Num s (2 ^ F + (2 ^ F - 1)) (2 ^ E - 2 - bias E - F)).
  { intros s. rewrite decode_ipack by exact O1. replace (2 ^ E - 2 =? 0) with false by (symmetry; apply Z.eqb_neq; lia).
    replace (2 ^ E - 2 =? 2 ^ E - 1) with false by (symmetry; apply Z.eqb_neq; lia). reflexivity. }
  assert (Dm : decode_ieee E F (ipack E F false 1 0) = Num false (2 ^ F + 0) (1 - bias E - F)).
  { rewrite decode_ipack by exact O2. change (1 =? 0) with false. cbv iota. replace (1 =? 2 ^ E - 1) with false by (symmetry; apply Z.eqb_neq; lia). reflexivity. }
  rewrite !DM, Dm. split; [repeat split; apply ipack_wf; assumption|]. split.
  - intros z s m e Hz Hd. rewrite Hd. destruct (ie_view E F z ltac:(lia) HF Hz) as (t & g & h & H & ->). rewrite decode_ipack in Hd by exact H.
    destruct (Z.eqb_spec g 0); [discriminate|]. destruct (Z.eqb_spec g (2 ^ E - 1)); [destruct (h =? 0); discriminate|]. injection Hd as <- <- <-.
    destruct H as (_ & _ & Hg & Hh). cbn [vcmp]. rewrite !cmp_signed by lia.
    assert (B : 1 * 2 ^ F <= g * 2 ^ F + h <= (2 ^ E - 2) * 2 ^ F + (2 ^ F - 1)) by nia.
    assert (Hc : forall x y, x <= y -> Some (x ?= y) <> Some Gt).
    { intros x y Q K. injection K. apply Z.compare_le_iff. assumption. }
    repeat split; [| |intros ->]; try (destruct t; try discriminate); apply Hc; lia.
  - repeat split; try (do 2 eexists; reflexivity); rewrite decode_ipack by assumption; rewrite ?N1, ?N2, ?Z.eqb_refl; reflexivity.
Qed.

Theorem ie_signalling_NaN_is_inf E F : 1 <= E -> 1 <= F -> decode_ieee E F (ie_signalling_NaN E F) = Inf false.
Proof.
  intros HE HF. unfold ie_signalling_NaN. rewrite og_eq by lia.
  assert (PE : 2 <= 2 ^ E) by (change 2 with (2 ^ 1) at 1; apply Z.pow_le_mono_r; lia). assert (PF : 0 < 2 ^ F) by (apply pow2_pos; lia).
  assert (O : oki E F (2 ^ E - 1) 0) by (unfold oki; lia). change (zg 1) with (Z.b2z false). unfold zg. rewrite ie_mk_pack by exact O.
  rewrite decode_ipack by exact O. replace (2 ^ E - 1 =? 0) with false by (symmetry; apply Z.eqb_neq; lia). rewrite Z.eqb_refl. reflexivity.
Qed.

Theorem ie_one_ok E F : 2 <= E -> 1 <= F ->
  exists r r', ie_pos_one E F = Some r /\ ie_neg_one E F = Some r' /\ wf (E + F + 1) r /\ wf (E + F + 1) r' /\
    decode_ieee E F r = Num false (2 ^ F) (- F) /\ decode_ieee E F r' = Num true (2 ^ F) (- F).
Proof.
  intros HE HF.
  assert (EE : 2 ^ E = 2 * 2 ^ (E - 1)) by (rewrite <- pow2_S by lia; f_equal; lia).
  assert (PE : 2 <= 2 ^ (E - 1)) by (change 2 with (2 ^ 1) at 1; apply Z.pow_le_mono_r; lia). assert (PF : 0 < 2 ^ F) by (apply pow2_pos; lia).
  unfold ie_pos_one, ie_neg_one. rewrite of_int_ok by lia. cbn [bind].
  change (zg 1) with (Z.b2z false). change (og 1) with (Z.b2z true). unfold zg.
  assert (O : oki E F (2 ^ (E - 1) - 1) 0) by (unfold oki; lia). rewrite !ie_mk_pack by exact O.
  do 2 eexists. split; [reflexivity|]. split; [reflexivity|]. split; [apply ipack_wf, O|]. split; [apply ipack_wf, O|].
  rewrite !decode_ipack by exact O. replace (2 ^ (E - 1) - 1 =? 0) with false by (symmetry; apply Z.eqb_neq; lia).
  replace (2 ^ (E - 1) - 1 =? 2 ^ E - 1) with false by (symmetry; apply Z.eqb_neq; lia). unfold bias. split; f_equal; lia.
Qed.

(** The wrapper's addition aborts where the dual-path adder does. *)
Theorem w_add_aborts E F : 3 < E -> F = 1 \/ F = 61 -> 2 * F + 6 < 2 ^ E ->
  exists a b, wf (E + F + 1) a /\ wf (E + F + 1) b /\
    (exists m e, decode_ieee E F a = Num false m e) /\ (exists m e, decode_ieee E F b = Num false m e) /\ w_add E F a b = None.
Proof.
  intros HE HF HB. assert (PF : 0 < 2 ^ F) by (apply pow2_pos; lia).
  assert (OA : oki E F (2 * F + 4 + 1) 0) by (unfold oki; lia). assert (OB : oki E F 1 0) by (unfold oki; lia).
  exists (ipack E F false (2 * F + 4 + 1) 0), (ipack E F false 1 0).
  split; [apply ipack_wf, OA|]. split; [apply ipack_wf, OB|]. rewrite !decode_ipack by assumption.
  assert (N1 : (2 * F + 4 + 1 =? 0) = false) by (apply Z.eqb_neq; lia). assert (N2 : (2 * F + 4 + 1 =? 2 ^ E - 1) = false) by (apply Z.eqb_neq; lia).
  assert (N3 : (1 =? 2 ^ E - 1) = false) by (apply Z.eqb_neq; lia).
  split; [rewrite N1, N2; do 2 eexists; reflexivity|].
  split; [rewrite N3; change (1 =? 0) with false; do 2 eexists; reflexivity|].
  unfold w_add. rewrite !to_flopoco_pack by assumption. unfold iflags. rewrite N1, N2, N3. change (1 =? 0) with false. cbv iota.
  destruct (add_dual_asserts_at E F 1 HE HF ltac:(lia) ltac:(lia)) as (_ & _ & Q). rewrite Q. reflexivity.
Qed.

Corollary ie_promote_normals DE DF SE SF x : 1 <= SE < DE -> 1 <= SF <= DF -> wf (SE + SF + 1) x ->
  forall s m e, decode_ieee SE SF x = Num s m e ->
  exists r, ie_promote DE DF SE SF x = Some r /\ wf (DE + DF + 1) r /\ veq (decode_ieee DE DF r) (decode_ieee SE SF x).
Proof.
  intros HE HF Hx s m e D. destruct (ie_promote_wider DE DF SE SF x HE HF Hx) as (r & t & n & g & P & W & Q & V).
  exists r. split; [exact P|]. split; [exact W|]. rewrite Q, D. exact (V _ _ _ D).
Qed.

Corollary ie_promote_specials DE DF SE SF x : 1 <= SE < DE -> 1 <= SF <= DF -> wf (SE + SF + 1) x ->
  exists r s m e, ie_promote DE DF SE SF x = Some r /\ decode_ieee DE DF r = Num s m e.
Proof.
  intros HE HF Hx. destruct (ie_promote_wider DE DF SE SF x HE HF Hx) as (r & t & n & g & P & W & Q & V). exists r, t, n, g. split; assumption.
Qed.

(** ** class tests *)
Theorem ie_class_ok E F x : 1 <= E -> 1 <= F -> wf (E + F + 1) x ->
  ie_is_zero E F x = Z.b2z (match decode_ieee E F x with Zero _ => true | _ => false end) /\
  ie_is_normal E F x = Z.b2z (match decode_ieee E F x with Num _ _ _ => true | _ => false end) /\
  ie_is_inf E F x = Z.b2z (match decode_ieee E F x with Inf _ => true | _ => false end) /\
  ie_is_nan E F x = Z.b2z (match decode_ieee E F x with NaN => true | _ => false end) /\
  ie_is_positive E F x + ie_is_negative E F x = 1 /\
  (forall s, (decode_ieee E F x = Zero s \/ decode_ieee E F x = Inf s \/ exists m e, decode_ieee E F x = Num s m e) ->
     ie_is_negative E F x = Z.b2z s).
Proof.
  intros HE HF Hx. destruct (ie_view E F x HE HF Hx) as (t & e & f & H & ->).
  unfold ie_is_zero, ie_is_normal, ie_is_inf, ie_is_nan, ie_is_positive, ie_is_negative.
  rewrite ?ie_sign_pack, ?ie_exp_pack, ?ie_frac_pack, ?decode_ipack by exact H. rewrite og_eq by lia. unfold feq, fne, zg. rewrite !fand_b2z.
  assert (PE : 2 <= 2 ^ E) by (change 2 with (2 ^ 1) at 1; apply Z.pow_le_mono_r; lia).
  assert (HN : forall b : bool, (Z.b2z b =? 1) = b) by (intros []; reflexivity).
  destruct (Z.eqb_spec e 0) as [->|E0]; [|destruct (Z.eqb_spec e (2 ^ E - 1)) as [->|E1]; [destruct (Z.eqb_spec f 0) as [->|F0]|]].
  - replace (0 =? 2 ^ E - 1) with false by (symmetry; apply Z.eqb_neq; lia). cbn [andb negb Z.b2z]. repeat split; try reflexivity; [destruct t; reflexivity|].
    intros s [Q|[Q|(m & g & Q)]]; try discriminate. injection Q as ->. rewrite HN. reflexivity.
  - cbn [andb negb Z.b2z]. repeat split; try reflexivity; [destruct t; reflexivity|].
    intros s [Q|[Q|(m & g & Q)]]; try discriminate. injection Q as ->. rewrite HN. reflexivity.
  - cbn [andb negb Z.b2z]. repeat split; try reflexivity; [destruct t; reflexivity|].
    intros s [Q|[Q|(m & g & Q)]]; try discriminate.
  - cbn [andb negb Z.b2z]. repeat split; try reflexivity; [destruct t; reflexivity|].
    intros s [Q|[Q|(m & g & Q)]]; try discriminate. injection Q as -> _ _. rewrite HN. reflexivity.
Qed.

(** Exporting gives canonical zeros and NaNs. *)
Theorem to_ieee_canonical E F x : 1 <= E -> 1 <= F -> wf (E + F + 3) x ->
  (forall s, decode_ieee E F (to_ieee E F x) = Zero s -> to_ieee E F x = if s then 2 ^ (E + F) else 0) /\
  (decode_ieee E F (to_ieee E F x) = NaN ->
     to_ieee E F x = 2 ^ (E + F) - 1 \/ to_ieee E F x = 2 * 2 ^ (E + F) - 1).
Proof.
  intros HE HF Hx. destruct (pack_view E F x HE HF Hx) as (a & s & e & f & H & ->). rewrite to_ieee_pack by exact H.
  destruct H as (_ & _ & Ha & He & Hf).
  assert (PE : 2 <= 2 ^ E) by (change 2 with (2 ^ 1) at 1; apply Z.pow_le_mono_r; lia).
  assert (PF : 2 <= 2 ^ F) by (change 2 with (2 ^ 1) at 1; apply Z.pow_le_mono_r; lia).
  assert (EEF : 2 ^ (E + F) = 2 ^ E * 2 ^ F) by (apply pow2_add; lia).
  assert (O0 : oki E F 0 0) by (unfold oki; lia). assert (O1 : oki E F (2 ^ E - 1) 0) by (unfold oki; lia).
  assert (O2 : oki E F (2 ^ E - 1) (2 ^ F - 1)) by (unfold oki; lia). assert (O3 : oki E F e f) by (unfold oki; lia).
  assert (N1 : (2 ^ E - 1 =? 0) = false) by (apply Z.eqb_neq; lia). assert (N2 : (2 ^ F - 1 =? 0) = false) by (apply Z.eqb_neq; lia).
  destruct ((a =? 0) || (a =? 1) && (e =? 0)) eqn:C1; [|destruct ((a =? 2) || (a =? 1) && (e =? 2 ^ E - 1)) eqn:C2; [|destruct (a =? 3) eqn:C3]];
    rewrite decode_ipack by assumption.
  - cbn [Z.eqb]. split; [|discriminate]. intros t Q. injection Q as ->. unfold ipack. destruct t; cbn [Z.b2z]; lia.
  - rewrite N1, Z.eqb_refl. cbn [Z.eqb]. split; [intros t Q|intros Q]; discriminate.
  - rewrite N1, N2, Z.eqb_refl. split; [intros t Q; discriminate|]. intros _. unfold ipack. destruct s; cbn [Z.b2z]; [right|left]; nia.
  - apply flags_cases in Ha. apply orb_false_iff in C1, C2. destruct C1 as [C0 C1], C2 as [C2 C4]. apply andb_false_iff in C1, C4.
    destruct C1 as [C1|C1]; [|destruct C4 as [C4|C4]].
    + apply Z.eqb_neq in C0, C1, C2, C3. lia.
    + apply Z.eqb_neq in C0, C4, C2, C3. lia.
    + rewrite C1, C4. split; [intros t Q|intros Q]; discriminate.
Qed.
