(** Consequences for add_single: commutativity, cancellation, negation, failing widths. *)
From Coq Require Import ZArith Bool Lia.
From Verif Require Import Fw FwLemmas Spec SpecLemmas Flopoco FlopocoLemmas FlopocoProofs CompareProofs ValueLemmas Mul MulProofs AddSingle AddLemmas AddSingleProofs AddSingleProofs2 AddSingleProofs3.
Open Scope Z_scope.

Theorem add_single_same E F x y : add_ok_width E F -> wf (E + F + 3) x -> wf (E + F + 3) y ->
  exists r, add_single E F E F E F x y = Some r /\ wf (E + F + 3) r /\
    let vx := decode E F x in let vy := decode E F y in
    (2 ^ E < 2 * (F + 3) \/ ~ absorbed F vx vy /\ ~ absorbed F vy vx -> decode E F r = add_spec E F vx vy) /\
    (2 * (F + 3) < 2 ^ E -> absorbed F vx vy -> decode E F r = vx) /\
    (2 * (F + 3) < 2 ^ E -> absorbed F vy vx -> decode E F r = vy).
Proof.
  intros (H1 & H2 & H3 & H4 & H5) Wx Wy.
  destruct (pack_view E F x H1 H2 Wx) as (a & s & e & f & Ha & ->).
  destruct (pack_view E F y H1 H2 Wy) as (b & t & g & h & Hb & ->).
  unfold add_single. assert (EC : forall p, ctMax p p = p) by (intros; unfold ctMax; destruct (Z.ltb_spec p p); lia). rewrite !EC.
  unfold promote. rewrite !Z.eqb_refl. cbn [andb bind assert_].
  destruct (body_correct E F a s e f b t g h Ha Hb H3 H4 H5) as (r & R1 & R2 & R3 & R4 & R5). cbv zeta in *.
  exists r. split; [exact R1|]. split; [exact R2|]. split; [|split].
  - intros [Hs|(Hn1 & Hn2)].
    + apply R3; intros (Hc & _); lia.
    + apply R3; intros Hc; pose proof Hc as (Hc1 & _); [apply Hn1|apply Hn2]; apply (swallow_absorbed E F); assumption.
  - intros HS Hab. apply R4. apply (swallow_absorbed E F); assumption.
  - intros HS Hab. apply R5. apply (swallow_absorbed E F); assumption.
Qed.

Lemma absorbed_dec E F x y : 1 <= E -> 1 <= F -> wf (E + F + 3) x -> wf (E + F + 3) y -> 2 * (F + 3) < 2 ^ E ->
  absorbed F (decode E F x) (decode E F y) \/ ~ absorbed F (decode E F x) (decode E F y).
Proof.
  intros H1 H2 Wx Wy HS.
  destruct (pack_view E F x H1 H2 Wx) as (a & s & e & f & Ha & ->).
  destruct (pack_view E F y H1 H2 Wy) as (b & t & g & h & Hb & ->).
  rewrite <- !swallow_absorbed by assumption. unfold swallow.
  destruct (Z.eq_dec a 1); [|right; tauto]. destruct (Z.eq_dec b 1); [|right; tauto].
  destruct (xorb s t); [|right; intros (_ & _ & _ & H & _); discriminate]. destruct (Z.eq_dec f 0); [|right; tauto].
  destruct (Z.eq_dec h 0); [right; tauto|]. destruct (Z.eq_dec (e - g) (F + 2)); [left; tauto|right; tauto].
Qed.

(** The value of a sum as a function of the two data. *)
Lemma add_single_cases E F x y : add_ok_width E F -> wf (E + F + 3) x -> wf (E + F + 3) y ->
  exists r, add_single E F E F E F x y = Some r /\ wf (E + F + 3) r /\
    let vx := decode E F x in let vy := decode E F y in
    ((2 ^ E < 2 * (F + 3) \/ ~ absorbed F vx vy /\ ~ absorbed F vy vx) /\ decode E F r = add_spec E F vx vy) \/
    (2 * (F + 3) < 2 ^ E /\ absorbed F vx vy /\ decode E F r = vx) \/
    (2 * (F + 3) < 2 ^ E /\ absorbed F vy vx /\ decode E F r = vy).
Proof.
  intros HW Wx Wy. destruct (add_single_same E F x y HW Wx Wy) as (r & R1 & R2 & R3 & R4 & R5).
  exists r. destruct HW as (H1 & H2 & H3 & H4 & H5). cbv zeta in *. split; [exact R1|]. split; [exact R2|].
  destruct (Z.lt_trichotomy (2 ^ E) (2 * (F + 3))) as [L|[L|L]]; [|contradiction|].
  - left. tauto.
  - destruct (absorbed_dec E F x y H1 H2 Wx Wy L); [tauto|]. destruct (absorbed_dec E F y x H1 H2 Wy Wx L); tauto.
Qed.

Lemma absorbed_asym E F x y : 1 <= E -> 1 <= F -> wf (E + F + 3) x -> wf (E + F + 3) y -> 2 * (F + 3) < 2 ^ E ->
  absorbed F (decode E F x) (decode E F y) -> absorbed F (decode E F y) (decode E F x) -> False.
Proof.
  intros H1 H2 Wx Wy HS.
  destruct (pack_view E F x H1 H2 Wx) as (a & s & e & f & Ha & ->).
  destruct (pack_view E F y H1 H2 Wy) as (b & t & g & h & Hb & ->).
  rewrite <- !swallow_absorbed by assumption. unfold swallow. lia.
Qed.

Theorem add_single_comm E F x y : add_ok_width E F -> wf (E + F + 3) x -> wf (E + F + 3) y ->
  exists r r', add_single E F E F E F x y = Some r /\ add_single E F E F E F y x = Some r' /\ decode E F r = decode E F r'.
Proof.
  intros HW Wx Wy. destruct (add_single_same E F x y HW Wx Wy) as (r & R1 & R2 & R3 & R4 & R5).
  destruct (add_single_cases E F y x HW Wy Wx) as (r' & S1 & S2 & HS). cbv zeta in *.
  exists r, r'. split; [exact R1|]. split; [exact S1|].
  destruct HS as [(Hc & ->)|[(HL & Hc & ->)|(HL & Hc & ->)]].
  - rewrite R3 by tauto. apply add_gen_comm.
  - auto.
  - auto.
Qed.

Lemma not_absorbed_neg F v : 1 <= F -> ~ absorbed F v (neg_spec v) /\ ~ absorbed F (neg_spec v) v.
Proof.
  intros HF.
  assert (G : forall m e p, 0 <= F -> cmp_num m e 1 p = Eq -> cmp_num m e 1 (p - F - 1) = Lt -> False).
  { intros m e p HF0 C1 C2. remember (Z.min e (p - F - 1)) as k.
    rewrite (cmp_num_k _ _ _ _ k) in C1 by lia. rewrite (cmp_num_k _ _ _ _ k) in C2 by lia. apply Z.compare_eq in C1. apply Z.compare_lt_iff in C2.
    rewrite Z.mul_1_l in *. rewrite C1 in C2. pose proof (pow2_le (p - F - 1 - k) (p - k) ltac:(lia)) as HQ. exact (Z.lt_irrefl _ (Z.lt_le_trans _ _ _ C2 HQ)). }
  split; intros (s & m & e & n & f & p & Hx & Hy & C1 & C2 & C3); destruct v; try discriminate Hx; try discriminate Hy;
  cbn in Hx, Hy; injection Hx; injection Hy; intros; subst; apply (G _ _ _ ltac:(lia) C1 C3).
Qed.

Lemma add_spec_neg_self E F v : finite_v v -> add_spec E F v (neg_spec v) = Zero false.
Proof.
  intros H. destruct v as [|s|s|s m e]; try contradiction H; unfold add_spec; cbn [neg_spec add_gen].
  - destruct s; reflexivity.
  - assert (E0 : forall p, sgn s p + sgn (negb s) p = 0) by (intros; destruct s; cbn; lia). rewrite E0. reflexivity.
Qed.

Theorem add_single_neg_self E F x y : add_ok_width E F -> wf (E + F + 3) x -> wf (E + F + 3) y ->
  finite_v (decode E F x) -> decode E F y = neg_spec (decode E F x) ->
  exists r, add_single E F E F E F x y = Some r /\ decode E F r = Zero false.
Proof.
  intros HW Wx Wy Hf Hy. destruct (add_single_same E F x y HW Wx Wy) as (r & R1 & R2 & R3 & _). cbv zeta in *.
  exists r. split; [exact R1|]. rewrite Hy in *. destruct HW as (H1 & H2 & _).
  rewrite R3 by (right; apply not_absorbed_neg; lia). apply add_spec_neg_self. assumption.
Qed.

Definition zero_v (x : fval) : Prop := match x with Zero _ => True | _ => False end.

Lemma add_spec_mirror E F u v : pos_v u -> pos_v v ->
  add_spec E F (neg_spec u) (neg_spec v) = neg_spec (add_spec E F u v) \/
  add_spec E F (neg_spec u) (neg_spec v) = Zero false /\ add_spec E F u v = Zero false.
Proof.
  assert (HR : forall s n d k, round_to E F (negb s) n d k = neg_spec (round_to E F s n d k)).
  { intros. unfold round_to, round_range. destruct (round_pos F n d). unfold finish.
    destruct (_ <? _); [reflexivity|]. destruct (_ <? _); reflexivity. }
  intros Hu Hv. destruct u as [|s|s|s m e], v as [|t|t|t n f]; unfold add_spec; cbn [neg_spec add_gen]; try (left; reflexivity).
  - left. destruct s, t; reflexivity.
  - destruct s, t; cbn; auto.
  - left. apply HR.
  - left. apply HR.
  - assert (Es : forall b p, sgn (negb b) p = - sgn b p) by (intros b p; destruct b; cbn; lia).
    rewrite !Es, <- Z.opp_add_distr. remember (sgn s _ + sgn t _) as w.
    destruct (Z.eqb_spec w 0) as [->|Hn]; [right; split; reflexivity|]. left.
    destruct (Z.eqb_spec (- w) 0); [lia|]. rewrite Z.abs_opp, <- HR. f_equal.
    destruct (Z.ltb_spec (- w) 0), (Z.ltb_spec w 0); (reflexivity || lia).
Qed.

Lemma absorbed_neg F u v : absorbed F (neg_spec u) (neg_spec v) <-> absorbed F u v.
Proof.
  assert (G : forall u v, absorbed F u v -> absorbed F (neg_spec u) (neg_spec v)).
  { clear. intros u v (s & m & e & n & f & p & -> & -> & C). exists (negb s), m, e, n, f, p. split; [reflexivity|]. split; [reflexivity|]. exact C. }
  split; [|apply G]. intros H. apply G in H.
  assert (N2 : forall w, neg_spec (neg_spec w) = w) by (intros w; destruct w as [|b|b|b]; cbn; rewrite ?negb_involutive; reflexivity).
  rewrite !N2 in H. exact H.
Qed.

Theorem add_single_mirror E F x y nx ny : add_ok_width E F ->
  wf (E + F + 3) x -> wf (E + F + 3) y -> wf (E + F + 3) nx -> wf (E + F + 3) ny ->
  decode E F nx = neg_spec (decode E F x) -> decode E F ny = neg_spec (decode E F y) ->
  exists r nr, add_single E F E F E F x y = Some r /\ add_single E F E F E F nx ny = Some nr /\
    (decode E F nr = neg_spec (decode E F r) \/ decode E F nr = Zero false /\ decode E F r = Zero false).
Proof.
  intros HW Wx Wy Wnx Wny Hx Hy. destruct (add_single_cases E F x y HW Wx Wy) as (r & R1 & R2 & HR).
  destruct (add_single_same E F nx ny HW Wnx Wny) as (nr & S1 & S2 & S3 & S4 & S5). cbv zeta in *.
  rewrite Hx, Hy in *. rewrite !absorbed_neg in *. pose proof HW as (_ & HF & _).
  exists r, nr. split; [exact R1|]. split; [exact S1|].
  destruct HR as [(Hc & ->)|[(HL & Hc & ->)|(HL & Hc & ->)]].
  - rewrite S3 by exact Hc. apply add_spec_mirror; apply decode_pos; lia.
  - left. auto.
  - left. auto.
Qed.

(** ** Widths for which an assertion fails *)
Lemma shiftVal_narrow wE wF ed : 1 <= wE -> 1 <= wF -> 2 ^ wE <= wF + 3 -> add_shiftVal wE wF ed = None.
Proof.
  intros HE HF H. unfold add_shiftVal. destruct (intlog2_spec (wF + 3) ltac:(lia)) as (S1 & S2 & S3).
  remember (intlog2 (wF + 3)) as s. assert (wE < s).
  { destruct (Z.lt_ge_cases wE s); [assumption|]. pose proof (pow2_le s wE ltac:(lia)). lia. }
  destruct (Z.ltb_spec s wE); [lia|]. destruct (Z.eqb_spec wE s); [lia|]. unfold checked_cast.
  destruct (Z.eqb_spec s (s - wE + (wE + 1))); [lia|]. reflexivity.
Qed.

Theorem add_single_asserts E F x y : 1 <= E -> 1 <= F -> 2 ^ E <= F + 3 -> add_single E F E F E F x y = None.
Proof.
  intros HE HF H. unfold add_single. assert (EC : forall p, ctMax p p = p) by (intros; unfold ctMax; destruct (Z.ltb_spec p p); lia). rewrite !EC.
  unfold promote. rewrite !Z.eqb_refl. cbn [andb bind assert_]. rewrite body_core.
  destruct (_ <? _); unfold core_of, add_core; rewrite shiftVal_narrow by assumption; reflexivity.
Qed.

(** ** Multiplication *)
Lemma mul_gen_comm rnd x y : mul_gen rnd x y = mul_gen rnd y x.
Proof.
  destruct x as [|s|s|s m e], y as [|t|t|t n f]; cbn [mul_gen]; try reflexivity; rewrite xorb_comm; try reflexivity.
  rewrite (Z.mul_comm m), (Z.add_comm e). reflexivity.
Qed.

Theorem mul_comm wE wFR wFX wFY x y :
  2 <= wE -> 1 <= wFX -> 1 <= wFY -> 1 <= wFR -> wf (wE + wFX + 3) x -> wf (wE + wFY + 3) y ->
  exists r r', mul wE wFR wE wFX wFY x y = Some r /\ mul wE wFR wE wFY wFX y x = Some r' /\
    decode wE wFR r = decode wE wFR r'.
Proof.
  intros HE HX HY HR Wx Wy. destruct (Z.lt_ge_cases wFR (wFX + wFY + 1)) as [L|L].
  - destruct (mul_round_correct wE wFR wFX wFY x y HE HX HY ltac:(lia) Wx Wy) as (r & R1 & _ & R2).
    destruct (mul_round_correct wE wFR wFY wFX y x HE HY HX ltac:(lia) Wy Wx) as (r' & S1 & _ & S2).
    exists r, r'. split; [exact R1|]. split; [exact S1|]. rewrite R2, S2. apply mul_gen_comm.
  - destruct (mul_exact_char wE wFR wFX wFY x y HE HX HY ltac:(lia) Wx Wy) as (r & R1 & _ & R2).
    destruct (mul_exact_char wE wFR wFY wFX y x HE HY HX ltac:(lia) Wy Wx) as (r' & S1 & _ & S2).
    exists r, r'. split; [exact R1|]. split; [exact S1|]. rewrite R2, S2. unfold mul_spec. rewrite mul_gen_comm.
    destruct (decode wE wFX x), (decode wE wFY y); reflexivity.
Qed.
