(** What the test programs accept, and that the library passes them. *)
From Coq Require Import ZArith List Bool Lia.
From Verif Require Import Fw FwLemmas Spec SpecFma SpecTests SpecLemmas Flopoco FlopocoLemmas FlopocoProofs ConvertProofs CompareProofs Mul MulProofs Div DivProofs3 AddDual AddDualProofs AddDualProofs5 AddSingle AddSingleProofs3 AddSingleAlt AddAltProofs AddAltProofs2 Fma FmaProofs4 MpfrLib Mpfr MpfrRange MpfrProofs MpfrProofs2 Policy PolicyProofs PolicyProofs6 Tests TestsProofs TestsProofs2 TestsProofs3 TestsProofs4.
Import ListNotations.
Open Scope Z_scope.

(** A format make_input can be used with. *)
Lemma fmt_ef E F : fmt E F -> ok_ef E F. Proof. intros [? ?]. split; lia. Qed.
(** The function under test returns a bit pattern for every two operands. *)
(** o is a bit pattern whose datum is related to v. *)

Lemma same_result E F got ref v : ok_ef E F -> (exists r, got = Some r /\ wf (E + F + 3) r) -> rounds_to E F ref v ->
  exists b, same_or_exit E F got ref = Some b /\ (b = true <-> result E F eq got v).
Proof.
  intros HO (g & -> & Wg) (r & -> & Wr & <-). destruct (same_ok E F g r HO Wg Wr) as (b & H & K). exists b. split; [exact H|].
  rewrite K. unfold result. split; [intros Q; exists g; auto|intros (g' & Q & R); injection Q as <-; exact R].
Qed.
Lemma near_result E F got ref v : ok_ef E F -> (exists r, got = Some r /\ wf (E + F + 3) r) -> rounds_to E F ref v ->
  exists b, near_or_exit E F got ref = Some b /\ (b = true <-> result E F (near F) got v).
Proof.
  intros HO (g & -> & Wg) (r & -> & Wr & <-). destruct (near_ok E F g r HO Wg Wr) as (b & H & K). exists b. split; [exact H|].
  rewrite K. unfold result. split; [intros Q; exists g; auto|intros (g' & Q & R); injection Q as <-; exact R].
Qed.
Lemma ulp_result E F got ref v : ok_ef E F -> (exists r, got = Some r /\ wf (E + F + 3) r) -> rounds_to E F ref v ->
  exists b, ulp_or_exit E F got ref = Some b /\ (b = true <-> result E F (fun g v => one_place E F v g) got v).
Proof.
  intros [HE HF] (g & -> & Wg) (r & -> & Wr & <-). unfold ulp_or_exit. cbn [bind]. eexists. split; [reflexivity|].
  destruct (within_1ulp_correct E F r g ltac:(lia) ltac:(lia) Wr Wg) as [Z K].
  transitivity (within_1ulp E F r g = 1); [unfold to_bool; destruct Z as [-> | ->]; cbn; split; congruence|]. rewrite K. unfold result, one_place, between.
  split; [intros Q; exists g; auto|intros (g' & Q & R); injection Q as <-; exact R].
Qed.

(** The lists, and that every member is a bit pattern of the format. *)
Lemma args_wf E F u n : fmt E F -> draws_ok F u -> exists l, make_args E F u n = Some l /\ (forall w, In w l -> wf (E + F + 3) w) /\ Forall (plain E F) l.
Proof.
  intros [HE HF] Hu. destruct (args_ok E F u n HE HF Hu) as (l & H & P & _). exists l. split; [exact H|]. split; [|exact P].
  intros w Hw. rewrite Forall_forall in P. apply (P w Hw).
Qed.

Theorem mul_test impl ER FR EA FA EB FB u v n : ok_ef ER FR -> fmt EA FA -> fmt EB FB -> draws_ok FA u -> draws_ok FB v ->
  total2 ER FR EA FA EB FB impl ->
  exists la lb b, make_args EA FA u n = Some la /\ make_args EB FB v n = Some lb /\ test_mul_impl impl ER FR EA FA EB FB u v n = Some b /\
    (b = true <-> forall x y, In x la -> In y lb -> result ER FR eq (impl x y) (mul_spec ER FR (decode EA FA x) (decode EB FB y))).
Proof.
  intros HR HA HB Hu Hv HT. destruct (args_wf EA FA u n HA Hu) as (la & La & Wa & _). destruct (args_wf EB FB v n HB Hv) as (lb & Lb & Wb & _).
  unfold test_mul_impl. rewrite La, Lb. cbn [bind]. exists la, lb.
  destruct (each2_ok (fun a b => same_or_exit ER FR (impl a b) (Mpfr.ref_mul ER FR EA FA EB FB a b))
    (fun x y => result ER FR eq (impl x y) (mul_spec ER FR (decode EA FA x) (decode EB FB y))) la lb) as (b & H & K).
  - intros a b Ha Hb. apply same_result; [exact HR|apply HT; auto|]. apply ref_mul_ok; auto using fmt_ef.
  - exists b. auto.
Qed.
Theorem div_test impl E F u n : fmt E F -> draws_ok F u -> total2 E F E F E F impl ->
  exists l b, make_args E F u n = Some l /\ test_div_impl impl E F u n = Some b /\
    (b = true <-> forall x y, In x l -> In y l -> result E F eq (impl x y) (div_spec E F (decode E F x) (decode E F y))).
Proof.
  intros HA Hu HT. destruct (args_wf E F u n HA Hu) as (la & La & Wa & _).
  unfold test_div_impl. rewrite La. cbn [bind]. exists la.
  destruct (each2_ok (fun a b => same_or_exit E F (impl a b) (Mpfr.ref_div E F E F E F a b))
    (fun x y => result E F eq (impl x y) (div_spec E F (decode E F x) (decode E F y))) la la) as (b & H & K).
  - intros a b Ha Hb. apply same_result; [apply fmt_ef, HA|apply HT; auto|]. apply ref_div_ok; auto using fmt_ef.
  - exists b. auto.
Qed.
Theorem add_test impl E F u n : fmt E F -> draws_ok F u -> total2 E F E F E F impl ->
  exists l b, make_args E F u n = Some l /\ test_add_impl impl E F u n = Some b /\
    (b = true <-> forall x y, In x l -> In y l -> result E F eq (impl x y) (add_spec E F (decode E F x) (decode E F y))).
Proof.
  intros HA Hu HT. destruct (args_wf E F u n HA Hu) as (la & La & Wa & _).
  unfold test_add_impl. rewrite La. cbn [bind]. exists la.
  destruct (each2_ok (fun a b => same_or_exit E F (impl a b) (Mpfr.ref_add E F E F E F a b))
    (fun x y => result E F eq (impl x y) (add_spec E F (decode E F x) (decode E F y))) la la) as (b & H & K).
  - intros a b Ha Hb. apply same_result; [apply fmt_ef, HA|apply HT; auto|]. apply ref_add_ok; auto using fmt_ef.
  - exists b. auto.
Qed.
Theorem near_test impl ER FR EA FA EB FB u v n : ok_ef ER FR -> fmt EA FA -> fmt EB FB -> draws_ok FA u -> draws_ok FB v ->
  total2 ER FR EA FA EB FB impl ->
  exists la lb b, make_args EA FA u n = Some la /\ make_args EB FB v n = Some lb /\ test_add_near impl ER FR EA FA EB FB u v n = Some b /\
    (b = true <-> forall x y, In x la -> In y lb -> result ER FR (near FR) (impl x y) (add_spec ER FR (decode EA FA x) (decode EB FB y))).
Proof.
  intros HR HA HB Hu Hv HT. destruct (args_wf EA FA u n HA Hu) as (la & La & Wa & _). destruct (args_wf EB FB v n HB Hv) as (lb & Lb & Wb & _).
  unfold test_add_near. rewrite La, Lb. cbn [bind]. exists la, lb.
  destruct (each2_ok (fun a b => near_or_exit ER FR (impl a b) (Mpfr.ref_add ER FR EA FA EB FB a b))
    (fun x y => result ER FR (near FR) (impl x y) (add_spec ER FR (decode EA FA x) (decode EB FB y))) la lb) as (b & H & K).
  - intros a b Ha Hb. apply near_result; [exact HR|apply HT; auto|]. apply ref_add_ok; auto using fmt_ef.
  - exists b. auto.
Qed.
Theorem convert_test impl ER FR EX FX u n : ok_ef ER FR -> fmt EX FX -> draws_ok FX u -> total1 ER FR EX FX impl ->
  exists l b, make_args EX FX u n = Some l /\ test_convert_impl impl ER FR EX FX u n = Some b /\
    (b = true <-> forall x, In x l -> result ER FR (near FR) (impl x) (convert_spec ER FR (decode EX FX x))).
Proof.
  intros HR HA Hu HT. destruct (args_wf EX FX u n HA Hu) as (la & La & Wa & _).
  unfold test_convert_impl. rewrite La. cbn [bind]. exists la.
  destruct (each_ok (fun a => near_or_exit ER FR (impl a) (ref_convert ER FR EX FX a))
    (fun x => result ER FR (near FR) (impl x) (convert_spec ER FR (decode EX FX x))) la) as (b & H & K).
  - intros a Ha. apply near_result; [exact HR|apply HT; auto|]. apply ref_convert_ok; auto using fmt_ef.
  - exists b. auto.
Qed.

(** ** The library *)
Lemma rounds_result E F o v : rounds_to E F o v -> result E F eq o v. Proof. intros (r & -> & _ & H). exists r. auto. Qed.

Theorem mul_passes E FR FA FB u v n : ok_ef E FR -> fmt E FA -> fmt E FB -> FR < FA + FB + 1 -> draws_ok FA u -> draws_ok FB v ->
  test_mul_impl (mul E FR E FA FB) E FR E FA E FB u v n = Some true.
Proof.
  intros HR HA HB HW Hu Hv. pose proof HR as [HE HF]. pose proof HA as [HE4 HFA]. pose proof HB as [_ HFB].
  assert (C : forall x y, wf (E + FA + 3) x -> wf (E + FB + 3) y -> rounds_to E FR (mul E FR E FA FB x y) (mul_spec E FR (decode E FA x) (decode E FB y))).
  { intros x y Wx Wy. apply mul_round_correct; (lia || assumption). }
  destruct (mul_test (mul E FR E FA FB) E FR E FA E FB u v n HR HA HB Hu Hv) as (la & lb & b & La & Lb & H & K).
  { intros x y Wx Wy. destruct (C x y Wx Wy) as (r & R1 & R2 & _). eauto. }
  rewrite H. f_equal. apply K. destruct (args_wf E FA u n HA Hu) as (la' & La' & Wa & _). destruct (args_wf E FB v n HB Hv) as (lb' & Lb' & Wb & _).
  assert (la' = la) by congruence. assert (lb' = lb) by congruence. subst la' lb'. intros x y Hx Hy. apply rounds_result, C; auto.
Qed.
Theorem div_passes E F u n : fmt E F -> draws_ok F u -> test_div_impl (div E F E F E F) E F u n = Some true.
Proof.
  intros HA Hu. pose proof HA as [HE HF].
  assert (C : forall x y, wf (E + F + 3) x -> wf (E + F + 3) y -> rounds_to E F (div E F E F E F x y) (div_spec E F (decode E F x) (decode E F y))).
  { intros x y Wx Wy. apply div_v1_correct; (lia || assumption). }
  destruct (div_test (div E F E F E F) E F u n HA Hu) as (l & b & L & H & K).
  { intros x y Wx Wy. destruct (C x y Wx Wy) as (r & R1 & R2 & _). eauto. }
  rewrite H. f_equal. apply K. destruct (args_wf E F u n HA Hu) as (l' & L' & Wa & _). assert (l' = l) by congruence. subst l'.
  intros x y Hx Hy. apply rounds_result, C; auto.
Qed.
Theorem add_dual_passes E F u n : fmt E F -> dual_ok_width E F -> draws_ok F u -> test_add_impl (add_dual E F E F E F) E F u n = Some true.
Proof.
  intros HA HD Hu. pose proof HA as [HE HF].
  assert (C : forall x y, wf (E + F + 3) x -> wf (E + F + 3) y -> rounds_to E F (add_dual E F E F E F x y) (add_spec E F (decode E F x) (decode E F y))).
  { intros x y Wx Wy. pose proof (add_dual_ok E F E F x y) as K. cbv zeta in K. rewrite !Z.max_id in K. apply K; (lia || assumption). }
  destruct (add_test (add_dual E F E F E F) E F u n HA Hu) as (l & b & L & H & K).
  { intros x y Wx Wy. destruct (C x y Wx Wy) as (r & R1 & R2 & _). eauto. }
  rewrite H. f_equal. apply K. destruct (args_wf E F u n HA Hu) as (l' & L' & Wa & _). assert (l' = l) by congruence. subst l'.
  intros x y Hx Hy. apply rounds_result, C; auto.
Qed.
Theorem near_passes impl EA FA EB FB u v n :
  let E := Z.max EA EB in let F := Z.max FA FB in
  fmt EA FA -> fmt EB FB -> draws_ok FA u -> draws_ok FB v ->
  (forall x y, wf (EA + FA + 3) x -> wf (EB + FB + 3) y -> exists r, impl x y = Some r /\ wf (E + F + 3) r /\ near F (decode E F r) (add_spec E F (decode EA FA x) (decode EB FB y))) ->
  test_add_near impl E F EA FA EB FB u v n = Some true.
Proof.
  intros E F HA HB Hu Hv HC. assert (HR : ok_ef E F) by (destruct HA, HB; unfold E, F; split; lia).
  destruct (near_test impl E F EA FA EB FB u v n HR HA HB Hu Hv) as (la & lb & b & La & Lb & H & K).
  { intros x y Wx Wy. destruct (HC x y Wx Wy) as (r & R1 & R2 & _). eauto. }
  rewrite H. f_equal. apply K. destruct (args_wf EA FA u n HA Hu) as (la' & La' & Wa & _). destruct (args_wf EB FB v n HB Hv) as (lb' & Lb' & Wb & _).
  assert (la' = la) by congruence. assert (lb' = lb) by congruence. subst la' lb'. intros x y Hx Hy. destruct (HC x y (Wa x Hx) (Wb y Hy)) as (r & R1 & _ & R3). exists r. auto.
Qed.
Theorem add_single_passes EA FA EB FB u v n :
  let E := Z.max EA EB in let F := Z.max FA FB in
  fmt EA FA -> fmt EB FB -> F + 3 < 2 ^ E -> 2 ^ E <> 2 * (F + 3) -> draws_ok FA u -> draws_ok FB v ->
  test_add_near (add_single E F EA FA EB FB) E F EA FA EB FB u v n = Some true /\
  test_add_near (add_single_v5 E F EA FA EB FB) E F EA FA EB FB u v n = Some true.
Proof.
  intros E F HA HB H1 H2 Hu Hv. pose proof HA as [? ?]. pose proof HB as [? ?].
  assert (C : forall EA FA EB FB x y, fmt EA FA -> fmt EB FB -> Z.max EA EB = E -> Z.max FA FB = F -> wf (EA + FA + 3) x -> wf (EB + FB + 3) y -> exists r, add_single E F EA FA EB FB x y = Some r /\ wf (E + F + 3) r /\ near F (decode E F r) (add_spec E F (decode EA FA x) (decode EB FB y))).
  { intros EA' FA' EB' FB' x y [HA1 HA2] [HB1 HB2] Q1 Q2 Wx Wy. rewrite <- Q1, <- Q2 in *. apply add_single_near; (lia || assumption). }
  split; apply near_passes; try assumption; intros x y Wx Wy.
  - apply C; auto.
  - rewrite add_single_v5_eq by (lia || assumption). destruct (FA <? FB); [|apply C; auto].
    unfold add_spec. rewrite ValueLemmas.add_gen_comm. apply C; auto; rewrite Z.max_comm; reflexivity.
Qed.
Theorem convert_passes ER FR EX FX u n : ok_ef ER FR -> fmt EX FX -> draws_ok FX u ->
  test_convert_impl (convert ER FR EX FX) ER FR EX FX u n = Some true.
Proof.
  intros HR HA Hu. pose proof HR as [HE HF]. pose proof HA as [HEX HFX].
  destruct (args_wf EX FX u n HA Hu) as (l & L & W & P). unfold test_convert_impl. rewrite L. cbn [bind].
  destruct (each_ok (fun a => near_or_exit ER FR (convert ER FR EX FX a) (ref_convert ER FR EX FX a)) (fun _ => True) l) as (b & H & K).
  - intros a Ha. pose proof (W a Ha) as Wa. rewrite Forall_forall in P. destruct (P a Ha) as [_ Pa].
    assert (C : rounds_to ER FR (convert ER FR EX FX a) (convert_spec ER FR (decode EX FX a))).
    { apply convert_correct; try lia; [exact Wa|]. intros (_ & _ & Q & D). pose proof (pow2_pos EX ltac:(lia)). assert (2 ^ 1 < 2 ^ EX) by (apply pow2_lt; lia). destruct (decode EX FX a); try contradiction; lia. }
    pose proof C as (r & R1 & R2 & R3).
    destruct (near_result ER FR (convert ER FR EX FX a) (ref_convert ER FR EX FX a) (convert_spec ER FR (decode EX FX a)) HR) as (b & H & K).
    { eauto. }
    { apply ref_convert_ok; auto using fmt_ef. }
    exists b. split; [exact H|]. split; [auto|]. intros _. apply K. exists r. split; [exact R1|]. rewrite <- R3. apply near_refl; [lia|]. apply decode_normal; assumption.
  - rewrite H. f_equal. apply K. auto.
Qed.
