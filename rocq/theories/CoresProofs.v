From Coq Require Import ZArith List Bool Lia.
From Verif Require Import Fw FwLemmas Spec SpecLemmas Flopoco FlopocoLemmas FlopocoProofs CompareProofs Mul MulProofs AddSingle AddSingleProofs3 AddSingleProofs4 AddSingleAlt AddAltProofs AddAltProofs2
  AddDual AddDualProofs AddDualProofs5 AddDualProofs6 Div DivProofs DivProofs3 DivV2Proofs Ieee IeeeProofs Cores SpecCores.
Import ListNotations.
Open Scope Z_scope.

(** ** Refuting a core by evaluation *)
Definition feqv (x y : fval) : bool :=
  match x, y with
  | NaN, NaN => true
  | Inf s, Inf t | Zero s, Zero t => Bool.eqb s t
  | Num s m e, Num t n f => Bool.eqb s t && (m =? n) && (e =? f)
  | _, _ => false
  end.
Lemma feqv_refl x : feqv x x = true.
Proof. destruct x as [|s|s|s m e]; cbn; rewrite ?eqb_reflx, ?Z.eqb_refl; reflexivity. Qed.

Definition fails (dr da db : Z -> fval) (wa wb : Z) (spec : fval -> fval -> fval) (core : Z -> Z -> option Z) (a b : Z) : bool :=
  (0 <=? a) && (a <? wa) && ((0 <=? b) && (b <? wb)) &&
  match core a b with None => true | Some r => negb (feqv (dr r) (spec (da a) (db b))) end.

Lemma fails_core E F FA FB spec core a b :
  fails (decode E F) (decode E FA) (decode E FB) (2 ^ (E + FA + 3)) (2 ^ (E + FB + 3)) spec core a b = true -> ~ core_right E F FA FB spec core.
Proof.
  unfold fails. rewrite !andb_true_iff, !Z.leb_le, !Z.ltb_lt. intros [[Ha Hb] H] C. destruct (C a b Ha Hb) as (r & R1 & _ & R2).
  rewrite R1, R2, feqv_refl in H. discriminate.
Qed.
Lemma fails_ieee E F spec core a b :
  fails (decode_ieee E F) (decode_ieee E F) (decode_ieee E F) (2 ^ (E + F + 1)) (2 ^ (E + F + 1)) spec core a b = true -> ~ ieee_core_right E F spec core.
Proof.
  unfold fails. rewrite !andb_true_iff, !Z.leb_le, !Z.ltb_lt. intros [[Ha Hb] H] C. destruct (C a b Ha Hb) as (r & R1 & _ & R2).
  rewrite R1, R2, feqv_refl in H. discriminate.
Qed.

Lemma all_generated (P : Z -> Z -> bool) : forallb (fun E => forallb (P E) (zrange 4 109)) (zrange 4 10) = true ->
  forall E F, generated E F -> P E F = true.
Proof.
  intros H E F (HE & HF). pose proof (zrange_forall _ 4 10 E H ltac:(lia)) as H1. cbv beta in H1. exact (zrange_forall _ 4 109 F H1 ltac:(lia)).
Qed.

(** ** The right ones *)
Theorem core_mul_right E F : generated E F -> core_right E F F F (mul_spec E F) (core_mul E F).
Proof. intros (HE & HF) a b Ha Hb. apply mul_round_correct; try lia; assumption. Qed.
Theorem core_div_right E F : generated E F -> core_right E F F F (div_spec E F) (core_div E F).
Proof. intros (HE & HF) a b Ha Hb. apply div_v1_correct; try lia; assumption. Qed.
Theorem core_div_v2_right E F : generated E F -> core_right E F F F (div_spec E F) (core_div_v2 E F).
Proof.
  intros G a b Ha Hb. pose proof G as (HE & HF). unfold core_div_v2.
  pose proof (div_v2_agrees E F E F a b ltac:(lia) ltac:(lia)) as H. rewrite !Z.max_id in H. rewrite H. apply (core_div_right E F G a b Ha Hb).
Qed.
Theorem core_ieee_mul_right E F : generated E F -> ieee_core_right E F (mul_ieee E F) (core_ieee_mul E F).
Proof. intros (HE & HF) a b Ha Hb. apply w_mul_ok; try lia; assumption. Qed.
Theorem core_ieee_div_right E F : generated E F -> ieee_core_right E F (div_ieee E F) (core_ieee_div E F).
Proof. intros (HE & HF) a b Ha Hb. apply w_div_ok; try lia; assumption. Qed.

(** ** The single-path adders *)
Definition single_wit (E F : Z) : Z * Z :=
  if 2 * (F + 3) <? 2 ^ E then (pack E F 1 false (2 ^ E - 1) 0, pack E F 1 true (2 ^ E - 1 - F - 2) 1)
  else if 2 ^ E =? 2 * (F + 3) then (pack E F 1 false (2 ^ E - 1) 1, pack E F 1 false (2 ^ E - 1 - (2 * F + 4)) 0)
  else (0, 0).
Definition single_check (E F : Z) : bool :=
  ((F + 3 <? 2 ^ E) && (2 ^ E <? 2 * (F + 3))) ||
  fails (decode E F) (decode E F) (decode E F) (2 ^ (E + F + 3)) (2 ^ (E + F + 3)) (add_spec E F) (core_add_single E F) (fst (single_wit E F)) (snd (single_wit E F)).
Lemma single_checked : forallb (fun E => forallb (single_check E) (zrange 4 109)) (zrange 4 10) = true.
Proof. vm_compute. reflexivity. Qed.

Theorem core_add_single_iff E F : generated E F ->
  (core_right E F F F (add_spec E F) (core_add_single E F) <-> F + 3 < 2 ^ E < 2 * (F + 3)).
Proof.
  intros G. pose proof (all_generated _ single_checked E F G) as C. unfold single_check in C. apply orb_prop in C.
  pose proof G as (HE & HF). split.
  - intros R. destruct C as [C|C]; [|exfalso; exact (fails_core _ _ _ _ _ _ _ _ C R)].
    rewrite andb_true_iff, !Z.ltb_lt in C. exact C.
  - intros HW a b Ha Hb.
    pose proof (add_single_char E F E F a b) as Q. cbv zeta in Q. rewrite !Z.max_id in Q.
    destruct Q as (r & R1 & R2 & R3 & _); try lia; try assumption.
    exists r. split; [exact R1|]. split; [exact R2|]. apply R3. left. lia.
Qed.

Lemma core_right_ext E F FA FB spec c c' : (forall a b, c a b = c' a b) -> core_right E F FA FB spec c <-> core_right E F FA FB spec c'.
Proof. intros H. split; intros R a b Ha Hb; destruct (R a b Ha Hb) as (r & Q); exists r; [rewrite <- H|rewrite H]; exact Q. Qed.

Theorem core_add_single_v2_iff E F : generated E F ->
  (core_right E F F F (add_spec E F) (core_add_single_v2 E F) <-> F + 3 < 2 ^ E < 2 * (F + 3)).
Proof.
  intros G. rewrite <- (core_add_single_iff E F G). apply core_right_ext. intros a b. apply add_single_v2_eq.
Qed.

Theorem core_add_single_v3_iff u E F : generated E F ->
  (core_right E F F F (add_spec E F) (core_add_single_v3 u E F) <-> 11 <= F <= 26 /\ F + 3 < 2 ^ E < 2 * (F + 3)).
Proof.
  intros G. pose proof G as (HE & HF). destruct (Z_le_dec 11 F), (Z_le_dec F 26).
  1: { rewrite <- (core_add_single_iff E F G). transitivity (core_right E F F F (add_spec E F) (core_add_single E F)); [|intuition].
       apply core_right_ext. intros a b. apply add_single_v3_eq. lia. }
  all: split; [|lia]; intros R; destruct (R 0 0) as (r & R1 & _); try (split; [lia|apply pow2_pos; lia]);
    unfold core_add_single_v3 in R1; rewrite add_single_v3_none in R1 by lia; discriminate.
Qed.

Definition v4_wit (E F : Z) : Z * Z :=
  if (2 * (F + 3) <? 2 ^ E) || (2 ^ E =? F + 4) then (pack E F 1 false (2 ^ E - 2) 0, pack E F 1 false (2 ^ E - 2 - F - 1) 0)
  else (pack E F 1 false (2 ^ E - 1) 0, 0).
Definition v4_check (E F : Z) : bool :=
  fails (decode E F) (decode E F) (decode E F) (2 ^ (E + F + 3)) (2 ^ (E + F + 3)) (add_spec E F) (core_add_single_v4 E F) (fst (v4_wit E F)) (snd (v4_wit E F)).
Lemma v4_checked : forallb (fun E => forallb (v4_check E) (zrange 4 109)) (zrange 4 10) = true.
Proof. vm_compute. reflexivity. Qed.
Theorem core_add_single_v4_wrong E F : generated E F -> ~ core_right E F F F (add_spec E F) (core_add_single_v4 E F).
Proof. intros G. apply (fails_core _ _ _ _ _ _ _ _ (all_generated _ v4_checked E F G)). Qed.

(** ** The dual-path adder *)
Theorem core_add_dual_iff E F : generated E F ->
  (core_right E F F F (add_spec E F) (core_add_dual E F) <-> ~ (F = 61 /\ 7 <= E \/ E = 4 /\ 33 <= F \/ E = 5 /\ 65 <= F)).
Proof.
  intros G. pose proof G as (HE & HF). split.
  - intros R [[H1 H2]|H].
    + destruct (add_dual_asserts E F ltac:(lia) ltac:(lia)) as (x & y & Wx & Wy & N).
      { subst F. pose proof (pow2_le 7 E ltac:(lia)) as P. change (2 ^ 7) with 128 in P. lia. }
      destruct (R x y Wx Wy) as (r & R1 & _). unfold core_add_dual in R1. congruence.
    + destruct (add_dual_overflows E F H ltac:(lia)) as (x & y & Wx & Wy & Q & N). destruct (R x y Wx Wy) as (r & R1 & _ & R2).
      rewrite Q in R2. destruct (N r R1) as [D|(m & e & D)]; rewrite D in R2; discriminate.
  - intros H a b Ha Hb. apply add_dual_same; try assumption. apply dual_legal_widths; lia.
Qed.

(** ** The IEEE adder: operands that are not zero have exponent fields of at least 1 *)
Lemma iflags_one E e f : iflags E e f = 1 -> e <> 0.
Proof. unfold iflags. destruct (Z.eqb_spec e 0); [discriminate|intros _; assumption]. Qed.

Theorem w_add_from E F a b : dual_ok_from 1 E F -> wf (E + F + 1) a -> wf (E + F + 1) b ->
  exists r, w_add E F a b = Some r /\ wf (E + F + 1) r /\
    decode_ieee E F r = add_ieee E F (decode_ieee E F a) (decode_ieee E F b).
Proof.
  intros HW Ha Hb. pose proof HW as (HE & HF & _).
  destruct (to_flopoco_ok E F a ltac:(lia) HF Ha) as [Wa Da]. destruct (to_flopoco_ok E F b ltac:(lia) HF Hb) as [Wb Db].
  destruct (ie_view E F a ltac:(lia) HF Ha) as (s & e & f & Oa & ->). destruct (ie_view E F b ltac:(lia) HF Hb) as (t & g & h & Ob & ->).
  assert (Q : exists r, add_dual E F E F E F (to_flopoco E F (ipack E F s e f)) (to_flopoco E F (ipack E F t g h)) = Some r /\ wf (E + F + 3) r /\
    decode E F r = add_spec E F (decode E F (to_flopoco E F (ipack E F s e f))) (decode E F (to_flopoco E F (ipack E F t g h)))).
  { rewrite !to_flopoco_pack by assumption. pose proof Oa as (_ & _ & He & Hf). pose proof Ob as (_ & _ & Hg & Hh).
    assert (OA : okf E F (iflags E e f) e f) by (unfold okf, iflags; repeat split; try lia; repeat destruct (_ =? _); lia).
    assert (OB : okf E F (iflags E g h) g h) by (unfold okf, iflags; repeat split; try lia; repeat destruct (_ =? _); lia).
    assert (EC : forall p, ctMax p p = p) by (intros; unfold ctMax; destruct (p <? p); lia).
    unfold add_dual. rewrite !EC.
    destruct (promote_pack E F E F _ s e f ltac:(lia) ltac:(lia) OA) as [Pa Oa']. destruct (promote_pack E F E F _ t g h ltac:(lia) ltac:(lia) OB) as [Pb Ob'].
    cbv zeta in Pa, Oa', Pb, Ob'. rewrite Pa, Pb. cbn [bind]. rewrite !Z.eqb_refl. destruct (Z.ltb_spec 3 E); [|lia]. cbn [andb assert_ bind].
    rewrite !Z.sub_diag, !Z.add_0_r, !Z.pow_0_r, !Z.mul_1_r.
    apply (dual_body_from 1); try assumption; try lia; intros H1; apply iflags_one in H1; lia. }
  destruct Q as (r & R1 & R2 & R3).
  unfold w_add. rewrite R1. cbn [bind]. eexists. split; [reflexivity|].
  destruct (to_ieee_ok E F r ltac:(lia) HF R2) as [W D]. split; [exact W|]. rewrite D, R3, Da, Db. apply clamp_add. lia.
Qed.

(** A power of two plus 0 when F = 61; otherwise the difference of two of the smallest normals, far below them. *)
Definition ieee_wit (E F : Z) : Z * Z :=
  if (F =? 61) && (7 <=? E) then (126 * 2 ^ F, 0)
  else let l := Z.min F (if E =? 4 then 40 else 80) in (2 ^ F + 2 ^ (F - l), 2 ^ (E + F) + 2 ^ F).
Definition ieee_bad (E F : Z) : bool := (F =? 61) && (7 <=? E) || (E =? 4) && (34 <=? F) || (E =? 5) && (66 <=? F).
Definition ieee_check (E F : Z) : bool :=
  if ieee_bad E F
  then fails (decode_ieee E F) (decode_ieee E F) (decode_ieee E F) (2 ^ (E + F + 1)) (2 ^ (E + F + 1)) (add_ieee E F) (core_ieee_add E F) 
    (fst (ieee_wit E F)) (snd (ieee_wit E F))
  else (F <=? 2 ^ (E + 1) + 1) && ((F =? 5) || (F =? 13) || (F =? 29) || (2 ^ E <=? 2 * F + 4) || negb (2 ^ Z.log2 (F + 3) =? F + 3)).
Lemma ieee_checked : forallb (fun E => forallb (ieee_check E) (zrange 4 109)) (zrange 4 10) = true.
Proof. vm_compute. reflexivity. Qed.

Theorem core_ieee_add_iff E F : generated E F ->
  (ieee_core_right E F (add_ieee E F) (core_ieee_add E F) <-> ~ (F = 61 /\ 7 <= E \/ E = 4 /\ 34 <= F \/ E = 5 /\ 66 <= F)).
Proof.
  intros G. pose proof G as (HE & HF). pose proof (all_generated _ ieee_checked E F G) as C. unfold ieee_check in C.
  assert (B : ieee_bad E F = true <-> F = 61 /\ 7 <= E \/ E = 4 /\ 34 <= F \/ E = 5 /\ 66 <= F).
  { unfold ieee_bad. rewrite !orb_true_iff, !andb_true_iff, !Z.eqb_eq, !Z.leb_le. tauto. }
  rewrite <- B. clear B. destruct (ieee_bad E F).
  - split; [|intros H; exfalso; apply H; reflexivity]. intros R. exfalso. exact (fails_ieee _ _ _ _ _ _ C R).
  - split; [intros _; discriminate|]. intros _ a b Ha Hb. apply w_add_from; try assumption.
    rewrite !andb_true_iff, !orb_true_iff, !Z.eqb_eq, !Z.leb_le, negb_true_iff, Z.eqb_neq in C. unfold dual_ok_from.
    change (2 ^ 31) with 2147483648. intuition lia.
Qed.

(** ** The cores with a narrower or wider second operand *)
Lemma in_ratio E F1 F2 : In (E, F1, F2) ratio_instances -> 2 <= E /\ 1 <= F2 /\ 1 <= F1.
Proof.
  unfold ratio_instances. rewrite in_app_iff, !in_map_iff. intros [(i & H & _)|(i & H & _)].
  - assert (E = 8 /\ F1 = 23 /\ F2 = 3 + 2 * Z.of_nat i) by (inversion H; auto). lia.
  - assert (E = 11 /\ F1 = 52 /\ F2 = 4 + 4 * Z.of_nat i) by (inversion H; auto). lia.
Qed.
Theorem core_mul_ratio_right E F1 F2 : In (E, F1, F2) ratio_instances -> core_right E F1 F1 F2 (mul_spec E F1) (core_mul_ratio E F1 F2).
Proof. intros I a b Ha Hb. apply in_ratio in I. apply mul_round_correct; try lia; assumption. Qed.

Definition ratio_check (i : Z * Z * Z) : bool :=
  let '(E, F1, F2) := i in
  fails (decode E F1) (decode E F1) (decode E F2) (2 ^ (E + F1 + 3)) (2 ^ (E + F2 + 3)) (add_spec E F1) (core_add_ratio E F1 F2)
    (pack E F1 1 false (2 ^ E - 1) 0) (pack E F2 1 true (2 ^ E - 1 - F1 - 2) 1).
Lemma ratio_checked : forallb ratio_check ratio_instances = true.
Proof. vm_compute. reflexivity. Qed.
Theorem core_add_ratio_wrong E F1 F2 : In (E, F1, F2) ratio_instances -> ~ core_right E F1 F1 F2 (add_spec E F1) (core_add_ratio E F1 F2).
Proof. intros I. pose proof (proj1 (forallb_forall _ _) ratio_checked _ I) as C. apply (fails_core _ _ _ _ _ _ _ _ C). Qed.
Lemma ratio_length : length ratio_instances = 47%nat.
Proof. reflexivity. Qed.
