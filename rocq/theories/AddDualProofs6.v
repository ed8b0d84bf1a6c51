From Coq Require Import ZArith Bool Lia.
From Verif Require Import Fw FwLemmas Spec SpecLemmas Flopoco FlopocoLemmas FlopocoProofs CompareProofs MulProofs AddSingle AddLemmas ValueLemmas AddSingleProofs AddSingleProofs2 AddSingleProofs3 AddSingleProofs4 AddDual AddDualProofs AddDualProofs2 AddDualProofs3 AddDualProofs4 AddDualProofs5.
Open Scope Z_scope.

Lemma add_dual_same E F x y : dual_ok_width E F -> wf (E + F + 3) x -> wf (E + F + 3) y ->
  exists r, add_dual E F E F E F x y = Some r /\ wf (E + F + 3) r /\ decode E F r = add_spec E F (decode E F x) (decode E F y).
Proof.
  intros HW Wx Wy. pose proof HW as (HE & HF & _).
  pose proof (add_dual_ok E F E F x y) as H. cbv zeta in H. rewrite !Z.max_id in H. apply H; try assumption; lia.
Qed.

Theorem add_dual_comm E F x y : dual_ok_width E F -> wf (E + F + 3) x -> wf (E + F + 3) y ->
  exists r r', add_dual E F E F E F x y = Some r /\ add_dual E F E F E F y x = Some r' /\ decode E F r = decode E F r'.
Proof.
  intros HW Wx Wy. destruct (add_dual_same E F x y HW Wx Wy) as (r & R1 & _ & R2).
  destruct (add_dual_same E F y x HW Wy Wx) as (r' & R1' & _ & R2').
  exists r, r'. split; [exact R1|]. split; [exact R1'|]. rewrite R2, R2'. apply add_gen_comm.
Qed.

Theorem add_dual_neg_self E F x y : dual_ok_width E F -> wf (E + F + 3) x -> wf (E + F + 3) y ->
  finite_v (decode E F x) -> decode E F y = neg_spec (decode E F x) ->
  exists r, add_dual E F E F E F x y = Some r /\ decode E F r = Zero false.
Proof.
  intros HW Wx Wy Hf Hn. destruct (add_dual_same E F x y HW Wx Wy) as (r & R1 & _ & R2).
  exists r. split; [exact R1|]. rewrite R2, Hn. apply add_spec_neg_self. exact Hf.
Qed.

Theorem add_dual_mirror E F x y nx ny : dual_ok_width E F ->
  wf (E + F + 3) x -> wf (E + F + 3) y -> wf (E + F + 3) nx -> wf (E + F + 3) ny ->
  decode E F nx = neg_spec (decode E F x) -> decode E F ny = neg_spec (decode E F y) ->
  exists r nr, add_dual E F E F E F x y = Some r /\ add_dual E F E F E F nx ny = Some nr /\
    (decode E F nr = neg_spec (decode E F r) \/ decode E F nr = Zero false /\ decode E F r = Zero false).
Proof.
  intros HW Wx Wy Wnx Wny Hx Hy. pose proof HW as (_ & HF & _). destruct (add_dual_same E F x y HW Wx Wy) as (r & R1 & _ & R2).
  destruct (add_dual_same E F nx ny HW Wnx Wny) as (nr & R1' & _ & R2').
  exists r, nr. split; [exact R1|]. split; [exact R1'|]. rewrite R2, R2', Hx, Hy. apply add_spec_mirror; apply decode_pos; lia.
Qed.

(** The two adders agree wherever the single-path one is right. *)
Theorem add_dual_agrees E F x y : dual_ok_width E F -> add_ok_width E F -> wf (E + F + 3) x -> wf (E + F + 3) y ->
  (2 ^ E < 2 * (F + 3) \/ ~ absorbed F (decode E F x) (decode E F y) /\ ~ absorbed F (decode E F y) (decode E F x)) ->
  exists r r', add_dual E F E F E F x y = Some r /\ add_single E F E F E F x y = Some r' /\ decode E F r = decode E F r'.
Proof.
  intros HW HA Wx Wy Hc. destruct (add_dual_same E F x y HW Wx Wy) as (r & R1 & _ & R2).
  destruct (add_single_same E F x y HA Wx Wy) as (r' & R1' & _ & R2' & _).
  exists r, r'. split; [exact R1|]. split; [exact R1'|]. rewrite R2, R2' by exact Hc. reflexivity.
Qed.

(** Where the assertion of the shift fails. *)
Lemma add_dual_asserts_at E F c : 3 < E -> F = 1 \/ F = 61 -> 0 <= c -> 2 * F + 4 + c < 2 ^ E ->
  let x := pack E F 1 false (2 * F + 4 + c) 0 in let y := pack E F 1 false c 0 in
  wf (E + F + 3) x /\ wf (E + F + 3) y /\ add_dual E F E F E F x y = None.
Proof.
  intros HE HF Hc HEF x y. subst x y. pose proof (pow2_pos E ltac:(lia)) as PE.
  assert (OX : okf E F 1 (2 * F + 4 + c) 0) by (unfold okf; pose proof (pow2_pos F ltac:(lia)); lia).
  assert (OY : okf E F 1 c 0) by (unfold okf; pose proof (pow2_pos F ltac:(lia)); lia).
  split; [apply pack_wf; exact OX|]. split; [apply pack_wf; exact OY|].
  unfold add_dual. assert (EC : forall p, ctMax p p = p) by (intros; unfold ctMax; destruct (_ <? _); reflexivity). rewrite !EC.
  destruct (promote_pack E F E F 1 false (2 * F + 4 + c) 0 ltac:(lia) ltac:(lia) OX) as [Pa _].
  destruct (promote_pack E F E F 1 false c 0 ltac:(lia) ltac:(lia) OY) as [Pb _]. cbv zeta in Pa, Pb.
  rewrite Pa, Pb. cbn [bind]. rewrite !Z.sub_diag, !Z.add_0_r, !Z.mul_0_l. rewrite !Z.eqb_refl. destruct (Z.ltb_spec 3 E); [|lia]. cbn [andb assert_ bind].
  pose proof (dual_body_core E F 1 false (2 * F + 4 + c) 0 1 false c 0 OX OY) as HB. cbv zeta in HB. rewrite HB. clear HB.
  rewrite Z.eqb_refl. destruct (Z.leb_spec c (2 * F + 4 + c)); [|lia]. cbn [Z.ltb Z.compare Pos.compare Pos.compare_cont orb andb].
  replace (2 * F + 4 + c - c) with (2 * F + 4) by lia. rewrite Z.mod_small by lia. unfold dual_core.
  assert (HS : dual_shiftVal E F (2 * F + 4) = Some (2 * F + 4)).
  { unfold dual_shiftVal. destruct HF as [-> | ->].
    - change (intlog2 (1 + 3)) with 3. destruct (Z.ltb_spec 3 E); [|lia].
      rewrite of_int_ok by lia. cbn [bind]. rewrite take_low, bits_eq by lia. change ((2 * 1 + 4) mod 2 ^ 3) with 6. change ((2 * 1 + 4) / 2 ^ 3) with 0.
      rewrite Z.mod_0_l by (apply Z.pow_nonzero; lia). reflexivity.
    - change (intlog2 (61 + 3)) with 7. destruct (Z.ltb_spec 7 E).
      + rewrite of_int_ok by lia. cbn [bind]. rewrite take_low, bits_eq by lia. change ((2 * 61 + 4) mod 2 ^ 7) with 126. change ((2 * 61 + 4) / 2 ^ 7) with 0.
        rewrite Z.mod_0_l by (apply Z.pow_nonzero; lia). reflexivity.
      + assert (E = 7) as ->.
        { destruct (Z_le_gt_dec E 6); [|lia]. pose proof (pow2_le E 6 ltac:(lia)) as H6. change (2 ^ 6) with 64 in H6. lia. }
        reflexivity. }
  rewrite HS. cbn [bind]. destruct (dual_close _ _ _ _ _ _); [|reflexivity]. cbn [bind].
  unfold dual_far. rewrite to_int_ok by lia. cbn [bind].
  assert (HP : dual_pad F = 0) by (destruct HF as [-> | ->]; reflexivity). rewrite HP, Z.add_0_r.
  unfold fshr. rewrite Z.add_0_r.
  rewrite Z.ltb_irrefl, andb_false_r. reflexivity.
Qed.

Theorem add_dual_asserts E F : 3 < E -> F = 1 \/ F = 61 -> 2 * F + 4 < 2 ^ E ->
  exists x y, wf (E + F + 3) x /\ wf (E + F + 3) y /\ add_dual E F E F E F x y = None.
Proof.
  intros HE HF HEF. do 2 eexists. apply (add_dual_asserts_at E F 0); try assumption; lia.
Qed.

(** ** Formats of at most 128 bits, the limit of fw_uint *)
Definition zrange (lo : Z) (n : nat) : list Z := List.map (fun k => lo + Z.of_nat k) (List.seq 0 n).
Lemma zrange_forall (P : Z -> bool) lo n x : List.forallb P (zrange lo n) = true -> lo <= x < lo + Z.of_nat n -> P x = true.
Proof.
  intros H Hx. rewrite List.forallb_forall in H. apply H. unfold zrange. apply List.in_map_iff.
  exists (Z.to_nat (x - lo)). split; [lia|]. apply List.in_seq. lia.
Qed.

Definition legal_check (E F : Z) : bool :=
  Bool.eqb ((F <=? 2 ^ (E + 1)) && (2 * F + 6 <? 2 ^ 31) &&
     ((F =? 5) || (F =? 13) || (F =? 29) || (2 ^ E <=? 2 * F + 4) || negb (2 ^ Z.log2 (F + 3) =? F + 3)))
   (negb ((F =? 1) || (F =? 61) && (7 <=? E) || (E =? 4) && (33 <=? F) || (E =? 5) && (65 <=? F))).
Lemma legal_checked : List.forallb (fun E => List.forallb (fun F => implb (E + F + 3 <=? 128) (legal_check E F)) (zrange 1 125)) (zrange 4 125) = true.
Proof. vm_compute. reflexivity. Qed.

Lemma eqb_iff_spec (b : bool) (P : Prop) : (b = true <-> P) -> forall c, Bool.eqb b c = true -> (P <-> c = true).
Proof. intros H c He. apply Bool.eqb_prop in He. subst c. symmetry. exact H. Qed.

Theorem dual_legal_widths E F : 3 < E -> 1 <= F -> E + F + 3 <= 128 ->
  (dual_ok_width E F <-> ~ (F = 1 \/ F = 61 /\ 7 <= E \/ E = 4 /\ 33 <= F \/ E = 5 /\ 65 <= F)).
Proof.
  intros HE HF HW. pose proof (zrange_forall _ _ _ E legal_checked ltac:(lia)) as H. cbv beta in H.
  pose proof (zrange_forall _ _ _ F H ltac:(lia)) as H'. cbv beta in H'. clear H.
  destruct (Z.leb_spec (E + F + 3) 128); [|lia]. cbn [implb] in H'. unfold legal_check in H'. apply Bool.eqb_prop in H'.
  unfold dual_ok_width. split.
  - intros (_ & _ & H1 & H2 & H3) Hbad. apply Z.leb_le in H1. apply Z.ltb_lt in H2. rewrite H1, H2 in H'. cbn [andb] in H'.
    assert (Hl : (F =? 5) || (F =? 13) || (F =? 29) || (2 ^ E <=? 2 * F + 4) || negb (2 ^ Z.log2 (F + 3) =? F + 3) = true).
    { destruct H3 as [->|[->|[->|[H3|H3]]]]; try reflexivity.
      - apply Z.leb_le in H3. rewrite H3. rewrite ?orb_true_r. reflexivity.
      - apply Z.eqb_neq in H3. rewrite H3. rewrite ?orb_true_r. reflexivity. }
    rewrite Hl in H'. symmetry in H'. apply negb_true_iff in H'.
    apply orb_false_iff in H' as [H' H7]. apply orb_false_iff in H' as [H' H6]. apply orb_false_iff in H' as [H4 H5].
    apply Z.eqb_neq in H4. apply andb_false_iff in H5. apply andb_false_iff in H6. apply andb_false_iff in H7.
    rewrite Z.eqb_neq, Z.leb_gt in H5, H6, H7. lia.
  - intros Hok. assert (Hr : negb ((F =? 1) || (F =? 61) && (7 <=? E) || (E =? 4) && (33 <=? F) || (E =? 5) && (65 <=? F)) = true).
    { apply negb_true_iff. apply orb_false_iff. split; [apply orb_false_iff; split; [apply orb_false_iff; split|]|]; rewrite ?andb_false_iff, ?Z.eqb_neq, ?Z.leb_gt; lia. }
    rewrite Hr in H'. apply andb_prop in H' as [H' H3]. apply andb_prop in H' as [H1 H2].
    apply Z.leb_le in H1. apply Z.ltb_lt in H2. repeat (split; [assumption|]).
    rewrite !orb_true_iff, !Z.eqb_eq, Z.leb_le, negb_true_iff, Z.eqb_neq in H3. tauto.
Qed.

(** Exponent widths 4 and 5: the leading-zero count does not fit the exponent of the close path. *)
Definition inf_check (E F : Z) : bool :=
  let x := 2 ^ (E + F + 1) + 1 in let y := 2 ^ (E + F + 1) + 2 ^ (E + F) in
  match add_spec E F (decode E F x) (decode E F y) with
  | Zero false => match add_dual E F E F E F x y with
                  | Some r => match decode E F r with Inf false | Num false _ _ => true | _ => false end
                  | None => true end
  | _ => false end.
Lemma inf_checked : List.forallb (inf_check 4) (zrange 33 89) && List.forallb (inf_check 5) (zrange 65 56) = true.
Proof. vm_compute. reflexivity. Qed.

Theorem add_dual_overflows E F : E = 4 /\ 33 <= F \/ E = 5 /\ 65 <= F -> E + F + 3 <= 128 ->
  exists x y, wf (E + F + 3) x /\ wf (E + F + 3) y /\
    add_spec E F (decode E F x) (decode E F y) = Zero false /\
    forall r, add_dual E F E F E F x y = Some r -> decode E F r = Inf false \/ exists m e, decode E F r = Num false m e.
Proof.
  intros H1 H2. assert (H : inf_check E F = true).
  { pose proof inf_checked as HI. apply andb_prop in HI as [I1 I2]. destruct H1 as [[-> H1]|[-> H1]]; eapply zrange_forall; try eassumption; lia. }
  unfold inf_check in H. cbv zeta in H.
  pose proof (pow2_pos (E + F) ltac:(lia)) as P4. pose proof (pow2_S (E + F) ltac:(lia)) as P5.
  assert (P7 : 2 ^ (E + F + 3) = 8 * 2 ^ (E + F)) by (apply (pow2_shift 3); [reflexivity|lia|lia]).
  pose proof (pow2_le 36 (E + F) ltac:(lia)) as P36. change (2 ^ 36) with 68719476736 in P36.
  exists (2 ^ (E + F + 1) + 1), (2 ^ (E + F + 1) + 2 ^ (E + F)).
  split; [unfold wf; lia|]. split; [unfold wf; lia|].
  destruct (add_spec _ _ _ _) as [| |[]|]; try discriminate. split; [reflexivity|]. intros r Hr. rewrite Hr in H.
  destruct (decode E F r) as [|[]| |[] m e]; try discriminate; [left; reflexivity|right; exists m, e; reflexivity].
Qed.
