From Coq Require Import ZArith Bool Lia.
From Verif Require Import Fw FwLemmas Spec SpecLemmas Flopoco FlopocoLemmas CompareProofs ValueLemmas Mul MulProofs AddSingleProofs AddSingleProofs2 AddDual AddDualProofs AddDualProofs5 AddDualProofs6 Div DivProofs3 Ieee.
Open Scope Z_scope.

Definition ipack (E F : Z) (s : bool) (e f : Z) : Z := Z.b2z s * 2 ^ (E + F) + (e * 2 ^ F + f).
Definition oki (E F e f : Z) : Prop := 1 <= E /\ 1 <= F /\ 0 <= e < 2 ^ E /\ 0 <= f < 2 ^ F.

Lemma ie_view E F x : 1 <= E -> 1 <= F -> wf (E + F + 1) x -> exists s e f, oki E F e f /\ x = ipack E F s e f.
Proof.
  intros HE HF Hx. unfold wf in Hx. rewrite pow2_S in Hx by lia.
  assert (P0 : 0 < 2 ^ F) by (apply pow2_pos; lia). assert (PE : 0 < 2 ^ E) by (apply pow2_pos; lia).
  assert (EEF : 2 ^ (E + F) = 2 ^ E * 2 ^ F) by (apply pow2_add; lia).
  assert (PEF : 0 < 2 ^ (E + F)) by (apply pow2_pos; lia).
  pose proof (div_mod_eq x (2 ^ (E + F)) PEF) as D1. pose proof (Z.mod_pos_bound x (2 ^ (E + F)) PEF) as M1.
  set (b := x mod 2 ^ (E + F)) in *.
  pose proof (div_mod_eq b (2 ^ F) P0) as D2. pose proof (Z.mod_pos_bound b (2 ^ F) P0) as M2.
  assert (Hq : x / 2 ^ (E + F) = 0 \/ x / 2 ^ (E + F) = 1) by nia.
  exists (x / 2 ^ (E + F) =? 1), (b / 2 ^ F), (b mod 2 ^ F).
  split.
  - unfold oki. split; [lia|]. split; [lia|]. split; [|exact M2]. split; [apply Z.div_pos; lia|apply Z.div_lt_upper_bound; lia].
  - unfold ipack. destruct Hq as [Q|Q]; rewrite Q in D1 |- *; cbn [Z.eqb Pos.eqb Z.b2z]; lia.
Qed.

Lemma ipack_wf E F s e f : oki E F e f -> wf (E + F + 1) (ipack E F s e f).
Proof.
  intros (HE & HF & He & Hf). unfold wf, ipack. rewrite pow2_S by lia. pose proof (body_bound E F e f ltac:(lia) ltac:(lia) He Hf).
  destruct s; cbn [Z.b2z]; lia.
Qed.

Lemma ipack_slices E F s e f : oki E F e f -> let x := ipack E F s e f in
  x mod 2 ^ F = f /\ (x / 2 ^ F) mod 2 ^ E = e /\ x / 2 ^ (E + F) = Z.b2z s.
Proof.
  intros (HE & HF & He & Hf) x. pose proof (body_bound E F e f ltac:(lia) ltac:(lia) He Hf) as HB. unfold x, ipack.
  assert (P0 : 0 < 2 ^ F) by (apply pow2_pos; lia). assert (PE : 0 < 2 ^ E) by (apply pow2_pos; lia).
  assert (EEF : 2 ^ (E + F) = 2 ^ E * 2 ^ F) by (apply pow2_add; lia).
  split; [|split].
  - rewrite EEF. replace (Z.b2z s * (2 ^ E * 2 ^ F) + (e * 2 ^ F + f)) with (f + (Z.b2z s * 2 ^ E + e) * 2 ^ F) by ring.
    rewrite Z.mod_add by lia. apply Z.mod_small. lia.
  - rewrite EEF. replace (Z.b2z s * (2 ^ E * 2 ^ F) + (e * 2 ^ F + f)) with (f + (Z.b2z s * 2 ^ E + e) * 2 ^ F) by ring.
    rewrite Z.div_add by lia. rewrite Z.div_small by lia. replace (0 + (Z.b2z s * 2 ^ E + e)) with (e + Z.b2z s * 2 ^ E) by ring.
    rewrite Z.mod_add by lia. apply Z.mod_small. lia.
  - rewrite Z.add_comm. rewrite Z.div_add by lia. rewrite Z.div_small by lia. lia.
Qed.

Lemma ie_sign_pack E F s e f : oki E F e f -> ie_sign E F (ipack E F s e f) = Z.b2z s.
Proof.
  intros H. destruct (ipack_slices E F s e f H) as (_ & _ & A). destruct H as (HE & HF & _).
  unfold ie_sign. rewrite bits_eq by lia. rewrite A. replace (E + F - (E + F) + 1) with 1 by lia. destruct s; reflexivity.
Qed.
Lemma ie_exp_pack E F s e f : oki E F e f -> ie_exp E F (ipack E F s e f) = e.
Proof.
  intros H. destruct (ipack_slices E F s e f H) as (_ & A & _). destruct H as (HE & HF & _).
  unfold ie_exp. rewrite bits_eq by lia. replace (E + F - 1 - F + 1) with E by lia. exact A.
Qed.
Lemma ie_frac_pack E F s e f : oki E F e f -> ie_frac E F (ipack E F s e f) = f.
Proof.
  intros H. destruct (ipack_slices E F s e f H) as (A & _). destruct H as (HE & HF & _).
  unfold ie_frac. rewrite take_low by lia. exact A.
Qed.
Lemma ie_mk_pack E F s e f : oki E F e f -> ie_mk E F (Z.b2z s) e f = ipack E F s e f.
Proof.
  intros (HE & HF & He & Hf). unfold ie_mk, ipack. rewrite (cat_eq E), cat_eq by lia. rewrite (pow2_add E F) by lia. ring.
Qed.

Lemma decode_ipack E F s e f : oki E F e f -> decode_ieee E F (ipack E F s e f) =
  if e =? 0 then Zero s else if e =? 2 ^ E - 1 then if f =? 0 then Inf s else NaN
  else Num s (2 ^ F + f) (e - bias E - F).
Proof.
  intros H. destruct (ipack_slices E F s e f H) as (A & B & C). unfold decode_ieee. rewrite A, B, C. destruct s; reflexivity.
Qed.

Definition iflags (E e f : Z) : Z := if e =? 0 then 0 else if e =? 2 ^ E - 1 then if f =? 0 then 2 else 3 else 1.

Lemma ie_flags_pack E F s e f : oki E F e f -> ie_flags E F (ipack E F s e f) = iflags E e f.
Proof.
  intros H. unfold ie_flags. rewrite ie_exp_pack, ie_frac_pack by exact H. destruct H as (HE & _).
  rewrite og_eq by lia. unfold feq, zg, iflags. rewrite !select_b2z. destruct (e =? 0), (e =? 2 ^ E - 1), (f =? 0); reflexivity.
Qed.

Lemma iflags_range E e f : 0 <= iflags E e f < 4.
Proof. unfold iflags. destruct (e =? 0), (e =? 2 ^ E - 1), (f =? 0); lia. Qed.

Lemma oki_okf E F e f fl : oki E F e f -> 0 <= fl < 4 -> okf E F fl e f.
Proof. unfold oki, okf. tauto. Qed.

Lemma to_flopoco_pack E F s e f : oki E F e f -> to_flopoco E F (ipack E F s e f) = pack E F (iflags E e f) s e f.
Proof.
  intros H. unfold to_flopoco. rewrite ie_flags_pack, ie_sign_pack, ie_exp_pack, ie_frac_pack by exact H.
  destruct H as (HE & HF & He & Hf). apply mk_pack; lia.
Qed.

(** Importing an IEEE number preserves the datum. *)
Theorem to_flopoco_ok E F x : 1 <= E -> 1 <= F -> wf (E + F + 1) x ->
  wf (E + F + 3) (to_flopoco E F x) /\ decode E F (to_flopoco E F x) = decode_ieee E F x.
Proof.
  intros HE HF Hx. destruct (ie_view E F x HE HF Hx) as (s & e & f & H & ->).
  rewrite to_flopoco_pack by exact H. pose proof (oki_okf E F e f _ H (iflags_range E e f)) as H'.
  split; [apply pack_wf; exact H'|]. rewrite decode_pack by exact H'. rewrite decode_ipack by exact H.
  unfold iflags. destruct (e =? 0), (e =? 2 ^ E - 1), (f =? 0); reflexivity.
Qed.

(** What exporting does to the datum: the two reserved exponents disappear. *)
Definition clamp_v (E F : Z) (v : fval) : fval :=
  match v with
  | Num s m e => if e + F <? emin E + 1 then Zero s else if emax E - 1 <? e + F then Inf s else Num s m e
  | _ => v
  end.

Lemma to_ieee_pack E F a s e f : okf E F a e f -> to_ieee E F (pack E F a s e f) =
  if (a =? 0) || ((a =? 1) && (e =? 0)) then ipack E F s 0 0
  else if (a =? 2) || ((a =? 1) && (e =? 2 ^ E - 1)) then ipack E F s (2 ^ E - 1) 0
  else if a =? 3 then ipack E F s (2 ^ E - 1) (2 ^ F - 1)
  else ipack E F s e f.
Proof.
  intros H. unfold to_ieee, is_normal, is_zero, is_nan, is_inf. rewrite get_flags_pack, get_exp_pack, get_frac_pack, get_sign_pack by exact H.
  destruct H as (HE & HF & Ha & He & Hf). rewrite !og_eq by lia. unfold feq, zg.
  assert (PE : 2 <= 2 ^ E) by (change 2 with (2 ^ 1) at 1; apply Z.pow_le_mono_r; lia). assert (PF : 0 < 2 ^ F) by (apply pow2_pos; lia).
  assert (M : forall e' f', 0 <= e' < 2 ^ E -> 0 <= f' < 2 ^ F -> ie_mk E F (Z.b2z s) e' f' = ipack E F s e' f').
  { intros. apply ie_mk_pack. unfold oki. lia. }
  rewrite !fand_b2z, !for_b2z, !select_b2z.
  apply flags_cases in Ha. destruct Ha as [->|[->|[->| ->]]]; cbn [Z.eqb Pos.eqb andb orb];
    destruct (Z.eqb_spec e 0), (Z.eqb_spec e (2 ^ E - 1)); cbn [andb orb]; try (apply M; lia).
Qed.

Theorem to_ieee_ok E F x : 1 <= E -> 1 <= F -> wf (E + F + 3) x ->
  wf (E + F + 1) (to_ieee E F x) /\ decode_ieee E F (to_ieee E F x) = clamp_v E F (decode E F x).
Proof.
  intros HE HF Hx. destruct (pack_view E F x HE HF Hx) as (a & s & e & f & H & ->).
  rewrite to_ieee_pack, decode_pack by exact H. destruct H as (_ & _ & Ha & He & Hf).
  assert (EE : 2 ^ E = 2 * 2 ^ (E - 1)) by (rewrite <- pow2_S by lia; f_equal; lia).
  assert (PE : 0 < 2 ^ (E - 1)) by (apply pow2_pos; lia). assert (PF : 2 <= 2 ^ F) by (change 2 with (2 ^ 1) at 1; apply Z.pow_le_mono_r; lia).
  assert (O0 : oki E F 0 0) by (unfold oki; lia). assert (O1 : oki E F (2 ^ E - 1) 0) by (unfold oki; lia).
  assert (O2 : oki E F (2 ^ E - 1) (2 ^ F - 1)) by (unfold oki; lia). assert (O3 : oki E F e f) by (unfold oki; lia).
  assert (N1 : (2 ^ E - 1 =? 0) = false) by (apply Z.eqb_neq; lia). assert (N2 : (2 ^ F - 1 =? 0) = false) by (apply Z.eqb_neq; lia).
  assert (CL : clamp_v E F (Num s (2 ^ F + f) (e - bias E - F)) =
     if e =? 0 then Zero s else if e =? 2 ^ E - 1 then Inf s else Num s (2 ^ F + f) (e - bias E - F)).
  { cbn [clamp_v]. unfold emin, emax, bias. replace (e - (2 ^ (E - 1) - 1) - F + F) with (e - (2 ^ (E - 1) - 1)) by lia.
    destruct (Z.eqb_spec e 0), (Z.eqb_spec e (2 ^ E - 1));
    repeat match goal with |- context[Z.ltb ?a ?b] => destruct (Z.ltb_spec a b) end; try reflexivity; lia. }
  apply flags_cases in Ha. destruct Ha as [->|[->|[->| ->]]]; cbn [Z.eqb Pos.eqb andb orb].
  - split; [apply ipack_wf, O0|]. rewrite decode_ipack by exact O0. reflexivity.
  - rewrite CL. destruct (e =? 0) eqn:E0; [split; [apply ipack_wf, O0|rewrite decode_ipack by exact O0; reflexivity]|].
    destruct (e =? 2 ^ E - 1) eqn:E1; [split; [apply ipack_wf, O1|rewrite decode_ipack by exact O1; rewrite N1, Z.eqb_refl; reflexivity]|].
    split; [apply ipack_wf, O3|]. rewrite decode_ipack by exact O3. rewrite E0, E1. reflexivity.
  - split; [apply ipack_wf, O1|]. rewrite decode_ipack by exact O1. rewrite N1, Z.eqb_refl. reflexivity.
  - split; [apply ipack_wf, O2|]. rewrite decode_ipack by exact O2. rewrite N1, N2, Z.eqb_refl. reflexivity.
Qed.

(** Exporting a rounded result is rounding to the IEEE range. *)
Lemma clamp_round E F s n d k : 1 <= E -> clamp_v E F (round_to E F s n d k) = round_ieee E F s n d k.
Proof.
  intros HE. unfold round_to, round_ieee, round_range. destruct (round_pos F n d) as [m e]. cbn [finish].
  destruct (Z.ltb_spec (e + k + F) (emin E)).
  - replace (e + k + F <? emin E + 1) with true by (symmetry; apply Z.ltb_lt; lia). reflexivity.
  - destruct (Z.ltb_spec (emax E) (e + k + F)).
    + assert (emin E + 1 <= emax E) by (unfold emin, emax, bias; assert (1 <= 2 ^ (E - 1)) by (pose proof (pow2_pos (E - 1)); lia); lia).
      replace (e + k + F <? emin E + 1) with false by (symmetry; apply Z.ltb_ge; lia).
      replace (emax E - 1 <? e + k + F) with true by (symmetry; apply Z.ltb_lt; lia). reflexivity.
    + cbn [clamp_v]. reflexivity.
Qed.

Lemma clamp_mul E F x y : 1 <= E -> clamp_v E F (mul_spec E F x y) = mul_ieee E F x y.
Proof. intros HE. destruct x, y; try reflexivity. apply clamp_round; exact HE. Qed.
Lemma clamp_div E F x y : 1 <= E -> clamp_v E F (div_spec E F x y) = div_ieee E F x y.
Proof. intros HE. destruct x, y; try reflexivity. apply clamp_round; exact HE. Qed.
Lemma clamp_add E F x y : 1 <= E -> clamp_v E F (add_spec E F x y) = add_ieee E F x y.
Proof.
  intros HE. destruct x as [|s|s|s m e], y as [|t|t|t n f]; try reflexivity; unfold add_spec, add_ieee, add_gen.
  - destruct (Bool.eqb s t); reflexivity.
  - apply clamp_round; exact HE.
  - apply clamp_round; exact HE.
  - cbv zeta. destruct (_ =? 0); [reflexivity|]. apply clamp_round; exact HE.
Qed.

Theorem w_mul_ok E F a b : 2 <= E -> 1 <= F -> wf (E + F + 1) a -> wf (E + F + 1) b ->
  exists r, w_mul E F a b = Some r /\ wf (E + F + 1) r /\
    decode_ieee E F r = mul_ieee E F (decode_ieee E F a) (decode_ieee E F b).
Proof.
  intros HE HF Ha Hb. destruct (to_flopoco_ok E F a ltac:(lia) HF Ha) as [Wa Da]. destruct (to_flopoco_ok E F b ltac:(lia) HF Hb) as [Wb Db].
  destruct (mul_round_correct E F F F _ _ HE HF HF ltac:(lia) Wa Wb) as (r & R1 & R2 & R3).
  unfold w_mul, mul in *. rewrite R1. cbn [bind]. eexists. split; [reflexivity|].
  destruct (to_ieee_ok E F r ltac:(lia) HF R2) as [W D]. split; [exact W|]. rewrite D, R3, Da, Db. apply clamp_mul. lia.
Qed.

Theorem w_div_ok E F a b : 2 <= E -> 1 <= F -> wf (E + F + 1) a -> wf (E + F + 1) b ->
  exists r, w_div E F a b = Some r /\ wf (E + F + 1) r /\
    decode_ieee E F r = div_ieee E F (decode_ieee E F a) (decode_ieee E F b).
Proof.
  intros HE HF Ha Hb. destruct (to_flopoco_ok E F a ltac:(lia) HF Ha) as [Wa Da]. destruct (to_flopoco_ok E F b ltac:(lia) HF Hb) as [Wb Db].
  destruct (div_v1_correct E F E F E F _ _ ltac:(lia) ltac:(lia) HE ltac:(lia) ltac:(lia) Wa Wb) as (r & R1 & R2 & R3).
  unfold w_div, div in *. rewrite R1. cbn [bind]. eexists. split; [reflexivity|].
  destruct (to_ieee_ok E F r ltac:(lia) HF R2) as [W D]. split; [exact W|]. rewrite D, R3, Da, Db. apply clamp_div. lia.
Qed.

Theorem w_add_ok E F a b : dual_ok_width E F -> wf (E + F + 1) a -> wf (E + F + 1) b ->
  exists r, w_add E F a b = Some r /\ wf (E + F + 1) r /\
    decode_ieee E F r = add_ieee E F (decode_ieee E F a) (decode_ieee E F b).
Proof.
  intros HW Ha Hb. assert (HE : 3 < E) by (unfold dual_ok_width in HW; tauto). assert (HF : 1 <= F) by (unfold dual_ok_width in HW; tauto).
  destruct (to_flopoco_ok E F a ltac:(lia) HF Ha) as [Wa Da]. destruct (to_flopoco_ok E F b ltac:(lia) HF Hb) as [Wb Db].
  pose proof (add_dual_ok E F E F (to_flopoco E F a) (to_flopoco E F b) ltac:(lia) HF ltac:(lia) HF) as Q. cbv zeta in Q. rewrite !Z.max_id in Q. destruct (Q HW Wa Wb) as (r & R1 & R2 & R3).
  unfold w_add. rewrite R1. cbn [bind]. eexists. split; [reflexivity|].
  destruct (to_ieee_ok E F r ltac:(lia) HF R2) as [W D]. split; [exact W|]. rewrite D, R3, Da, Db. apply clamp_add. lia.
Qed.
