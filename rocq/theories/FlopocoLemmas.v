(** Views of flopoco bit patterns as field tuples. *)
From Coq Require Import ZArith Bool Lia.
From Verif Require Import Fw FwLemmas Spec SpecLemmas Flopoco.
Open Scope Z_scope.

Definition pack (E F fl : Z) (s : bool) (e f : Z) : Z :=
  fl * 2 ^ (E + F + 1) + Z.b2z s * 2 ^ (E + F) + (e * 2 ^ F + f).

(** Field ranges. *)
Definition okf (E F fl e f : Z) : Prop :=
  1 <= E /\ 1 <= F /\ 0 <= fl < 4 /\ 0 <= e < 2 ^ E /\ 0 <= f < 2 ^ F.

Lemma pack_view E F x : 1 <= E -> 1 <= F -> wf (E + F + 3) x ->
  exists fl s e f, okf E F fl e f /\ x = pack E F fl s e f.
Proof.
  intros HE HF Hx. destruct (flopoco_fields E F x HE HF Hx) as (fl & s & e & f & H1 & H2 & H3 & H4 & _).
  exists fl, s, e, f. unfold okf, pack. repeat split; (assumption || lia).
Qed.

Lemma body_bound E F e f : 0 <= E -> 0 <= F -> 0 <= e < 2 ^ E -> 0 <= f < 2 ^ F ->
  0 <= e * 2 ^ F + f < 2 ^ (E + F).
Proof. intros. apply join_bound; assumption. Qed.

Lemma pack_wf E F fl s e f : okf E F fl e f -> wf (E + F + 3) (pack E F fl s e f).
Proof.
  intros (HE & HF & Hfl & He & Hf). apply fields_bound; try lia. apply body_bound; lia.
Qed.

Lemma pack_slices E F fl s e f : okf E F fl e f ->
  let x := pack E F fl s e f in
  x mod 2 ^ F = f /\ (x / 2 ^ F) mod 2 ^ E = e /\ (x / 2 ^ (E + F)) mod 2 = Z.b2z s /\
  (x / 2 ^ (E + F + 1)) = fl /\ x mod 2 ^ (E + F) = e * 2 ^ F + f /\ x / 2 ^ (E + F) = fl * 2 + Z.b2z s.
Proof.
  intros (HE & HF & Hfl & He & Hf) x.
  pose proof (body_bound E F e f ltac:(lia) ltac:(lia) He Hf) as Hb.
  assert (Ex : x = (fl * 2 + Z.b2z s) * 2 ^ (E + F) + (e * 2 ^ F + f)).
  { unfold x, pack. rewrite (pow2_S (E + F)) by lia. ring. }
  assert (Ex2 : x = ((fl * 2 + Z.b2z s) * 2 ^ E + e) * 2 ^ F + f).
  { rewrite Ex, (pow2_add E F) by lia. ring. }
  assert (Hs : 0 <= Z.b2z s < 2) by (destruct s; cbn; lia).
  clearbody x. repeat split.
  - rewrite Ex2. apply join_mod; lia.
  - rewrite Ex2, join_div by lia. apply join_mod; lia.
  - rewrite Ex, join_div by lia. rewrite Z.add_comm, Z.mod_add, Z.mod_small by lia. reflexivity.
  - rewrite pow2_add by lia. rewrite <- Z.div_div by (try apply Z.pow_nonzero; lia).
    rewrite Ex, join_div by lia. change (2 ^ 1) with 2.
    rewrite Z.add_comm, Z.div_add, Z.div_small by lia. lia.
  - rewrite Ex. apply join_mod; lia.
  - rewrite Ex. apply join_div; lia.
Qed.

Lemma get_flags_pack E F fl s e f : okf E F fl e f -> get_flags E F (pack E F fl s e f) = fl.
Proof.
  intros H. pose proof (pack_slices E F fl s e f H) as (_ & _ & _ & S & _).
  destruct H as (HE & HF & Hfl & _). unfold get_flags. rewrite bits_eq by lia.
  rewrite S. replace (E + F + 2 - (E + F + 1) + 1) with 2 by lia. change (2 ^ 2) with 4. apply Z.mod_small; lia.
Qed.

Lemma get_sign_pack E F fl s e f : okf E F fl e f -> get_sign E F (pack E F fl s e f) = Z.b2z s.
Proof.
  intros H. pose proof (pack_slices E F fl s e f H) as (_ & _ & S & _).
  destruct H as (HE & HF & _). unfold get_sign. rewrite bits_eq by lia.
  replace (E + F - (E + F) + 1) with 1 by lia. exact S.
Qed.

Lemma get_exp_pack E F fl s e f : okf E F fl e f -> get_exp E F (pack E F fl s e f) = e.
Proof.
  intros H. pose proof (pack_slices E F fl s e f H) as (_ & S & _).
  destruct H as (HE & HF & _). unfold get_exp. rewrite bits_eq by lia.
  replace (E + F - 1 - F + 1) with E by lia. exact S.
Qed.

Lemma get_frac_pack E F fl s e f : okf E F fl e f -> get_frac E F (pack E F fl s e f) = f.
Proof.
  intros H. pose proof (pack_slices E F fl s e f H) as (S & _).
  destruct H as (HE & HF & _). unfold get_frac. rewrite bits_eq by lia.
  replace (F - 1 - 0 + 1) with F by lia. rewrite Z.div_1_r. exact S.
Qed.

Lemma get_exp_frac_pack E F fl s e f : okf E F fl e f ->
  get_exp_frac E F (pack E F fl s e f) = e * 2 ^ F + f.
Proof.
  intros H. pose proof (pack_slices E F fl s e f H) as (_ & _ & _ & _ & S & _).
  destruct H as (HE & HF & _). unfold get_exp_frac. rewrite bits_eq by lia.
  replace (E + F - 1 - 0 + 1) with (E + F) by lia. rewrite Z.div_1_r. exact S.
Qed.

Lemma get_flags_exp_frac_pack E F fl s e f : okf E F fl e f ->
  get_flags_exp_frac E F (pack E F fl s e f) = fl * 2 ^ (E + F) + (e * 2 ^ F + f).
Proof.
  intros H. unfold get_flags_exp_frac. rewrite get_flags_pack, get_exp_frac_pack by assumption.
  destruct H as (HE & HF & _ & He & Hf). apply cat_eq; [lia|]. apply body_bound; lia.
Qed.

Lemma top3_pack E F fl s e f : okf E F fl e f ->
  bits (E + F + 2) (E + F) (pack E F fl s e f) = fl * 2 + Z.b2z s.
Proof.
  intros H. pose proof (pack_slices E F fl s e f H) as (_ & _ & _ & _ & _ & S).
  destruct H as (HE & HF & Hfl & _). rewrite bits_eq by lia. rewrite S.
  replace (E + F + 2 - (E + F) + 1) with 3 by lia. change (2 ^ 3) with 8.
  apply Z.mod_small. destruct s; cbn; lia.
Qed.

Lemma mk_pack E F fl s e f : 0 <= E -> 0 <= F -> 0 <= e < 2 ^ E -> 0 <= f < 2 ^ F ->
  mk E F fl (Z.b2z s) e f = pack E F fl s e f.
Proof.
  intros HE HF He Hf. unfold mk, pack. rewrite !cat_eq by (try lia; destruct s; cbn; lia).
  rewrite (pow2_S (E + F)), (pow2_add E F) by lia. change (2 ^ 1) with 2. ring.
Qed.

Lemma lim_pack E F fl (s : bool) e f : 0 <= E -> 0 <= F -> 0 <= e < 2 ^ E -> 0 <= f < 2 ^ F ->
  lim E F (fl * 2 + Z.b2z s) e f = pack E F fl s e f.
Proof.
  intros HE HF He Hf. unfold lim, pack. rewrite !cat_eq by lia.
  rewrite (pow2_S (E + F)), (pow2_add E F) by lia. ring.
Qed.

Lemma decode_pack E F fl s e f : okf E F fl e f ->
  decode E F (pack E F fl s e f) =
  if fl =? 0 then Zero s
  else if fl =? 1 then Num s (2 ^ F + f) (e - bias E - F)
  else if fl =? 2 then Inf s else NaN.
Proof. intros (HE & HF & Hfl & He & Hf). apply decode_fields_ef; assumption. Qed.

Lemma b2z_eqb0 s : (Z.b2z s =? 0) = negb s. Proof. destruct s; reflexivity. Qed.
Lemma b2z_eqb1 s : (Z.b2z s =? 1) = s. Proof. destruct s; reflexivity. Qed.
Lemma b2z_eqb s t : (Z.b2z s =? Z.b2z t) = Bool.eqb s t. Proof. destruct s, t; reflexivity. Qed.
Lemma fand_b2z s t : fand (Z.b2z s) (Z.b2z t) = Z.b2z (s && t). Proof. destruct s, t; reflexivity. Qed.
Lemma for_b2z s t : for_ 1 (Z.b2z s) (Z.b2z t) = Z.b2z (s || t). Proof. destruct s, t; reflexivity. Qed.
Lemma fxor_b2z s t : fxor 1 (Z.b2z s) (Z.b2z t) = Z.b2z (xorb s t). Proof. destruct s, t; reflexivity. Qed.
Lemma fnot_b2z s : fnot 1 (Z.b2z s) = Z.b2z (negb s). Proof. destruct s; reflexivity. Qed.
Lemma og1 : og 1 = 1. Proof. reflexivity. Qed.

(** All flags values by cases. *)
Lemma flags_cases fl : 0 <= fl < 4 -> fl = 0 \/ fl = 1 \/ fl = 2 \/ fl = 3.
Proof. lia. Qed.

Ltac split_flags H :=
  let H' := fresh in
  pose proof H as H'; destruct H' as (_ & _ & H' & _); apply flags_cases in H';
  destruct H' as [->|[->|[->| ->]]].

(** Evaluate accessors on packed values. *)
Ltac fields :=
  unfold is_pos_normal, is_neg_normal, is_pos_zero, is_neg_zero, is_pos_inf, is_neg_inf,
    is_zero, is_normal, is_inf, is_nan, is_positive, is_negative;
  repeat first
    [ rewrite get_flags_pack by assumption | rewrite get_sign_pack by assumption
    | rewrite get_exp_pack by assumption | rewrite get_frac_pack by assumption
    | rewrite get_exp_frac_pack by assumption | rewrite get_flags_exp_frac_pack by assumption ];
  unfold feq, fne, flt, fle, fgt, fge;
  rewrite ?b2z_eqb0, ?b2z_eqb1, ?b2z_eqb, ?fand_b2z, ?for_b2z, ?fxor_b2z, ?fnot_b2z, ?select_b2z, ?to_bool_b2z.

(** ** Order of values of one format *)
Lemma cmp_body E F e f e' f' :
  0 <= F -> 0 <= f < 2 ^ F -> 0 <= f' < 2 ^ F ->
  cmp_num (2 ^ F + f) (e - bias E - F) (2 ^ F + f') (e' - bias E - F) =
  Z.compare (e * 2 ^ F + f) (e' * 2 ^ F + f').
Proof.
  intros HF Hf Hf'. unfold cmp_num. set (b := bias E). clearbody b.
  pose proof (pow2_pos F HF) as PF.
  destruct (Z.lt_trichotomy e e') as [H|[H|H]].
  - rewrite Z.min_l by lia. replace (e - b - F - (e - b - F)) with 0 by lia.
    replace (e' - b - F - (e - b - F)) with (e' - e - 1 + 1) by lia. rewrite pow2_S by lia.
    pose proof (pow2_pos (e' - e - 1) ltac:(lia)).
    transitivity Lt; [|symmetry]; apply Z.compare_lt_iff; nia.
  - subst e'. rewrite Z.min_l by lia. rewrite Z.sub_diag, Z.mul_1_r, Z.mul_1_r.
    destruct (Z.compare_spec f f').
    + subst. rewrite !Z.compare_refl. reflexivity.
    + transitivity Lt; [|symmetry]; apply Z.compare_lt_iff; nia.
    + transitivity Gt; [|symmetry]; apply Z.compare_gt_iff; nia.
  - rewrite Z.min_r by lia. replace (e' - b - F - (e' - b - F)) with 0 by lia.
    replace (e - b - F - (e' - b - F)) with (e - e' - 1 + 1) by lia. rewrite pow2_S by lia.
    pose proof (pow2_pos (e - e' - 1) ltac:(lia)).
    transitivity Gt; [|symmetry]; apply Z.compare_gt_iff; nia.
Qed.

Lemma cmp_num_opp m e n f : cmp_num (- m) e (- n) f = CompOpp (cmp_num m e n f).
Proof.
  unfold cmp_num. rewrite <- Z.compare_antisym, !Z.mul_opp_l, Z.compare_opp. reflexivity.
Qed.

Lemma cmp_num_pos_neg m e n f : 0 < m -> 0 < n -> cmp_num m e (- n) f = Gt /\ cmp_num (- m) e n f = Lt.
Proof.
  intros Hm Hn. unfold cmp_num. set (k := Z.min e f).
  pose proof (pow2_pos (e - k) ltac:(lia)). pose proof (pow2_pos (f - k) ltac:(lia)).
  split; [apply Z.compare_gt_iff|apply Z.compare_lt_iff]; nia.
Qed.

(** Order of signed normal numbers of one format. *)
Lemma cmp_signed E F s e f t e' f' :
  0 <= F -> 0 <= f < 2 ^ F -> 0 <= f' < 2 ^ F ->
  cmp_num (sgn s (2 ^ F + f)) (e - bias E - F) (sgn t (2 ^ F + f')) (e' - bias E - F) =
  match s, t with
  | false, false => Z.compare (e * 2 ^ F + f) (e' * 2 ^ F + f')
  | true, true => Z.compare (e' * 2 ^ F + f') (e * 2 ^ F + f)
  | true, false => Lt
  | false, true => Gt
  end.
Proof.
  intros HF Hf Hf'. pose proof (pow2_pos F HF) as PF.
  pose proof (cmp_num_pos_neg (2 ^ F + f) (e - bias E - F) (2 ^ F + f') (e' - bias E - F) ltac:(lia) ltac:(lia)) as [H1 H2].
  destruct s, t; cbn [sgn].
  - rewrite cmp_num_opp, cmp_body by lia. symmetry. apply Z.compare_antisym.
  - exact H2.
  - exact H1.
  - apply cmp_body; lia.
Qed.
