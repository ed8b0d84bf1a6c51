From Coq Require Import ZArith Bool Lia.
From Verif Require Import Fw FwLemmas Spec SpecLemmas Flopoco FlopocoLemmas FlopocoProofs CompareProofs MulProofs AddSingle AddLemmas ValueLemmas AddSingleProofs AddSingleProofs2 AddSingleProofs3 AddDual.
Open Scope Z_scope.

(** After the swap. *)
Definition dual_core (wE wF X Y d : Z) : option Z :=
  do shiftVal <- dual_shiftVal wE wF d;
  let EffSub := fxor 1 (get_sign wE wF X) (get_sign wE wF Y) in
  let cl := select (feq (bits (wE - 1) 1 d) 0) EffSub (zg 1) in
  do close <- dual_close wE wF X Y d cl;
  do far <- dual_far wE wF X Y EffSub shiftVal;
  Some (dual_final wE wF X Y EffSub cl close far).

Lemma take_low w x : 0 <= w -> bits (w - 1) 0 x = x mod 2 ^ w.
Proof. intros. rewrite bits_eq by lia. rewrite Z.pow_0_r, Z.div_1_r. f_equal. f_equal. lia. Qed.

Lemma dual_body_core wE wF a s e f b t g h :
  okf wE wF a e f -> okf wE wF b g h ->
  let X := pack wE wF a s e f in let Y := pack wE wF b t g h in
  add_dual_body wE wF X Y =
  if (b <? a) || ((a =? b) && (g <=? e)) then dual_core wE wF X Y ((e - g) mod 2 ^ wE)
  else dual_core wE wF Y X ((g - e) mod 2 ^ wE).
Proof.
  intros HX HY X Y. unfold add_dual_body.
  change (bits (wE + wF + 2) (wE + wF + 1) X) with (get_flags wE wF X). change (bits (wE + wF + 2) (wE + wF + 1) Y) with (get_flags wE wF Y).
  change (bits (wE + wF - 1) wF X) with (get_exp wE wF X). change (bits (wE + wF - 1) wF Y) with (get_exp wE wF Y).
  unfold X, Y. rewrite !get_flags_pack, !get_exp_pack by assumption. fold X Y.
  pose proof HX as (HE & HF & Ha & He & Hf). pose proof HY as (_ & _ & Hb & Hg & Hh).
  rewrite !zpad_hi_eq by lia. rewrite !take_low by lia. rewrite (Z.mod_small e), (Z.mod_small g) by lia.
  rewrite !fsub_eq by lia. rewrite Z.mod_mod by (apply Z.pow_nonzero; lia).
  assert (ED : ((e - g) mod 2 ^ (wE + 1)) mod 2 ^ wE = (e - g) mod 2 ^ wE).
  { rewrite pow2_S by lia. symmetry. apply Znumtheory.Zmod_div_mod; try (pose proof (pow2_pos wE ltac:(lia)); lia). exists 2. reflexivity. }
  rewrite ED. clear ED.
  assert (EB : bits wE wE ((e - g) mod 2 ^ (wE + 1)) = Z.b2z (e <? g)).
  { rewrite bits_eq by lia. replace (wE - wE + 1) with 1 by lia. change (2 ^ 1) with 2. pose proof (pow2_S wE ltac:(lia)) as ES.
    destruct (Z.ltb_spec e g).
    - rewrite <- (Z.mod_add (e - g) 1 (2 ^ (wE + 1))) by lia. rewrite (Z.mod_small (e - g + _)) by lia.
      replace (e - g + 1 * 2 ^ (wE + 1)) with (1 * 2 ^ wE + (e - g + 2 ^ wE)) by lia. rewrite join_div by lia. reflexivity.
    - rewrite (Z.mod_small (e - g)) by lia. rewrite Z.div_small by lia. reflexivity. }
  rewrite EB. unfold feq, fge. rewrite fand_b2z, fnot_b2z, for_b2z, !select_b2z.
  assert (EC : (a =? b) && (e <? g) || negb (b <=? a) = negb ((b <? a) || (a =? b) && (g <=? e))).
  { destruct (Z.eqb_spec a b), (Z.ltb_spec e g), (Z.leb_spec b a), (Z.ltb_spec b a), (Z.leb_spec g e); cbn; lia. }
  rewrite EC. destruct ((b <? a) || _); cbn [negb]; unfold dual_core, feq; rewrite select_b2z; reflexivity.
Qed.

(** ** Shift amount *)
Definition dual_ok_width (E F : Z) : Prop :=
  3 < E /\ 1 <= F /\ F <= 2 ^ (E + 1) /\ 2 * F + 6 < 2 ^ 31 /\
  (F = 5 \/ F = 13 \/ F = 29 \/ 2 ^ E <= 2 * F + 4 \/ 2 ^ Z.log2 (F + 3) <> F + 3).

(** The same for operands whose exponent fields are at least lo. *)
Definition dual_ok_from (lo E F : Z) : Prop :=
  3 < E /\ 1 <= F /\ F <= 2 ^ (E + 1) + lo /\ 2 * F + 6 < 2 ^ 31 /\
  (F = 5 \/ F = 13 \/ F = 29 \/ 2 ^ E <= 2 * F + 4 \/ 2 ^ Z.log2 (F + 3) <> F + 3).

Lemma dual_shiftVal_ok lo wE wF d : dual_ok_from lo wE wF -> 0 <= d < 2 ^ wE ->
  exists k, dual_shiftVal wE wF d = Some k /\ 0 <= k < 2 * wF + 4 + dual_pad wF /\
    (k = d \/ k = wF + 3 /\ wF + 3 < d).
Proof.
  intros (HE & HF & _ & _ & HW) Hd. unfold dual_shiftVal. destruct (intlog2_spec (wF + 3) ltac:(lia)) as (S1 & S2 & S3).
  assert (EL : intlog2 (wF + 3) = Z.log2 (wF + 3) + 1).
  { unfold intlog2. destruct (Z.leb_spec (wF + 3) 0); lia. }
  remember (intlog2 (wF + 3)) as w. 
  assert (Es : 2 ^ w = 2 * 2 ^ (w - 1)) by (rewrite <- pow2_S by lia; f_equal; lia).
  assert (Hlim : forall j, 0 <= j -> j < 2 ^ w -> j < 2 ^ wE -> j < 2 * wF + 4 + dual_pad wF).
  { intros j J0 J1 J2. unfold dual_pad. replace (Z.log2 (wF + 3)) with (w - 1) in HW by lia.
    destruct HW as [-> | [-> | [-> | [HW|HW]]]]; try (cbn [Z.eqb Pos.eqb orb]; lia).
    - destruct (_ || _); lia.
    - assert (2 ^ w < 2 * wF + 6) by lia. assert (2 ^ w <= 2 * wF + 4).
      { assert (exists z, 2 ^ w = 2 * z) by (exists (2 ^ (w - 1)); exact Es). lia. }
      destruct (_ || _); lia. }
  destruct (Z.ltb_spec w wE) as [Hlt|Hge].
  - rewrite of_int_ok by lia. cbn [bind]. rewrite take_low by lia. rewrite bits_eq by lia.
    replace (wE - 1 - w + 1) with (wE - w) by lia. unfold fne. rewrite fnot_b2z, select_b2z, negb_involutive.
    assert (Hq : 0 <= d / 2 ^ w < 2 ^ (wE - w)) by (apply div_pow_lt; try lia; replace (w + (wE - w)) with wE by lia; lia).
    rewrite (Z.mod_small (d / 2 ^ w)) by lia. pose proof (div_mod_eq d (2 ^ w) ltac:(lia)) as DM. pose proof (mod_pow_bound d w ltac:(lia)) as MB.
    destruct (Z.eqb_spec (d / 2 ^ w) 0) as [H0|H0].
    + rewrite H0, Z.mul_0_r, Z.add_0_l in DM. rewrite <- DM in *. rewrite checked_cast_ok by lia.
      exists d. split; [reflexivity|]. split; [|left; reflexivity]. split; [lia|]. apply Hlim; lia.
    + rewrite checked_cast_ok by lia. exists (wF + 3). split; [reflexivity|].
      assert (2 ^ w <= d) by nia. split; [|right; lia]. split; [lia|]. apply Hlim; lia.
  - destruct (Z.eqb_spec wE w) as [->|Hne].
    + rewrite checked_cast_ok by lia. exists d. split; [reflexivity|]. split; [|left; reflexivity]. split; [lia|]. apply Hlim; lia.
    + assert (2 ^ wE <= 2 ^ w) by (apply pow2_le; lia). rewrite cat_eq by lia. unfold zg. rewrite Z.mul_0_l, Z.add_0_l.
      replace (w - wE + wE) with w by lia. rewrite checked_cast_ok by lia.
      exists d. split; [reflexivity|]. split; [|left; reflexivity]. split; [lia|]. apply Hlim; lia.
Qed.

(** ** Final stage *)
Lemma dual_final_special wE wF a s e f b t g h cl close far mx ex my ey :
  okf wE wF a e f -> okf wE wF b g h -> b <= a -> cat 2 a b <> 5 ->
  round_to wE wF s mx 1 ex = decode wE wF (pack wE wF 1 s e f) ->
  let r := dual_final wE wF (pack wE wF a s e f) (pack wE wF b t g h) (fxor 1 (Z.b2z s) (Z.b2z t)) cl close far in
  wf (wE + wF + 3) r /\ decode wE wF r = add_spec wE wF
      (if a =? 0 then Zero s else if a =? 1 then Num s mx ex else if a =? 2 then Inf s else NaN)
      (if b =? 0 then Zero t else if b =? 1 then Num t my ey else if b =? 2 then Inf t else NaN).
Proof.
  intros HX HY Hba Hn Hr r. unfold r, dual_final. destruct close as [[[c1 c2] c3] c4], far as [f1 f2].
  fold (get_flags wE wF (pack wE wF a s e f)) (get_flags wE wF (pack wE wF b t g h))
    (get_sign wE wF (pack wE wF a s e f)) (get_sign wE wF (pack wE wF b t g h)) (get_exp_frac wE wF (pack wE wF a s e f)).
  rewrite !get_flags_pack, !get_sign_pack, get_exp_frac_pack by assumption. unfold feq.
  rewrite (proj2 (Z.eqb_neq _ 5) Hn). cbn [Z.b2z select to_bool Z.eqb Pos.eqb].
  pose proof HX as (HE & HF & Ha & He & Hf). pose proof HY as (_ & _ & Hb & _ & _).
  rewrite fxor_b2z, fand_b2z, select_b2z.
  assert (HB : 0 <= e * 2 ^ wF + f < 2 ^ (wE + wF)) by (apply body_bound; lia).
  assert (G : forall fl (sg : bool) v, 0 <= fl < 4 -> decode wE wF (pack wE wF fl sg e f) = v ->
    wf (wE + wF + 3) (cat (wE + wF) (cat 1 fl (Z.b2z sg)) (e * 2 ^ wF + f)) /\
    decode wE wF (cat (wE + wF) (cat 1 fl (Z.b2z sg)) (e * 2 ^ wF + f)) = v).
  { intros fl sg v Hfl Hv. assert (EQ : cat (wE + wF) (cat 1 fl (Z.b2z sg)) (e * 2 ^ wF + f) = pack wE wF fl sg e f).
    { rewrite !cat_eq by (try (change (2 ^ 1) with 2; destruct sg; cbn); lia). unfold pack. rewrite (pow2_S (wE + wF)) by lia. change (2 ^ 1) with 2. ring. }
    rewrite EQ. split; [apply pack_wf; unfold okf; lia|exact Hv]. }
  assert (OK : forall fl, 0 <= fl < 4 -> okf wE wF fl e f) by (intros; unfold okf; lia).
  assert (Ca : a = 0 \/ a = 1 \/ a = 2 \/ a = 3) by lia. assert (Cb : b = 0 \/ b = 1 \/ b = 2 \/ b = 3) by lia.
  destruct Ca as [->|[->|[->| ->]]], Cb as [->|[->|[->| ->]]]; try lia; try (exfalso; apply Hn; reflexivity);
  match goal with |- context [cat (wE + wF) (cat 1 ?fl ?sg) _] => let fl' := eval cbn in fl in idtac end.
  all: try (change (cat 2 0 0) with 0); try (change (cat 2 1 0) with 4); try (change (cat 2 2 0) with 8); try (change (cat 2 2 1) with 9);
       try (change (cat 2 2 2) with 10); try (change (cat 2 3 0) with 12); try (change (cat 2 3 1) with 13); try (change (cat 2 3 2) with 14); try (change (cat 2 3 3) with 15).
  all: cbn [Z.eqb Pos.eqb Z.b2z to_bool].
  - apply (G 0 (s && t)); [lia|]. rewrite decode_pack by (apply OK; lia). reflexivity.
  - apply (G 1 s); [lia|]. symmetry. exact Hr.
  - apply (G 2 s); [lia|]. rewrite decode_pack by (apply OK; lia). reflexivity.
  - apply (G 2 s); [lia|]. rewrite decode_pack by (apply OK; lia). reflexivity.
  - destruct s, t; cbn [xorb Z.b2z].
    + apply (G 2 true); [lia|]. rewrite decode_pack by (apply OK; lia). reflexivity.
    + apply (G 3 true); [lia|]. rewrite decode_pack by (apply OK; lia). reflexivity.
    + apply (G 3 false); [lia|]. rewrite decode_pack by (apply OK; lia). reflexivity.
    + apply (G 2 false); [lia|]. rewrite decode_pack by (apply OK; lia). reflexivity.
  - apply (G 3 s); [lia|]. rewrite decode_pack by (apply OK; lia). reflexivity.
  - apply (G 3 s); [lia|]. rewrite decode_pack by (apply OK; lia). reflexivity.
  - apply (G 3 s); [lia|]. rewrite decode_pack by (apply OK; lia). reflexivity.
  - apply (G 3 s); [lia|]. rewrite decode_pack by (apply OK; lia). reflexivity.
Qed.
