(** Proofs about promote and the comparisons. *)
From Coq Require Import ZArith Bool Lia.
From Verif Require Import Fw FwLemmas Spec SpecLemmas Flopoco FlopocoLemmas FlopocoProofs.
Open Scope Z_scope.

(** ** Scaling a significand *)
Lemma cmp_num_k m e n f k : k <= e -> k <= f ->
  cmp_num m e n f = Z.compare (m * 2 ^ (e - k)) (n * 2 ^ (f - k)).
Proof.
  intros He Hf. unfold cmp_num. set (j := Z.min e f). pose proof (pow2_pos (j - k) ltac:(lia)) as P.
  replace (e - k) with (e - j + (j - k)) by lia. replace (f - k) with (f - j + (j - k)) by lia.
  rewrite !pow2_add by lia. rewrite !Z.mul_assoc. apply Zmult_compare_compat_r. lia.
Qed.

Definition scale_v (d : Z) (v : fval) : fval :=
  match v with Num s m e => Num s (m * 2 ^ d) (e - d) | _ => v end.

Lemma cmp_num_scale m e n f d : 0 <= d -> cmp_num (m * 2 ^ d) (e - d) n f = cmp_num m e n f.
Proof.
  intros Hd. set (k := Z.min (e - d) f).
  rewrite (cmp_num_k (m * 2 ^ d) (e - d) n f k), (cmp_num_k m e n f k) by lia.
  replace (e - k) with (d + (e - d - k)) by lia. rewrite (pow2_add d) by lia. f_equal. ring.
Qed.

Lemma cmp_num_swap m e n f : cmp_num n f m e = CompOpp (cmp_num m e n f).
Proof. unfold cmp_num. rewrite Z.min_comm. apply Z.compare_antisym. Qed.

Lemma sgn_mul s m k : sgn s (m * k) = sgn s m * k.
Proof. destruct s; cbn; ring. Qed.

Lemma vcmp_scale_l d x y : 0 <= d -> vcmp (scale_v d x) y = vcmp x y.
Proof.
  intros Hd. destruct x as [|s|s|s m e], y as [|t|t|t n f]; cbn; try reflexivity.
  rewrite sgn_mul, cmp_num_scale by lia. reflexivity.
Qed.
Lemma vcmp_scale_r d x y : 0 <= d -> vcmp x (scale_v d y) = vcmp x y.
Proof.
  intros Hd. destruct x as [|s|s|s m e], y as [|t|t|t n f]; cbn; try reflexivity.
  rewrite cmp_num_swap, sgn_mul, cmp_num_scale by lia. rewrite <- cmp_num_swap. reflexivity.
Qed.

Lemma veq_scale d x : 0 <= d -> veq (scale_v d x) x.
Proof.
  intros Hd. destruct x; cbn; try reflexivity; try exact I. split; [reflexivity|].
  rewrite cmp_num_scale by lia. apply Z.compare_refl.
Qed.

(** ** promote *)
Lemma pow_EX E : 1 <= E -> 2 ^ E = 2 * 2 ^ (E - 1).
Proof. intros. rewrite <- pow2_S by lia. f_equal; lia. Qed.

Lemma promote_exp_ok DE SE e : 1 <= SE <= DE -> 0 <= e < 2 ^ SE ->
  promote_exp DE SE e = Some (e + (bias DE - bias SE)) /\ 0 <= e + (bias DE - bias SE) < 2 ^ DE.
Proof.
  intros HE He. unfold bias.
  assert (Hle : 2 ^ (SE - 1) <= 2 ^ (DE - 1)) by (apply pow2_le; lia).
  pose proof (pow2_pos (SE - 1) ltac:(lia)). rewrite (pow_EX SE) in He by lia.
  assert (R : 0 <= e + (2 ^ (DE - 1) - 1 - (2 ^ (SE - 1) - 1)) < 2 ^ DE).
  { rewrite (pow_EX DE) by lia. lia. }
  split; [|assumption]. unfold promote_exp. destruct (Z.eqb_spec DE SE) as [->|Hn].
  - f_equal. lia.
  - unfold assert_. destruct (Z.leb_spec SE DE); [|lia]. cbn [bind].
    rewrite zpad_hi_eq by (rewrite ?(pow_EX SE) by lia; lia). rewrite fadd_eq, Z.mod_small by lia. reflexivity.
Qed.

Lemma promote_frac_ok DF SF f : 1 <= SF <= DF -> 0 <= f < 2 ^ SF ->
  promote_frac DF SF f = Some (f * 2 ^ (DF - SF)) /\ 0 <= f * 2 ^ (DF - SF) < 2 ^ DF.
Proof.
  intros HF Hf. assert (E : 2 ^ DF = 2 ^ SF * 2 ^ (DF - SF)) by (rewrite <- pow2_add by lia; f_equal; lia).
  pose proof (pow2_pos (DF - SF) ltac:(lia)) as P.
  split; [|rewrite E; nia]. unfold promote_frac. destruct (Z.eqb_spec DF SF) as [->|Hn].
  - rewrite Z.sub_diag, Z.mul_1_r. reflexivity.
  - unfold assert_. destruct (Z.leb_spec SF DF); [|lia]. cbn [bind]. unfold zg.
    rewrite cat_eq by lia. f_equal. lia.
Qed.

Lemma promote_pack DE DF SE SF a s e f :
  SE <= DE -> SF <= DF -> okf SE SF a e f ->
  let e' := e + (bias DE - bias SE) in let f' := f * 2 ^ (DF - SF) in
  promote DE DF SE SF (pack SE SF a s e f) = Some (pack DE DF a s e' f') /\ okf DE DF a e' f'.
Proof.
  intros HE HF Ha e' f'. pose proof Ha as (H1 & H2 & H3 & H4 & H5).
  destruct (promote_exp_ok DE SE e ltac:(lia) H4) as [Ee Re]. fold e' in Ee, Re.
  destruct (promote_frac_ok DF SF f ltac:(lia) H5) as [Ef Rf]. fold f' in Ef, Rf.
  split; [|unfold okf; repeat split; lia].
  unfold promote. destruct (Z.eqb_spec DE SE) as [HDE|HDE], (Z.eqb_spec DF SF) as [HDF|HDF]; cbn [andb].
  1:{ unfold e', f'. rewrite HDE, HDF. rewrite !Z.sub_diag, Z.add_0_r, Z.mul_1_r. reflexivity. }
  all: rewrite get_exp_pack, get_frac_pack, get_flags_pack, get_sign_pack by assumption; rewrite Ee; cbn [bind];
    rewrite Ef; cbn [bind]; rewrite mk_pack by lia; reflexivity.
Qed.

Lemma decode_promoted DE DF SE SF a s e f :
  SF <= DF -> okf SE SF a e f -> okf DE DF a (e + (bias DE - bias SE)) (f * 2 ^ (DF - SF)) ->
  decode DE DF (pack DE DF a s (e + (bias DE - bias SE)) (f * 2 ^ (DF - SF))) =
  scale_v (DF - SF) (decode SE SF (pack SE SF a s e f)).
Proof.
  intros HF Ha Hb. rewrite !decode_pack by assumption. pose proof Ha as (_ & H2 & _).
  destruct (a =? 0); [reflexivity|]. destruct (a =? 1); [|destruct (a =? 2); reflexivity]. cbn [scale_v].
  f_equal; [|lia]. rewrite Z.mul_add_distr_r, <- pow2_add by lia. do 2 f_equal. lia.
Qed.

Theorem promote_correct DE DF SE SF x :
  1 <= SE <= DE -> 1 <= SF <= DF -> wf (SE + SF + 3) x ->
  exists r, promote DE DF SE SF x = Some r /\ wf (DE + DF + 3) r /\ veq (decode DE DF r) (decode SE SF x).
Proof.
  intros HE HF Hx. destruct (pack_view SE SF x ltac:(lia) ltac:(lia) Hx) as (a & s & e & f & Ha & ->).
  destruct (promote_pack DE DF SE SF a s e f ltac:(lia) ltac:(lia) Ha) as [Hp Ho]. cbv zeta in Hp, Ho.
  eexists. split; [exact Hp|]. split; [apply pack_wf; assumption|].
  rewrite decode_promoted by (assumption || lia). apply veq_scale. lia.
Qed.

(** ** comparisons *)
Definition same_inf (x y : fval) : Prop := exists s, x = Inf s /\ y = Inf s.

Definition core_ok (k : Z -> Z -> Z -> Z -> Z) (spec : fval -> fval -> bool) : Prop := forall E F a s e f b t g h,
  okf E F a e f -> okf E F b g h -> ~ (a = 2 /\ b = 2 /\ s = t) ->
  k E F (pack E F a s e f) (pack E F b t g h) =
  Z.b2z (spec (decode E F (pack E F a s e f)) (decode E F (pack E F b t g h))).

Lemma lift_core k (spec : option comparison -> bool) EA FA EB FB x y :
  core_ok k (fun u v => spec (vcmp u v)) ->
  1 <= EA -> 1 <= FA -> 1 <= EB -> 1 <= FB -> wf (EA + FA + 3) x -> wf (EB + FB + 3) y ->
  ~ same_inf (decode EA FA x) (decode EB FB y) ->
  with_promoted EA FA EB FB x y k = Some (Z.b2z (spec (vcmp (decode EA FA x) (decode EB FB y)))).
Proof.
  intros Hk H1 H2 H3 H4 Hx Hy Hni.
  destruct (pack_view EA FA x H1 H2 Hx) as (a & s & e & f & Ha & ->).
  destruct (pack_view EB FB y H3 H4 Hy) as (b & t & g & h & Hb & ->).
  unfold with_promoted.
  assert (HM : forall p q, p <= ctMax p q /\ q <= ctMax p q).
  { intros p q. unfold ctMax. destruct (Z.ltb_spec q p); lia. }
  destruct (HM EA EB), (HM FA FB).
  destruct (promote_pack (ctMax EA EB) (ctMax FA FB) EA FA a s e f ltac:(lia) ltac:(lia) Ha) as [Pa Oa].
  destruct (promote_pack (ctMax EA EB) (ctMax FA FB) EB FB b t g h ltac:(lia) ltac:(lia) Hb) as [Pb Ob].
  cbv zeta in *. rewrite Pa, Pb. cbn [bind]. rewrite Hk; try assumption.
  - rewrite !decode_promoted by (assumption || lia). rewrite vcmp_scale_l, vcmp_scale_r by lia. reflexivity.
  - intros (-> & -> & ->). apply Hni. exists t. rewrite !decode_pack by assumption. split; reflexivity.
Qed.

Lemma vcmp_nan E F a s e f b t g h : okf E F a e f -> okf E F b g h -> a = 3 \/ b = 3 ->
  vcmp (decode E F (pack E F a s e f)) (decode E F (pack E F b t g h)) = None.
Proof.
  intros Ha Hb H. rewrite !decode_pack by assumption. destruct H as [-> | ->]; cbn [Z.eqb Pos.eqb].
  - reflexivity.
  - split_flags Ha; reflexivity.
Qed.

(** Prepare: the flags-exp-frac code orders like arank away from two infinities. *)
Lemma code_compare E F a e f b g h :
  okf E F a e f -> okf E F b g h -> a <> 3 -> b <> 3 -> ~ (a = 2 /\ b = 2) -> ~ (a = 0 /\ b = 0) ->
  Z.compare (a * 2 ^ (E + F) + (e * 2 ^ F + f)) (b * 2 ^ (E + F) + (g * 2 ^ F + h)) =
  Z.compare (arank E F a e f) (arank E F b g h).
Proof.
  intros Ha Hb Ha3 Hb3 H2 H0. pose proof (okf_body _ _ _ _ _ Ha) as Ra. pose proof (okf_body _ _ _ _ _ Hb) as Rb.
  remember (e * 2 ^ F + f) as x. remember (g * 2 ^ F + h) as y. unfold arank. rewrite <- Heqx, <- Heqy.
  split_flags Ha; split_flags Hb; try lia; cbn [Z.eqb Pos.eqb];
    try (transitivity Lt; [|symmetry]; apply Z.compare_lt_iff; lia);
    try (transitivity Gt; [|symmetry]; apply Z.compare_gt_iff; lia).
  rewrite !Z.add_compare_mono_l. reflexivity.
Qed.

Lemma compare_opp_swap x y : Z.compare (- x) (- y) = Z.compare y x.
Proof. apply Z.compare_opp. Qed.

Lemma ltb_compare x y : (x <? y) = match Z.compare x y with Lt => true | _ => false end.
Proof. reflexivity. Qed.
Lemma leb_compare x y : (x <=? y) = match Z.compare x y with Gt => false | _ => true end.
Proof. reflexivity. Qed.

(** The decision tree shared by the four order comparisons. *)
Lemma order_tree (spec : option comparison -> bool) (zz dn dp : bool) (cn cp : Z -> Z -> bool) :
  spec None = false -> spec (Some Eq) = zz -> spec (Some Lt) = dn -> spec (Some Gt) = dp ->
  (forall x y, cp x y = spec (Some (Z.compare x y))) -> (forall x y, cn x y = spec (Some (Z.compare y x))) ->
  core_ok (fun E F na nb =>
    if to_bool (for_ 1 (is_nan E F na) (is_nan E F nb)) then 0
    else if to_bool (fand (is_zero E F na) (is_zero E F nb)) then Z.b2z zz
    else if to_bool (fxor 1 (is_negative E F na) (is_negative E F nb))
         then (if to_bool (is_negative E F na) then Z.b2z dn else Z.b2z dp)
    else if to_bool (is_negative E F na)
         then Z.b2z (cn (get_flags_exp_frac E F na) (get_flags_exp_frac E F nb))
         else Z.b2z (cp (get_flags_exp_frac E F na) (get_flags_exp_frac E F nb)))
  (fun u v => spec (vcmp u v)).
Proof.
  intros S0 Sz Sn Sp Hp Hn E F a s e f b t g h Ha Hb Hni. fields.
  destruct (Z.eqb_spec a 3) as [Ha3|Ha3]; [rewrite vcmp_nan, S0 by (try assumption; auto); reflexivity|].
  destruct (Z.eqb_spec b 3) as [Hb3|Hb3]; [rewrite vcmp_nan, S0 by (try assumption; auto); reflexivity|].
  cbn [orb]. rewrite vcmp_rank by assumption. unfold rank.
  pose proof (okf_body _ _ _ _ _ Ha) as Ra. pose proof (okf_body _ _ _ _ _ Hb) as Rb.
  assert (Pa : a <> 0 -> 0 < arank E F a e f).
  { intros. unfold arank. destruct (Z.eqb_spec a 0), (a =? 1); lia. }
  assert (Pb : b <> 0 -> 0 < arank E F b g h).
  { intros. unfold arank. destruct (Z.eqb_spec b 0), (b =? 1); lia. }
  assert (Za : a = 0 -> arank E F a e f = 0) by (intros ->; reflexivity).
  assert (Zb : b = 0 -> arank E F b g h = 0) by (intros ->; reflexivity).
  destruct (Z.eqb_spec a 0) as [Ha0|Ha0], (Z.eqb_spec b 0) as [Hb0|Hb0]; cbn [andb].
  1:{ rewrite Za, Zb by assumption. replace (sgn s 0 ?= sgn t 0) with Eq by (destruct s, t; reflexivity).
      rewrite Sz. reflexivity. }
  all: destruct s, t; cbn [xorb sgn];
    try (replace (_ ?= _) with Lt by (symmetry; apply Z.compare_lt_iff; lia); rewrite Sn; reflexivity);
    try (replace (_ ?= _) with Gt by (symmetry; apply Z.compare_gt_iff; lia); rewrite Sp; reflexivity);
    f_equal; first [rewrite Hn|rewrite Hp]; rewrite ?compare_opp_swap; do 2 f_equal; apply code_compare; try assumption; try lia;
    intros [? ?]; apply Hni; auto.
Qed.

Lemma core_ext k k' spec :
  (forall E F a s e f b t g h, okf E F a e f -> okf E F b g h ->
     k E F (pack E F a s e f) (pack E F b t g h) = k' E F (pack E F a s e f) (pack E F b t g h)) ->
  core_ok k' spec -> core_ok k spec.
Proof. intros H Hk E F a s e f b t g h Ha Hb Hni. rewrite H by assumption. apply Hk; assumption. Qed.

Ltac by_tree spec zz dn dp cn cp :=
  apply (lift_core _ spec); try assumption;
  eapply core_ext;
  [|apply (order_tree spec zz dn dp cn cp); try reflexivity; intros x0 y0; cbv beta;
    rewrite ?ltb_compare, ?leb_compare; try rewrite (Z.compare_antisym x0 y0); try (destruct (x0 ?= y0); reflexivity);
    try (rewrite (Z.compare_antisym y0 x0); destruct (y0 ?= x0); reflexivity)];
  cbv beta; intros E F a s e f b t g h Ha Hb; unfold select, zg; fields; rewrite ?og1;
  destruct s, t; reflexivity.

Theorem less_than_correct EA FA EB FB x y :
  1 <= EA -> 1 <= FA -> 1 <= EB -> 1 <= FB -> wf (EA + FA + 3) x -> wf (EB + FB + 3) y ->
  ~ same_inf (decode EA FA x) (decode EB FB y) ->
  less_than EA FA EB FB x y = Some (Z.b2z (lt_spec (decode EA FA x) (decode EB FB y))).
Proof.
  intros. by_tree (fun c => match c with Some Lt => true | _ => false end) false true false
    (fun x y => y <? x) (fun x y => x <? y).
Qed.

Theorem less_than_equal_correct EA FA EB FB x y :
  1 <= EA -> 1 <= FA -> 1 <= EB -> 1 <= FB -> wf (EA + FA + 3) x -> wf (EB + FB + 3) y ->
  ~ same_inf (decode EA FA x) (decode EB FB y) ->
  less_than_equal EA FA EB FB x y = Some (Z.b2z (le_spec (decode EA FA x) (decode EB FB y))).
Proof.
  intros. by_tree (fun c => match c with Some Lt | Some Eq => true | _ => false end) true true false
    (fun x y => y <=? x) (fun x y => x <=? y).
Qed.

Theorem greater_than_correct EA FA EB FB x y :
  1 <= EA -> 1 <= FA -> 1 <= EB -> 1 <= FB -> wf (EA + FA + 3) x -> wf (EB + FB + 3) y ->
  ~ same_inf (decode EA FA x) (decode EB FB y) ->
  greater_than EA FA EB FB x y = Some (Z.b2z (gt_spec (decode EA FA x) (decode EB FB y))).
Proof.
  intros. by_tree (fun c => match c with Some Gt => true | _ => false end) false false true
    (fun x y => x <? y) (fun x y => y <? x).
Qed.

Theorem greater_than_equal_correct EA FA EB FB x y :
  1 <= EA -> 1 <= FA -> 1 <= EB -> 1 <= FB -> wf (EA + FA + 3) x -> wf (EB + FB + 3) y ->
  ~ same_inf (decode EA FA x) (decode EB FB y) ->
  greater_than_equal EA FA EB FB x y = Some (Z.b2z (ge_spec (decode EA FA x) (decode EB FB y))).
Proof.
  intros. by_tree (fun c => match c with Some Gt | Some Eq => true | _ => false end) true false true
    (fun x y => x <=? y) (fun x y => y <=? x).
Qed.

Lemma equal_core : core_ok (fun E F na nb =>
    select (for_ 1 (is_nan E F na) (is_nan E F nb)) (zg 1)
    (select (fne (get_flags E F na) (get_flags E F nb)) (zg 1)
    (select (is_zero E F na) (og 1)
      (fand (feq (get_sign E F na) (get_sign E F nb))
            (feq (get_exp_frac E F na) (get_exp_frac E F nb))))))
  (fun u v => match vcmp u v with Some Eq => true | _ => false end).
Proof.
  intros E F a s e f b t g h Ha Hb Hni. fields. unfold zg. rewrite og1.
  destruct (Z.eqb_spec a 3) as [Ha3|Ha3]; [rewrite vcmp_nan by (try assumption; auto); reflexivity|].
  destruct (Z.eqb_spec b 3) as [Hb3|Hb3]; [rewrite vcmp_nan by (try assumption; auto); reflexivity|].
  cbn [orb]. rewrite vcmp_rank by assumption. unfold rank, arank.
  pose proof (okf_body _ _ _ _ _ Ha) as Ra. pose proof (okf_body _ _ _ _ _ Hb) as Rb.
  remember (e * 2 ^ F + f) as u. remember (g * 2 ^ F + h) as v.
  assert (Heq : forall p q, match Some (p ?= q) with Some Eq => true | _ => false end = (p =? q)).
  { intros. rewrite Z.eqb_compare. reflexivity. }
  rewrite Heq. clear Heq Hequ Heqv.
  split_flags Ha; split_flags Hb; try lia; cbn [Z.eqb Pos.eqb negb]; destruct s, t; cbn [sgn Bool.eqb andb];
    try (exfalso; apply Hni; auto; fail);
    repeat match goal with |- context [?p =? ?q] => destruct (Z.eqb_spec p q) end; try reflexivity; lia.
Qed.

Theorem equal_correct EA FA EB FB x y :
  1 <= EA -> 1 <= FA -> 1 <= EB -> 1 <= FB -> wf (EA + FA + 3) x -> wf (EB + FB + 3) y ->
  ~ same_inf (decode EA FA x) (decode EB FB y) ->
  equal EA FA EB FB x y = Some (Z.b2z (eq_spec (decode EA FA x) (decode EB FB y))).
Proof.
  intros. apply (lift_core _ (fun c => match c with Some Eq => true | _ => false end)); try assumption.
  exact equal_core.
Qed.

(** not_equal is always the complement of equal, even on infinities. *)
Theorem not_equal_complement EA FA EB FB x y :
  1 <= EA -> 1 <= FA -> 1 <= EB -> 1 <= FB -> wf (EA + FA + 3) x -> wf (EB + FB + 3) y ->
  exists b, equal EA FA EB FB x y = Some (Z.b2z b) /\ not_equal EA FA EB FB x y = Some (Z.b2z (negb b)).
Proof.
  intros H1 H2 H3 H4 Hx Hy.
  destruct (pack_view EA FA x H1 H2 Hx) as (a & s & e & f & Ha & ->).
  destruct (pack_view EB FB y H3 H4 Hy) as (b & t & g & h & Hb & ->).
  unfold equal, not_equal, with_promoted.
  assert (HM : forall p q, p <= ctMax p q /\ q <= ctMax p q).
  { intros p q. unfold ctMax. destruct (Z.ltb_spec q p); lia. }
  destruct (HM EA EB), (HM FA FB).
  destruct (promote_pack (ctMax EA EB) (ctMax FA FB) EA FA a s e f ltac:(lia) ltac:(lia) Ha) as [Pa Oa].
  destruct (promote_pack (ctMax EA EB) (ctMax FA FB) EB FB b t g h ltac:(lia) ltac:(lia) Hb) as [Pb Ob].
  cbv zeta in *. rewrite Pa, Pb. cbn [bind]. fields. unfold zg. rewrite og1.
  destruct (_ || _); [exists false; split; reflexivity|].
  destruct (negb (a =? b)); [exists false; split; reflexivity|].
  destruct (a =? 0); [exists true; split; reflexivity|].
  eexists. split; [reflexivity|]. rewrite negb_andb. reflexivity.
Qed.

(** ** Consistency of the comparisons on all operands, infinities included *)
Definition akey (E F a e f : Z) : Z := if a =? 0 then 0 else a * 2 ^ (E + F) + (e * 2 ^ F + f).
Definition key (E F a : Z) (s : bool) (e f : Z) : Z := sgn s (akey E F a e f).

Lemma akey_pos E F a e f : okf E F a e f -> (a = 0 -> akey E F a e f = 0) /\ (a <> 0 -> 0 < akey E F a e f).
Proof.
  intros Ha. pose proof (okf_body _ _ _ _ _ Ha). destruct Ha as (? & ? & ? & _). unfold akey.
  pose proof (pow2_pos (E + F) ltac:(lia)). destruct (Z.eqb_spec a 0); split; intros; try lia; nia.
Qed.

Lemma akey_cmp E F a e f b g h : okf E F a e f -> okf E F b g h -> ~ (a = 0 /\ b = 0) ->
  Z.compare (a * 2 ^ (E + F) + (e * 2 ^ F + f)) (b * 2 ^ (E + F) + (g * 2 ^ F + h)) =
  Z.compare (akey E F a e f) (akey E F b g h).
Proof.
  intros Ha Hb Hz. pose proof (okf_body _ _ _ _ _ Ha). pose proof (okf_body _ _ _ _ _ Hb).
  destruct Ha as (? & ? & ? & _), Hb as (_ & _ & ? & _). pose proof (pow2_pos (E + F) ltac:(lia)).
  remember (e * 2 ^ F + f) as u. remember (g * 2 ^ F + h) as v. unfold akey. rewrite <- Hequ, <- Heqv.
  destruct (Z.eqb_spec a 0) as [->|Hna], (Z.eqb_spec b 0) as [->|Hnb]; try lia; try reflexivity.
  - transitivity Lt; [|symmetry]; apply Z.compare_lt_iff; nia.
  - transitivity Gt; [|symmetry]; apply Z.compare_gt_iff; nia.
Qed.

(** The promoted operands of a comparison and their keys. *)
Lemma key_tree (zz dn dp : bool) (cn cp : Z -> Z -> bool) (spec : comparison -> bool) E F a s e f b t g h :
  spec Eq = zz -> spec Lt = dn -> spec Gt = dp ->
  (forall x y, cp x y = spec (Z.compare x y)) -> (forall x y, cn x y = spec (Z.compare y x)) ->
  okf E F a e f -> okf E F b g h -> a <> 3 -> b <> 3 ->
  (if (a =? 0) && (b =? 0) then Z.b2z zz
    else if xorb s t then (if s then Z.b2z dn else Z.b2z dp)
    else if s then Z.b2z (cn (a * 2 ^ (E + F) + (e * 2 ^ F + f)) (b * 2 ^ (E + F) + (g * 2 ^ F + h)))
         else Z.b2z (cp (a * 2 ^ (E + F) + (e * 2 ^ F + f)) (b * 2 ^ (E + F) + (g * 2 ^ F + h)))) =
  Z.b2z (spec (Z.compare (key E F a s e f) (key E F b t g h))).
Proof.
  intros Sz Sn Sp Hp Hn Ha Hb Ha3 Hb3.
  destruct (akey_pos _ _ _ _ _ Ha) as [Za Pa]. destruct (akey_pos _ _ _ _ _ Hb) as [Zb Pb]. unfold key.
  destruct (Z.eqb_spec a 0) as [Ha0|Ha0], (Z.eqb_spec b 0) as [Hb0|Hb0]; cbn [andb].
  1:{ rewrite Za, Zb by assumption. replace (sgn s 0 ?= sgn t 0) with Eq by (destruct s, t; reflexivity).
      rewrite Sz. reflexivity. }
  all: destruct s, t; cbn [xorb sgn];
    try (replace (- _ ?= _) with Lt by (symmetry; apply Z.compare_lt_iff; lia); rewrite Sn; reflexivity);
    try (replace (_ ?= - _) with Gt by (symmetry; apply Z.compare_gt_iff; lia); rewrite Sp; reflexivity);
    f_equal; first [rewrite Hn|rewrite Hp]; rewrite ?compare_opp_swap; f_equal; apply akey_cmp; try assumption; lia.
Qed.

(** Key of a source value after promotion to format (DE,DF). *)
Definition pkey (DE DF SE SF a : Z) (s : bool) (e f : Z) : Z :=
  key DE DF a s (e + (bias DE - bias SE)) (f * 2 ^ (DF - SF)).

Lemma key_promote_aux a b (s t : bool) u v k c S D :
  0 <= a < 3 -> 0 <= b < 3 -> 0 < k -> 0 <= u < S -> 0 <= v < S -> 0 <= u * k + c < D -> 0 <= v * k + c < D ->
  Z.compare (sgn s (if a =? 0 then 0 else a * D + (u * k + c))) (sgn t (if b =? 0 then 0 else b * D + (v * k + c))) =
  Z.compare (sgn s (if a =? 0 then 0 else a * S + u)) (sgn t (if b =? 0 then 0 else b * S + v)).
Proof.
  intros Ha Hb P Ru Rv Ru' Rv'.
  assert (Hm : (u < v <-> u * k + c < v * k + c) /\ (u = v <-> u * k + c = v * k + c)) by nia.
  remember (u * k + c) as u'. remember (v * k + c) as v'. clear Hequ' Heqv'.
  assert (Ca : a = 0 \/ a = 1 \/ a = 2) by lia. assert (Cb : b = 0 \/ b = 1 \/ b = 2) by lia.
  destruct Ca as [->|[->| ->]], Cb as [->|[->| ->]]; cbn [Z.eqb Pos.eqb]; destruct s, t; cbn [sgn];
  match goal with |- (?p ?= ?q) = (?p' ?= ?q') => destruct (Z.compare_spec p' q') end;
    first [reflexivity|apply Z.compare_eq_iff; lia|apply Z.compare_lt_iff; lia|apply Z.compare_gt_iff; lia].
Qed.

Lemma key_promote DE DF SE SF a s e f b t g h :
  SE <= DE -> SF <= DF -> okf SE SF a e f -> okf SE SF b g h -> a <> 3 -> b <> 3 ->
  Z.compare (pkey DE DF SE SF a s e f) (pkey DE DF SE SF b t g h) =
  Z.compare (key SE SF a s e f) (key SE SF b t g h).
Proof.
  intros HE HF Ha Hb Ha3 Hb3.
  destruct (promote_pack DE DF SE SF a s e f HE HF Ha) as [_ Oa].
  destruct (promote_pack DE DF SE SF b t g h HE HF Hb) as [_ Ob]. cbv zeta in Oa, Ob.
  pose proof (okf_body _ _ _ _ _ Ha) as Ra. pose proof (okf_body _ _ _ _ _ Hb) as Rb.
  pose proof (okf_body _ _ _ _ _ Oa) as Ra'. pose proof (okf_body _ _ _ _ _ Ob) as Rb'.
  pose proof Ha as (H1 & H2 & _).
  assert (P : 0 < 2 ^ (DF - SF)) by (apply pow2_pos; lia).
  assert (EF : 2 ^ DF = 2 ^ SF * 2 ^ (DF - SF)) by (rewrite <- pow2_add by lia; f_equal; lia).
  set (k := 2 ^ (DF - SF)) in *. set (c := (bias DE - bias SE) * 2 ^ DF).
  assert (Ea : (e + (bias DE - bias SE)) * 2 ^ DF + f * k = (e * 2 ^ SF + f) * k + c) by (unfold c; rewrite EF; ring).
  assert (Eb : (g + (bias DE - bias SE)) * 2 ^ DF + h * k = (g * 2 ^ SF + h) * k + c) by (unfold c; rewrite EF; ring).
  unfold pkey, key, akey. fold k. rewrite Ea in *. rewrite Eb in *.
  eapply key_promote_aux; try eassumption; destruct Ha as (_ & _ & ? & _), Hb as (_ & _ & ? & _); lia.
Qed.

Lemma pkey_compose DE DF ME MF SE SF a s e f :
  SF <= MF -> MF <= DF -> 
  pkey DE DF ME MF a s (e + (bias ME - bias SE)) (f * 2 ^ (MF - SF)) = pkey DE DF SE SF a s e f.
Proof.
  intros H1 H2. unfold pkey. f_equal; [lia|]. rewrite <- Z.mul_assoc, <- pow2_add by lia. do 2 f_equal. lia.
Qed.

Definition cmpkeys DE DF EA FA EB FB a s e f b t g h :=
  Z.compare (pkey DE DF EA FA a s e f) (pkey DE DF EB FB b t g h).

Lemma key_any_format DE DF DE' DF' EA FA EB FB a s e f b t g h :
  EA <= DE -> EB <= DE -> FA <= DF -> FB <= DF -> DE <= DE' -> DF <= DF' ->
  okf EA FA a e f -> okf EB FB b g h -> a <> 3 -> b <> 3 ->
  cmpkeys DE DF EA FA EB FB a s e f b t g h = cmpkeys DE' DF' EA FA EB FB a s e f b t g h.
Proof.
  intros. unfold cmpkeys.
  rewrite <- (pkey_compose DE' DF' DE DF EA FA) by lia. rewrite <- (pkey_compose DE' DF' DE DF EB FB) by lia.
  destruct (promote_pack DE DF EA FA a s e f) as [_ Oa]; try assumption.
  destruct (promote_pack DE DF EB FB b t g h) as [_ Ob]; try assumption. cbv zeta in *.
  rewrite key_promote by assumption. reflexivity.
Qed.

Lemma ctMax_spec p q : p <= ctMax p q /\ q <= ctMax p q.
Proof. unfold ctMax. destruct (Z.ltb_spec q p); lia. Qed.

(** Every comparison is a function of the comparison of keys. *)
Lemma comparisons_by_key EA FA EB FB a s e f b t g h :
  okf EA FA a e f -> okf EB FB b g h -> a <> 3 -> b <> 3 ->
  let c := cmpkeys (ctMax EA EB) (ctMax FA FB) EA FA EB FB a s e f b t g h in
  let x := pack EA FA a s e f in let y := pack EB FB b t g h in
  less_than EA FA EB FB x y = Some (Z.b2z (match c with Lt => true | _ => false end)) /\
  less_than_equal EA FA EB FB x y = Some (Z.b2z (match c with Gt => false | _ => true end)) /\
  greater_than EA FA EB FB x y = Some (Z.b2z (match c with Gt => true | _ => false end)) /\
  greater_than_equal EA FA EB FB x y = Some (Z.b2z (match c with Lt => false | _ => true end)) /\
  equal EA FA EB FB x y = Some (Z.b2z (match c with Eq => true | _ => false end)).
Proof.
  intros Ha Hb Ha3 Hb3 c x y. unfold less_than, less_than_equal, greater_than, greater_than_equal, equal, with_promoted.
  destruct (ctMax_spec EA EB), (ctMax_spec FA FB).
  destruct (promote_pack (ctMax EA EB) (ctMax FA FB) EA FA a s e f ltac:(lia) ltac:(lia) Ha) as [Pa Oa].
  destruct (promote_pack (ctMax EA EB) (ctMax FA FB) EB FB b t g h ltac:(lia) ltac:(lia) Hb) as [Pb Ob].
  cbv zeta in Pa, Oa, Pb, Ob. unfold x, y. rewrite Pa, Pb. cbn [bind]. unfold c, cmpkeys, pkey. clear Pa Pb c.
  set (E := ctMax EA EB) in *. set (F := ctMax FA FB) in *.
  set (e' := e + _) in *. set (f' := f * _) in *. set (g' := g + _) in *. set (h' := h * _) in *.
  clearbody E F e' f' g' h'. unfold zg. fields. rewrite ?og1.
  destruct (Z.eqb_spec a 3) as [|_]; [contradiction|]. destruct (Z.eqb_spec b 3) as [|_]; [contradiction|].
  cbn [orb].
  repeat split; f_equal.
  - rewrite <- (key_tree false true false (fun x y => y <? x) (fun x y => x <? y)
      (fun c => match c with Lt => true | _ => false end)); try assumption; try reflexivity;
    destruct s, t; reflexivity.
  - rewrite <- (key_tree true true false (fun x y => y <=? x) (fun x y => x <=? y)
      (fun c => match c with Gt => false | _ => true end)); try assumption; try reflexivity;
    destruct s, t; reflexivity.
  - rewrite <- (key_tree false false true (fun x y => x <? y) (fun x y => y <? x)
      (fun c => match c with Gt => true | _ => false end)); try assumption; try reflexivity.
    + destruct s, t; reflexivity.
    + intros p q. rewrite ltb_compare, (Z.compare_antisym p q). destruct (p ?= q); reflexivity.
    + intros p q. rewrite ltb_compare, (Z.compare_antisym q p). destruct (q ?= p); reflexivity.
  - rewrite <- (key_tree true false true (fun x y => x <=? y) (fun x y => y <=? x)
      (fun c => match c with Lt => false | _ => true end)); try assumption; try reflexivity.
    + destruct s, t; reflexivity.
    + intros p q. rewrite leb_compare, (Z.compare_antisym p q). destruct (p ?= q); reflexivity.
    + intros p q. rewrite leb_compare, (Z.compare_antisym q p). destruct (q ?= p); reflexivity.
  - pose proof (okf_body _ _ _ _ _ Oa) as Ra. pose proof (okf_body _ _ _ _ _ Ob) as Rb.
    unfold key, akey. remember (e' * 2 ^ F + f') as u. remember (g' * 2 ^ F + h') as v.
    assert (Heq : forall p q, match (p ?= q) with Eq => true | _ => false end = (p =? q)).
    { intros. rewrite Z.eqb_compare. reflexivity. }
    rewrite Heq. clear Heq Hequ Heqv. clear - Oa Ob Ra Rb Ha3 Hb3.
    split_flags Oa; split_flags Ob; try lia; cbn [Z.eqb Pos.eqb negb]; destruct s, t; cbn [sgn Bool.eqb andb];
    repeat match goal with |- context [?p =? ?q] => destruct (Z.eqb_spec p q) end; try reflexivity; lia.
Qed.

Lemma not_nan_flags E F a s e f : okf E F a e f -> decode E F (pack E F a s e f) <> NaN -> a <> 3.
Proof. intros H Hn. rewrite decode_nan in Hn by assumption. assumption. Qed.

Theorem comparisons_consistent EA FA EB FB x y :
  1 <= EA -> 1 <= FA -> 1 <= EB -> 1 <= FB -> wf (EA + FA + 3) x -> wf (EB + FB + 3) y ->
  decode EA FA x <> NaN -> decode EB FB y <> NaN ->
  exists lt eq gt : bool,
    less_than EA FA EB FB x y = Some (Z.b2z lt) /\ equal EA FA EB FB x y = Some (Z.b2z eq) /\
    greater_than EA FA EB FB x y = Some (Z.b2z gt) /\
    ((lt, eq, gt) = (true, false, false) \/ (lt, eq, gt) = (false, true, false) \/ (lt, eq, gt) = (false, false, true)) /\
    less_than_equal EA FA EB FB x y = Some (Z.b2z (lt || eq)) /\
    greater_than_equal EA FA EB FB x y = Some (Z.b2z (gt || eq)) /\
    not_equal EA FA EB FB x y = Some (Z.b2z (negb eq)) /\
    less_than EB FB EA FA y x = Some (Z.b2z gt).
Proof.
  intros H1 H2 H3 H4 Hx Hy Nx Ny.
  destruct (not_equal_complement EA FA EB FB x y) as (q & Q1 & Q2); try assumption.
  destruct (pack_view EA FA x H1 H2 Hx) as (a & s & e & f & Ha & ->).
  destruct (pack_view EB FB y H3 H4 Hy) as (b & t & g & h & Hb & ->).
  apply not_nan_flags in Nx, Ny; try assumption.
  destruct (comparisons_by_key EA FA EB FB a s e f b t g h Ha Hb Nx Ny) as (L & LE & G & GE & Q).
  destruct (comparisons_by_key EB FB EA FA b t g h a s e f Hb Ha Ny Nx) as (L' & _).
  assert (EM : ctMax EB EA = ctMax EA EB /\ ctMax FB FA = ctMax FA FB).
  { unfold ctMax. destruct (Z.ltb_spec EA EB), (Z.ltb_spec EB EA), (Z.ltb_spec FA FB), (Z.ltb_spec FB FA); lia. }
  destruct EM as [-> ->] in L'. cbv zeta in *. unfold cmpkeys in *.
  rewrite Z.compare_antisym in L'. rewrite L in *. rewrite LE, G, GE, L'.
  rewrite Q in Q1. injection Q1 as Q1.
  destruct (pkey _ _ EA FA _ _ _ _ ?= pkey _ _ EB FB _ _ _ _); cbn [CompOpp] in *.
  - exists false, true, false. rewrite Q, Q2. destruct q; [|discriminate]. repeat split; auto.
  - exists true, false, false. rewrite Q, Q2. destruct q; [discriminate|]. repeat split; auto.
  - exists false, false, true. rewrite Q, Q2. destruct q; [discriminate|]. repeat split; auto.
Qed.

Theorem less_than_transitive EA FA EB FB EC FC x y z :
  1 <= EA -> 1 <= FA -> 1 <= EB -> 1 <= FB -> 1 <= EC -> 1 <= FC ->
  wf (EA + FA + 3) x -> wf (EB + FB + 3) y -> wf (EC + FC + 3) z ->
  less_than EA FA EB FB x y = Some 1 -> less_than EB FB EC FC y z = Some 1 ->
  less_than EA FA EC FC x z = Some 1.
Proof.
  intros H1 H2 H3 H4 H5 H6 Hx Hy Hz.
  destruct (pack_view EA FA x H1 H2 Hx) as (a & s & e & f & Ha & ->).
  destruct (pack_view EB FB y H3 H4 Hy) as (b & t & g & h & Hb & ->).
  destruct (pack_view EC FC z H5 H6 Hz) as (c & u & i & j & Hc & ->).
  assert (Hnan : forall EA FA EB FB a s e f b t g h, okf EA FA a e f -> okf EB FB b g h ->
     less_than EA FA EB FB (pack EA FA a s e f) (pack EB FB b t g h) = Some 1 -> a <> 3 /\ b <> 3).
  { clear. intros EA FA EB FB a s e f b t g h Ha Hb H.
    pose proof Ha as (A1 & A2 & _). pose proof Hb as (B1 & B2 & _).
    destruct (Z.eq_dec a 3) as [->|Ha3]; [exfalso|destruct (Z.eq_dec b 3) as [->|Hb3]; [exfalso|auto]].
    - rewrite less_than_correct in H; try lia; try (apply pack_wf; assumption).
      + rewrite (decode_pack EA FA 3) in H by assumption. discriminate H.
      + rewrite (decode_pack EA FA 3) by assumption. intros (? & ? & _). discriminate.
    - rewrite less_than_correct in H; try lia; try (apply pack_wf; assumption).
      + rewrite (decode_pack EB FB 3) in H by assumption. unfold lt_spec in H. cbn [Z.eqb Pos.eqb] in H.
        destruct (decode EA FA _); discriminate H.
      + rewrite (decode_pack EB FB 3) by assumption. intros (? & _ & ?). discriminate. }
  intros L1 L2. destruct (Hnan _ _ _ _ _ _ _ _ _ _ _ _ Ha Hb L1) as [Ha3 Hb3].
  destruct (Hnan _ _ _ _ _ _ _ _ _ _ _ _ Hb Hc L2) as [_ Hc3].
  destruct (comparisons_by_key EA FA EB FB a s e f b t g h Ha Hb Ha3 Hb3) as (K1 & _).
  destruct (comparisons_by_key EB FB EC FC b t g h c u i j Hb Hc Hb3 Hc3) as (K2 & _).
  destruct (comparisons_by_key EA FA EC FC a s e f c u i j Ha Hc Ha3 Hc3) as (K3 & _).
  cbv zeta in *. rewrite L1 in K1. rewrite L2 in K2. rewrite K3. clear L1 L2 K3.
  set (DE := Z.max EA (Z.max EB EC)). set (DF := Z.max FA (Z.max FB FC)).
  assert (HM : forall p q m, p <= m -> q <= m -> ctMax p q <= m).
  { intros p q m. unfold ctMax. destruct (q <? p); lia. }
  destruct (ctMax_spec EA EB), (ctMax_spec EB EC), (ctMax_spec EA EC), (ctMax_spec FA FB), (ctMax_spec FB FC), (ctMax_spec FA FC).
  rewrite (key_any_format _ _ DE DF) in K1 by (try assumption; try (apply HM; lia); lia).
  rewrite (key_any_format _ _ DE DF) in K2 by (try assumption; try (apply HM; lia); lia).
  rewrite (key_any_format _ _ DE DF) by (try assumption; try (apply HM; lia); lia).
  unfold cmpkeys in *.
  destruct (Z.compare_spec (pkey DE DF EA FA a s e f) (pkey DE DF EB FB b t g h)); try discriminate K1.
  destruct (Z.compare_spec (pkey DE DF EB FB b t g h) (pkey DE DF EC FC c u i j)); try discriminate K2.
  replace (pkey DE DF EA FA a s e f ?= pkey DE DF EC FC c u i j) with Lt; [reflexivity|].
  symmetry. apply Z.compare_lt_iff. lia.
Qed.
