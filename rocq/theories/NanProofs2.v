(** The NaN words of the SoftFloat operations. *)
From Coq Require Import ZArith Bool Lia.
From Verif Require Import Fw FwLemmas Spec SpecLemmas Spec754 SpecNan SoftFloat Sf754Lemmas SfProofs1 SfProofs2 SfProofs3 SfProofs4 SfProofs5 SfProofs6 SfProofs8 SfProofs10 AddSingleProofs4 ValueLemmas NanProofs.
Open Scope Z_scope.

Lemma round754_not_nan E F s n d k : round754 E F s n d k <> NaN.
Proof. unfold round754. cbv zeta. destruct (_ =? 0); [discriminate|]. destruct (_ <? _); discriminate. Qed.

Section Ops.
Context (E F U C W : Z) (HW : W = E + F + 1) (HE : 4 <= E <= 15) (HF : 2 <= F) (HU : W <= U).
Notation word := (word E F).

Let PF : 0 < 2 ^ F. Proof. apply pow2_pos. lia. Qed.
Let PE : 16 <= 2 ^ E. Proof. pose proof (pow2_le 4 E ltac:(lia)) as H. change (2 ^ 4) with 16 in H. exact H. Qed.

Lemma default_word : defaultNaN E F = quiet_nan E F true 0.
Proof.
  unfold defaultNaN, quiet_nan. cbn [Z.b2z]. replace (2 ^ (E + 2)) with (4 * 2 ^ E) by (rewrite (Z.pow_add_r 2 E 2) by lia; change (2 ^ 2) with 4; ring).
  replace (2 ^ (E + F)) with (2 ^ E * 2 ^ F) by (rewrite Z.pow_add_r by lia; ring).
  replace (2 ^ F) with (2 * 2 ^ (F - 1)) by (rewrite <- Z.pow_succ_r by lia; f_equal; lia). ring.
Qed.

Lemma special_nan x : 0 <= x < 2 ^ W -> decode754 E F x = NaN -> exists s f, x = word s (2 ^ E - 1) f /\ 0 <= f < 2 ^ F /\ f <> 0.
Proof.
  intros Hx D. rewrite HW in Hx. destruct (word_split E F ltac:(lia) ltac:(lia) x Hx) as (s & e & f & -> & He & Hf).
  apply decode_nan_word in D; try lia. destruct D as [-> D]. eauto.
Qed.
Lemma special_inf x s : 0 <= x < 2 ^ W -> decode754 E F x = Inf s -> x = word s (2 ^ E - 1) 0.
Proof.
  intros Hx D. rewrite HW in Hx. destruct (word_split E F ltac:(lia) ltac:(lia) x Hx) as (t & e & f & -> & He & Hf).
  rewrite decode_word in D by lia. destruct (Z.eqb_spec e (2 ^ E - 1)), (Z.eqb_spec f 0), (Z.eqb_spec e 0); try discriminate; congruence.
Qed.
Lemma special_zero x s : 0 <= x < 2 ^ W -> decode754 E F x = Zero s -> x = word s 0 0.
Proof.
  intros Hx D. rewrite HW in Hx. destruct (word_split E F ltac:(lia) ltac:(lia) x Hx) as (t & e & f & -> & He & Hf).
  rewrite decode_word in D by lia. destruct (Z.eqb_spec e (2 ^ E - 1)), (Z.eqb_spec f 0), (Z.eqb_spec e 0); try discriminate; congruence.
Qed.

Lemma shl_some f k : 0 <= f < 2 ^ F -> 0 <= k <= E -> ushl U f k = Some (f * 2 ^ k).
Proof.
  intros Hf Hk. apply ushl_ok; [lia|]. pose proof (pow2_pos k ltac:(lia)). split; [nia|].
  apply Z.lt_le_trans with (2 ^ F * 2 ^ k); [nia|]. rewrite <- Z.pow_add_r by lia. apply pow2_le. lia.
Qed.
Lemma lor_nz a b : 0 <= a -> 0 <= b -> (a <> 0 \/ b <> 0) -> (Z.lor a b =? 0) = false.
Proof. intros Ha Hb H. rewrite lor_zero by assumption. destruct (Z.eqb_spec a 0), (Z.eqb_spec b 0); cbn [andb]; try reflexivity; lia. Qed.

(** One operand NaN, in either place. *)
Lemma mags_nan quick s t e f g h : 0 <= e < 2 ^ E -> 0 <= f < 2 ^ F -> 0 <= g < 2 ^ E -> 0 <= h < 2 ^ F ->
  e = 2 ^ E - 1 /\ f <> 0 \/ g = 2 ^ E - 1 /\ h <> 0 ->
  addMags E F U C quick (word s e f) (word t g h) = Some (propagateNaN E F (word s e f) (word t g h)) /\
  subMags E F U C (word s e f) (word t g h) = Some (propagateNaN E F (word s e f) (word t g h)).
Proof.
  intros He Hf Hg Hh Hn. unfold addMags, subMags. cbv zeta. rewrite !expUI_word, !fracUI_word by lia. rewrite !(shl_some f), !(shl_some h) by lia. cbn [bind].
  assert (NZ : forall f k, 0 <= k -> f <> 0 -> (f * 2 ^ k =? 0) = false) by (intros; apply Z.eqb_neq; pose proof (pow2_pos k ltac:(lia)); nia).
  destruct (Z.eqb_spec (e - g) 0) as [D|D].
  - assert (g = e) by lia. assert (e = 2 ^ E - 1) by lia. subst g. rewrite lor_nz by lia. cbn [negb].
    replace (e =? 0) with false by lia. replace (e =? 2 ^ E - 1) with true by lia. split; reflexivity.
  - destruct (Z.ltb_spec (e - g) 0) as [L|L].
    + assert (G : g = 2 ^ E - 1 /\ h <> 0) by lia. destruct G as [-> G]. rewrite Z.eqb_refl, !NZ by lia. split; reflexivity.
    + assert (G : e = 2 ^ E - 1 /\ f <> 0) by lia. destruct G as [-> G]. rewrite Z.eqb_refl, !NZ by lia. split; reflexivity.
Qed.
Lemma add_nan quick a b : 0 <= a < 2 ^ W -> 0 <= b < 2 ^ W -> decode754 E F a = NaN \/ decode754 E F b = NaN ->
  sf_add E F U C quick a b = Some (propagateNaN E F a b).
Proof.
  intros Ha Hb Hn. rewrite HW in Ha, Hb.
  destruct (word_split E F ltac:(lia) ltac:(lia) a Ha) as (s & e & f & -> & He & Hf). destruct (word_split E F ltac:(lia) ltac:(lia) b Hb) as (t & g & h & -> & Hg & Hh).
  rewrite !decode_nan_word in Hn by lia. destruct (mags_nan quick s t e f g h He Hf Hg Hh Hn) as [Q1 Q2]. unfold sf_add.
  destruct (signUI _ _ _); assumption.
Qed.
Lemma add_invalid quick s t : s <> t -> sf_add E F U C quick (word s (2 ^ E - 1) 0) (word t (2 ^ E - 1) 0) = Some (defaultNaN E F).
Proof.
  intros N. unfold sf_add. rewrite signUI_lxor by lia. replace (xorb s t) with true by (destruct s, t; try reflexivity; exfalso; apply N; reflexivity).
  unfold subMags. cbv zeta. rewrite !expUI_word, !fracUI_word by lia. rewrite Z.sub_diag, !Z.eqb_refl. reflexivity.
Qed.

Lemma mul_nan mulsig a b : 0 <= a < 2 ^ W -> 0 <= b < 2 ^ W -> decode754 E F a = NaN \/ decode754 E F b = NaN ->
  sf_mul E F U C mulsig a b = Some (propagateNaN E F a b).
Proof.
  intros Ha Hb Hn. rewrite HW in Ha, Hb.
  destruct (word_split E F ltac:(lia) ltac:(lia) a Ha) as (s & e & f & -> & He & Hf). destruct (word_split E F ltac:(lia) ltac:(lia) b Hb) as (t & g & h & -> & Hg & Hh).
  rewrite !decode_nan_word in Hn by lia. unfold sf_mul. cbv zeta. rewrite !expUI_word, !fracUI_word by lia.
  destruct (Z.eqb_spec e (2 ^ E - 1)), (Z.eqb_spec f 0), (Z.eqb_spec g (2 ^ E - 1)), (Z.eqb_spec h 0); cbn [negb andb orb]; try reflexivity; lia.
Qed.
Lemma div_nan divsig a b : 0 <= a < 2 ^ W -> 0 <= b < 2 ^ W -> decode754 E F a = NaN \/ decode754 E F b = NaN ->
  sf_div E F U C divsig a b = Some (propagateNaN E F a b).
Proof.
  intros Ha Hb Hn. rewrite HW in Ha, Hb.
  destruct (word_split E F ltac:(lia) ltac:(lia) a Ha) as (s & e & f & -> & He & Hf). destruct (word_split E F ltac:(lia) ltac:(lia) b Hb) as (t & g & h & -> & Hg & Hh).
  rewrite !decode_nan_word in Hn by lia. unfold sf_div. cbv zeta. rewrite !expUI_word, !fracUI_word by lia.
  destruct (Z.eqb_spec e (2 ^ E - 1)), (Z.eqb_spec f 0), (Z.eqb_spec g (2 ^ E - 1)), (Z.eqb_spec h 0); cbn [negb andb orb]; try reflexivity; lia.
Qed.
Lemma mul_invalid mulsig s t :
  sf_mul E F U C mulsig (word s (2 ^ E - 1) 0) (word t 0 0) = Some (defaultNaN E F) /\
  sf_mul E F U C mulsig (word s 0 0) (word t (2 ^ E - 1) 0) = Some (defaultNaN E F).
Proof.
  unfold sf_mul. cbv zeta. rewrite !expUI_word, !fracUI_word by lia. rewrite !Z.eqb_refl.
  replace (0 =? 2 ^ E - 1) with false by lia. cbn [negb andb orb Z.lor Z.eqb]. split; reflexivity.
Qed.
Lemma div_invalid divsig s t :
  sf_div E F U C divsig (word s (2 ^ E - 1) 0) (word t (2 ^ E - 1) 0) = Some (defaultNaN E F) /\
  sf_div E F U C divsig (word s 0 0) (word t 0 0) = Some (defaultNaN E F).
Proof.
  unfold sf_div. cbv zeta. rewrite !expUI_word, !fracUI_word by lia. rewrite !Z.eqb_refl.
  replace (0 =? 2 ^ E - 1) with false by lia. cbn [negb andb orb Z.lor Z.eqb]. split; reflexivity.
Qed.

Lemma nan_word_default a b : decode754 E F a <> NaN -> decode754 E F b <> NaN -> 0 <= a < 2 ^ W -> 0 <= b < 2 ^ W -> nan_word E F a b = defaultNaN E F.
Proof.
  intros Na Nb Ha Hb. rewrite HW in Ha, Hb. pose proof (is_nan_decode E F ltac:(lia) HF a Ha) as Ia. pose proof (is_nan_decode E F ltac:(lia) HF b Hb) as Ib.
  unfold nan_word. destruct (is_nan E F a); [tauto|]. destruct (is_nan E F b); [tauto|]. symmetry. apply default_word.
Qed.
Lemma nan_word_propagate a b : decode754 E F a = NaN \/ decode754 E F b = NaN -> 0 <= a < 2 ^ W -> 0 <= b < 2 ^ W -> propagateNaN E F a b = nan_word E F a b.
Proof.
  intros N Ha Hb. rewrite HW in Ha, Hb. apply propagate_nan_word; try assumption; try lia.
  rewrite !is_nan_decode by (assumption || lia). exact N.
Qed.

Theorem add_nan_ok quick a b : 0 <= a < 2 ^ W -> 0 <= b < 2 ^ W ->
  add754 E F (decode754 E F a) (decode754 E F b) = NaN -> sf_add E F U C quick a b = Some (nan_word E F a b).
Proof.
  intros Ha Hb H. destruct (decode754 E F a) as [|s|s|s m e] eqn:Da, (decode754 E F b) as [|t|t|t n g] eqn:Db;
    try (rewrite add_nan, nan_word_propagate by (assumption || (rewrite Da; auto) || (rewrite Db; auto)); reflexivity);
    unfold add754, add_gen in H; cbv zeta in H; try discriminate; try (exfalso; revert H; apply round754_not_nan).
  - rewrite nan_word_default by (assumption || congruence). rewrite (special_inf a s Ha Da), (special_inf b t Hb Db). apply add_invalid. intros ->.
    rewrite Bool.eqb_reflx in H. discriminate.
  - destruct (_ =? 0) in H; [discriminate|]. exfalso. revert H. apply round754_not_nan.
Qed.
Theorem mul_nan_ok mulsig a b : 0 <= a < 2 ^ W -> 0 <= b < 2 ^ W ->
  mul754 E F (decode754 E F a) (decode754 E F b) = NaN -> sf_mul E F U C mulsig a b = Some (nan_word E F a b).
Proof.
  intros Ha Hb H. destruct (decode754 E F a) as [|s|s|s m e] eqn:Da, (decode754 E F b) as [|t|t|t n g] eqn:Db;
    try (rewrite mul_nan, nan_word_propagate by (assumption || (rewrite Da; auto) || (rewrite Db; auto)); reflexivity);
    unfold mul754, mul_gen in H; try discriminate; try (exfalso; revert H; apply round754_not_nan);
    rewrite nan_word_default by (assumption || congruence).
  - rewrite (special_inf a s Ha Da), (special_zero b t Hb Db). apply mul_invalid.
  - rewrite (special_zero a s Ha Da), (special_inf b t Hb Db). apply mul_invalid.
Qed.
Theorem div_nan_ok divsig a b : 0 <= a < 2 ^ W -> 0 <= b < 2 ^ W ->
  div754 E F (decode754 E F a) (decode754 E F b) = NaN -> sf_div E F U C divsig a b = Some (nan_word E F a b).
Proof.
  intros Ha Hb H. destruct (decode754 E F a) as [|s|s|s m e] eqn:Da, (decode754 E F b) as [|t|t|t n g] eqn:Db;
    try (rewrite div_nan, nan_word_propagate by (assumption || (rewrite Da; auto) || (rewrite Db; auto)); reflexivity);
    unfold div754, div_gen in H; try discriminate; try (exfalso; revert H; apply round754_not_nan);
    rewrite nan_word_default by (assumption || congruence).
  - rewrite (special_inf a s Ha Da), (special_inf b t Hb Db). apply div_invalid.
  - rewrite (special_zero a s Ha Da), (special_zero b t Hb Db). apply div_invalid.
Qed.
End Ops.

(** A word that is not NaN is determined by its value. *)
Theorem word754_unique E F r w : 3 <= E <= 15 -> 1 <= F -> 0 <= r < 2 ^ (E + F + 1) -> 0 <= w < 2 ^ (E + F + 1) ->
  decode754 E F r = decode754 E F w -> decode754 E F r <> NaN -> r = w.
Proof.
  intros HE HF Hr Hw D N.
  destruct (word_split E F HE HF r Hr) as (s & e & f & -> & He & Hf). destruct (word_split E F HE HF w Hw) as (t & g & h & -> & Hg & Hh).
  rewrite !decode_word in * by lia.
  assert (T : s = t /\ e = g /\ f = h); [|destruct T as (-> & -> & ->); reflexivity].
  destruct (Z.eqb_spec e (2 ^ E - 1)), (Z.eqb_spec f 0), (Z.eqb_spec e 0), (Z.eqb_spec g (2 ^ E - 1)), (Z.eqb_spec h 0), (Z.eqb_spec g 0);
    try discriminate; try (exfalso; apply N; reflexivity); injection D as; repeat split; try assumption; lia.
Qed.

Lemma nan_word_comm E F a b : nan_word E F a b = nan_word E F b a.
Proof.
  unfold nan_word. destruct (is_nan E F a), (is_nan E F b); try reflexivity.
  destruct (is_quiet E F a), (is_quiet E F b); cbn [andb negb]; try reflexivity;
    destruct (Z.ltb_spec (payload F a) (payload F b)), (Z.ltb_spec (payload F b) (payload F a)); try reflexivity; try lia;
    rewrite andb_comm; f_equal; lia.
Qed.

(** The NaN returned is quiet and carries the payload of a NaN operand. *)
Theorem nan_word_ok E F a b : 3 <= E <= 15 -> 2 <= F -> 0 <= a < 2 ^ (E + F + 1) -> 0 <= b < 2 ^ (E + F + 1) ->
  0 <= nan_word E F a b < 2 ^ (E + F + 1) /\ is_quiet E F (nan_word E F a b) = true /\
  (is_nan E F a = true \/ is_nan E F b = true ->
   exists x, (x = a \/ x = b) /\ is_nan E F x = true /\ payload F (nan_word E F a b) = payload F x).
Proof.
  intros HE HF Ha Hb.
  assert (P1 : 0 < 2 ^ (F - 1)) by (apply pow2_pos; lia). assert (P2 : 2 ^ F = 2 * 2 ^ (F - 1)) by (rewrite <- Z.pow_succ_r by lia; f_equal; lia).
  assert (PE : 0 < 2 ^ E) by (apply pow2_pos; lia).
  assert (Q : forall s p, 0 <= p < 2 ^ (F - 1) -> 0 <= quiet_nan E F s p < 2 ^ (E + F + 1) /\ is_quiet E F (quiet_nan E F s p) = true /\ payload F (quiet_nan E F s p) = p).
  { intros s p Hp. rewrite quiet_nan_word, is_quiet_qp, payload_word by (lia || auto). rewrite Z.eqb_refl. split; [apply word_wf; lia|]. split; reflexivity. }
  assert (PB : forall x, 0 <= payload F x < 2 ^ (F - 1)) by (intros x; apply Z.mod_pos_bound; exact P1).
  assert (QU : forall x, is_quiet E F x = true -> is_nan E F x = true) by (intros x H; unfold is_quiet in H; apply andb_prop in H; tauto).
  assert (ON : forall x y, is_nan E F x = true -> 0 <= one_nan E F x y < 2 ^ (E + F + 1) /\ is_quiet E F (one_nan E F x y) = true /\ payload F (one_nan E F x y) = payload F x).
  { intros x y Hx. unfold one_nan, quieted. destruct (is_inf E F y && is_quiet E F x && (payload F x =? 0)) eqn:C; [|apply Q; apply PB].
    apply andb_prop in C. destruct C as [_ C]. apply Z.eqb_eq in C. rewrite C. apply Q. lia. }
  unfold nan_word. destruct (is_nan E F a) eqn:Na, (is_nan E F b) eqn:Nb.
  - destruct (is_quiet E F a) eqn:Qa, (is_quiet E F b) eqn:Qb; cbn [andb negb].
    2: { split; [exact Ha|]. split; [exact Qa|]. intros _. exists a. auto. }
    2: { split; [exact Hb|]. split; [exact Qb|]. intros _. exists b. auto. }
    all: destruct (payload F a <? payload F b); [|destruct (payload F b <? payload F a)]; unfold quieted;
      match goal with |- 0 <= quiet_nan _ _ ?s ?p < _ /\ _ => destruct (Q s p (PB _)) as (R1 & R2 & R3) end;
      (split; [exact R1|]; split; [exact R2|]; intros _; rewrite R3; eauto).
  - destruct (ON a b Na) as (R1 & R2 & R3). split; [exact R1|]. split; [exact R2|]. intros _. exists a. auto.
  - destruct (ON b a Nb) as (R1 & R2 & R3). split; [exact R1|]. split; [exact R2|]. intros _. exists b. auto.
  - destruct (Q true 0 ltac:(lia)) as (R1 & R2 & R3). split; [exact R1|]. split; [exact R2|]. intros [H|H]; discriminate.
Qed.

(** The functions. *)
Theorem f32_nan U a b : 32 <= U -> 0 <= a < 2 ^ 32 -> 0 <= b < 2 ^ 32 ->
  let x := decode754 8 23 a in let y := decode754 8 23 b in
  (add754 8 23 x y = NaN -> f32_add U a b = Some (nan_word 8 23 a b)) /\
  (mul754 8 23 x y = NaN -> f32_mul U a b = Some (nan_word 8 23 a b)) /\
  (div754 8 23 x y = NaN -> f32_div U a b = Some (nan_word 8 23 a b)).
Proof.
  intros HU Ha Hb. cbv zeta. split; [|split].
  - apply (add_nan_ok 8 23 U 32 32 eq_refl ltac:(lia) ltac:(lia) HU true a b Ha Hb).
  - apply (mul_nan_ok 8 23 U 32 32 eq_refl ltac:(lia) ltac:(lia) _ a b Ha Hb).
  - apply (div_nan_ok 8 23 U 32 32 eq_refl ltac:(lia) ltac:(lia) _ a b Ha Hb).
Qed.
Theorem f64_nan a b : 0 <= a < 2 ^ 64 -> 0 <= b < 2 ^ 64 ->
  let x := decode754 11 52 a in let y := decode754 11 52 b in
  (add754 11 52 x y = NaN -> f64_add a b = Some (nan_word 11 52 a b)) /\
  (mul754 11 52 x y = NaN -> f64_mul a b = Some (nan_word 11 52 a b)) /\
  (div754 11 52 x y = NaN -> f64_div a b = Some (nan_word 11 52 a b)).
Proof.
  intros Ha Hb. cbv zeta. split; [|split].
  - apply (add_nan_ok 11 52 64 16 64 eq_refl ltac:(lia) ltac:(lia) ltac:(lia) false a b Ha Hb).
  - apply (mul_nan_ok 11 52 64 16 64 eq_refl ltac:(lia) ltac:(lia) _ a b Ha Hb).
  - apply (div_nan_ok 11 52 64 16 64 eq_refl ltac:(lia) ltac:(lia) _ a b Ha Hb).
Qed.

(** Commutative to the bit. *)
Lemma commute E F (W : Z) (op : Z -> Z -> option Z) (spec : fval -> fval -> fval) : 3 <= E <= 15 -> 1 <= F -> W = E + F + 1 ->
  (forall x y, spec x y = spec y x) ->
  (forall a b, 0 <= a < 2 ^ W -> 0 <= b < 2 ^ W -> exists r, op a b = Some r /\ 0 <= r < 2 ^ W /\ decode754 E F r = spec (decode754 E F a) (decode754 E F b)) ->
  (forall a b, 0 <= a < 2 ^ W -> 0 <= b < 2 ^ W -> spec (decode754 E F a) (decode754 E F b) = NaN -> op a b = Some (nan_word E F a b)) ->
  forall a b, 0 <= a < 2 ^ W -> 0 <= b < 2 ^ W -> op a b = op b a.
Proof.
  intros HE HF HW SC OK ON a b Ha Hb. destruct (OK a b Ha Hb) as (r & R1 & R2 & R3). destruct (OK b a Hb Ha) as (r' & R1' & R2' & R3').
  destruct (spec (decode754 E F a) (decode754 E F b)) eqn:S.
  1: { rewrite (ON a b Ha Hb S), (ON b a Hb Ha), nan_word_comm; [reflexivity|]. rewrite SC. exact S. }
  all: rewrite R1, R1'; f_equal; rewrite HW in R2, R2'; apply (word754_unique E F r r' HE HF R2 R2'); [rewrite R3, R3', SC; symmetry; exact S|rewrite R3; discriminate].
Qed.
Theorem sf_commute U : 32 <= U ->
  (forall a b, 0 <= a < 2 ^ 32 -> 0 <= b < 2 ^ 32 -> f32_add U a b = f32_add U b a /\ f32_mul U a b = f32_mul U b a) /\
  (forall a b, 0 <= a < 2 ^ 64 -> 0 <= b < 2 ^ 64 -> f64_add a b = f64_add b a /\ f64_mul a b = f64_mul b a).
Proof.
  intros HU. split; intros a b Ha Hb; split.
  - apply (commute 8 23 32 (f32_add U) (add754 8 23)); try lia; try assumption; try (intros; apply add_gen_comm).
    + intros x y Hx Hy. apply f32_add_ok; assumption.
    + intros x y Hx Hy. apply (f32_nan U x y HU Hx Hy).
  - apply (commute 8 23 32 (f32_mul U) (mul754 8 23)); try lia; try assumption; try (intros; apply mul_gen_comm).
    + intros x y Hx Hy. apply f32_mul_ok; assumption.
    + intros x y Hx Hy. apply (f32_nan U x y HU Hx Hy).
  - apply (commute 11 52 64 f64_add (add754 11 52)); try lia; try assumption; try (intros; apply add_gen_comm).
    + intros x y Hx Hy. apply f64_add_ok; assumption.
    + intros x y Hx Hy. apply (f64_nan x y Hx Hy).
  - apply (commute 11 52 64 f64_mul (mul754 11 52)); try lia; try assumption; try (intros; apply mul_gen_comm).
    + intros x y Hx Hy. apply f64_mul_ok; assumption.
    + intros x y Hx Hy. apply (f64_nan x y Hx Hy).
Qed.

(** A NaN operand made quiet is what comes back, unless the other operand is an infinity. *)
Theorem one_nan_back E F a b : is_nan E F a = true -> is_nan E F b = false -> is_inf E F b = false \/ is_quiet E F a = false \/ payload F a <> 0 ->
  nan_word E F a b = quieted E F a /\ nan_word E F b a = quieted E F a.
Proof.
  intros Na Nb H. rewrite (nan_word_comm E F b a). unfold nan_word, one_nan. rewrite Na, Nb.
  assert (C : is_inf E F b && is_quiet E F a && (payload F a =? 0) = false).
  { destruct H as [H|[H|H]]; [rewrite H; reflexivity|rewrite H, andb_false_r; reflexivity|]. apply andb_false_iff. right. apply Z.eqb_neq. exact H. }
  rewrite C. auto.
Qed.
Theorem f32_operand_back U a b : 32 <= U -> 0 <= a < 2 ^ 32 -> 0 <= b < 2 ^ 32 ->
  is_nan 8 23 a = true -> is_nan 8 23 b = false -> is_inf 8 23 b = false \/ is_quiet 8 23 a = false \/ payload 23 a <> 0 ->
  f32_add U a b = Some (quieted 8 23 a) /\ f32_add U b a = Some (quieted 8 23 a) /\
  f32_mul U a b = Some (quieted 8 23 a) /\ f32_mul U b a = Some (quieted 8 23 a) /\
  f32_div U a b = Some (quieted 8 23 a) /\ f32_div U b a = Some (quieted 8 23 a).
Proof.
  intros HU Ha Hb Na Nb H. destruct (one_nan_back 8 23 a b Na Nb H) as [Q1 Q2].
  pose proof (f32_nan U a b HU Ha Hb) as R. pose proof (f32_nan U b a HU Hb Ha) as R'. cbv zeta in R, R'.
  apply (is_nan_decode 8 23 ltac:(lia) ltac:(lia) a Ha) in Na. rewrite Na, Q1, ?Q2 in *.
  assert (forall y, add754 8 23 y NaN = NaN /\ mul754 8 23 y NaN = NaN /\ div754 8 23 y NaN = NaN) as Z by (intros []; auto).
  destruct (Z (decode754 8 23 b)) as (Z1 & Z2 & Z3). destruct R as (R1 & R2 & R3), R' as (R1' & R2' & R3').
  rewrite Z1 in R1'. rewrite Z2 in R2'. rewrite Z3 in R3'. cbn in R1, R2, R3. auto 10.
Qed.
Theorem f64_operand_back a b : 0 <= a < 2 ^ 64 -> 0 <= b < 2 ^ 64 ->
  is_nan 11 52 a = true -> is_nan 11 52 b = false -> is_inf 11 52 b = false \/ is_quiet 11 52 a = false \/ payload 52 a <> 0 ->
  f64_add a b = Some (quieted 11 52 a) /\ f64_add b a = Some (quieted 11 52 a) /\
  f64_mul a b = Some (quieted 11 52 a) /\ f64_mul b a = Some (quieted 11 52 a) /\
  f64_div a b = Some (quieted 11 52 a) /\ f64_div b a = Some (quieted 11 52 a).
Proof.
  intros Ha Hb Na Nb H. destruct (one_nan_back 11 52 a b Na Nb H) as [Q1 Q2].
  pose proof (f64_nan a b Ha Hb) as R. pose proof (f64_nan b a Hb Ha) as R'. cbv zeta in R, R'.
  apply (is_nan_decode 11 52 ltac:(lia) ltac:(lia) a Ha) in Na. rewrite Na, Q1, ?Q2 in *.
  assert (forall y, add754 11 52 y NaN = NaN /\ mul754 11 52 y NaN = NaN /\ div754 11 52 y NaN = NaN) as Z by (intros []; auto).
  destruct (Z (decode754 11 52 b)) as (Z1 & Z2 & Z3). destruct R as (R1 & R2 & R3), R' as (R1' & R2' & R3').
  rewrite Z1 in R1'. rewrite Z2 in R2'. rewrite Z3 in R3'. cbn in R1, R2, R3. auto 10.
Qed.
(** The sign of the negative quiet NaN without payload is lost against the positive infinity. *)
Theorem nan_sign_lost U : 32 <= U ->
  let a := quiet_nan 8 23 true 0 in let b := 255 * 2 ^ 23 in
  f32_add U a b = Some (quiet_nan 8 23 false 0) /\ f32_mul U a b = Some (quiet_nan 8 23 false 0) /\ f32_div U a b = Some (quiet_nan 8 23 false 0).
Proof.
  intros HU a b. assert (Ha : 0 <= a < 2 ^ 32) by (split; [discriminate|reflexivity]). assert (Hb : 0 <= b < 2 ^ 32) by (split; [discriminate|reflexivity]).
  destruct (f32_nan U a b HU Ha Hb) as (R1 & R2 & R3).
  split; [|split]; [rewrite R1|rewrite R2|rewrite R3]; reflexivity.
Qed.
