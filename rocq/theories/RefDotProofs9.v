From Coq Require Import ZArith QArith List Bool Lia.
From Verif Require Import Fw FwLemmas FwWord Spec SpecLemmas ValueLemmas SpecDot SpecDbl SpecMpfr Flopoco FlopocoLemmas FlopocoProofs CompareProofs MpfrLib Mpfr MpfrProofs MpfrProofs2 Dbl DblProofs DblProofs2 DblProofs3 Dot DotProofs DotProofs2 DotProofs4 DotProofs5 DotProofs6 Source SpecSource SourceProofs FwWordProofs2 PolicyProofs RefDot SpecRefDot RefDotProofs RefDotProofs2 RefDotProofs3 RefDotProofs4 RefDotProofs8.
Import ListNotations.
Open Scope Z_scope.

(** The formats in which the reference never aborts. *)
Lemma ref4_total E F a0 a1 a2 a3 b0 b1 b2 b3 : dot4_covers E F ->
  wf (E + F + 3) a0 -> wf (E + F + 3) a1 -> wf (E + F + 3) a2 -> wf (E + F + 3) a3 -> wf (E + F + 3) b0 -> wf (E + F + 3) b1 -> wf (E + F + 3) b2 -> wf (E + F + 3) b3 ->
  pos_normal (decode E F a0) -> pos_normal (decode E F a1) -> pos_normal (decode E F a2) -> pos_normal (decode E F a3) -> pos_normal (decode E F b0) -> pos_normal (decode E F b1) -> pos_normal (decode E F b2) -> pos_normal (decode E F b3) ->
  rounds_to E F (dot4_ref E F a0 a1 a2 a3 b0 b1 b2 b3) (dot4_spec E F (decode E F a0) (decode E F a1) (decode E F a2) (decode E F a3) (decode E F b0) (decode E F b1) (decode E F b2) (decode E F b3)).
Proof.
  intros (HE & HF & HC) U0 U1 U2 U3 V0 V1 V2 V3 P0 P1 P2 P3 Q0 Q1 Q2 Q3. destruct (Z_le_gt_dec F 5) as [L|L]; [apply ref4_small_ok; (assumption || lia)|]. destruct HC as [HC|HC]; [lia|].
  apply ref4_ok; try assumption; try lia.
  assert (G : forall x y, wf (E + F + 3) x -> wf (E + F + 3) y -> pos_normal (decode E F x) -> pos_normal (decode E F y) -> 2 * emin E - 2 * F <= snd (dmul (decode E F x) (decode E F y)) <= 2 * emax E - 2 * F).
  { intros x y Wx Wy Px Py. destruct (dot_num E F x ltac:(lia) ltac:(lia) Wx Px) as (m & e & -> & M & X). destruct (dot_num E F y ltac:(lia) ltac:(lia) Wy Py) as (n & f & -> & N & Y). cbn [dmul snd]. lia. }
  pose proof (G a0 b0 U0 V0 P0 Q0) as G0. pose proof (G a1 b1 U1 V1 P1 Q1) as G1. pose proof (G a2 b2 U2 V2 P2 Q2) as G2. pose proof (G a3 b3 U3 V3 P3 Q3) as G3. clear G.
  assert (PE : 2 ^ E = 2 * 2 ^ (E - 1)) by (rewrite <- Z.pow_succ_r by lia; f_equal; lia).
  intros p q Hp Hq. assert (B : forall p, In p [dmul (decode E F a0) (decode E F b0); dmul (decode E F a1) (decode E F b1); dmul (decode E F a2) (decode E F b2); dmul (decode E F a3) (decode E F b3)] -> 2 * emin E - 2 * F <= snd p <= 2 * emax E - 2 * F).
  { intros z [<-|[<-|[<-|[<-|[]]]]]; assumption. }
  pose proof (B p Hp). pose proof (B q Hq). unfold emin, emax, bias in *. lia.
Qed.
Lemma rndd_sign E F V k : rndd E F (V, k) = Zero false \/ rndd E F (V, k) = Inf false \/ exists m e, rndd E F (V, k) = Num false m e.
Proof. unfold rndd, trunc_range. destruct (trunc_pos F V 1) as [m e]. unfold finish. destruct (_ <? _); [auto|]. destruct (_ <? _); [auto|]. right. right. eauto. Qed.
Lemma num_eq F m e n f : 0 <= F -> 2 ^ F <= m < 2 ^ (F + 1) -> 2 ^ F <= n < 2 ^ (F + 1) -> cmp_num m e n f = Eq -> m = n /\ e = f.
Proof.
  intros HF M N H. rewrite (cmp_num_k m e n f (Z.min e f)) in H by lia. apply Z.compare_eq_iff in H. rewrite pow2_S in M, N by lia.
  destruct (Z.lt_trichotomy e f) as [L|[->|L]].
  - rewrite Z.min_l, Z.sub_diag, Z.pow_0_r, Z.mul_1_r in H by lia. assert (2 ^ 1 <= 2 ^ (f - e)) by (apply Z.pow_le_mono_r; lia). nia.
  - rewrite Z.min_id, Z.sub_diag, Z.pow_0_r in H. lia.
  - rewrite Z.min_r, Z.sub_diag, Z.pow_0_r, Z.mul_1_r in H by lia. assert (2 ^ 1 <= 2 ^ (e - f)) by (apply Z.pow_le_mono_r; lia). nia.
Qed.
Lemma num_refl m e : cmp_num m e m e = Eq.
Proof. unfold cmp_num. apply Z.compare_refl. Qed.
(** The comparison of the test, on results that are not negative. *)
Lemma doubles_differ E F r g : 1 <= E <= 10 -> 1 <= F <= 52 -> wf (E + F + 3) r -> wf (E + F + 3) g ->
  decode E F r = Zero false \/ decode E F r = Inf false \/ (exists m e, decode E F r = Num false m e) ->
  decode E F g = Zero false \/ decode E F g = Inf false \/ (exists m e, decode E F g = Num false m e) ->
  exists x y, to_double E F r = Some x /\ to_double E F g = Some y /\ (dbl_ne x y = false <-> decode E F g = decode E F r).
Proof.
  intros HE HF Wr Wg Sr Sg. destruct (emax_10 E HE) as [Lo Hi].
  assert (T : forall x, wf (E + F + 3) x -> decode E F x = Zero false \/ decode E F x = Inf false \/ (exists m e, decode E F x = Num false m e) -> exists v, to_double E F x = Some v /\ dbl v /\ veq v (decode E F x)).
  { intros x Wx Sx. apply to_double_right; [lia|lia|exact Wx|]. intros s m e D. destruct Sx as [S|[S|(m' & e' & S)]]; rewrite S in D; try discriminate. injection D as <- <- <-. split; [reflexivity|].
    destruct (dot_num E F x ltac:(lia) ltac:(lia) Wx) as (m & e & D & M & X). { exists m', e'. exact S. } rewrite S in D. injection D as -> ->. lia. }
  destruct (T r Wr Sr) as (x & Tx & Dx & Ex). destruct (T g Wg Sg) as (y & Ty & Dy & Ey). exists x, y. split; [exact Tx|]. split; [exact Ty|]. clear T Tx Ty.
  destruct Sr as [S|[S|(m & e & S)]], Sg as [S'|[S'|(m' & e' & S')]]; rewrite S, S' in *; destruct x as [|sx|sx|sx mx ex], y as [|sy|sy|sy my ey]; cbn [veq] in Ex, Ey; try contradiction; repeat match goal with K : _ = false /\ cmp_num _ _ _ _ = Eq |- _ => destruct K as [-> K] end; subst; cbn [dbl_ne Bool.eqb negb orb]; try (split; [reflexivity|reflexivity]); try (split; discriminate).
  destruct (dot_num E F r ltac:(lia) ltac:(lia) Wr) as (m1 & e1 & D1 & M1 & _). { exists m, e. exact S. } rewrite S in D1. injection D1 as <- <-.
  destruct (dot_num E F g ltac:(lia) ltac:(lia) Wg) as (m2 & e2 & D2 & M2 & _). { exists m', e'. exact S'. } rewrite S' in D2. injection D2 as <- <-.
  assert (C : cmp_num mx ex my ey = cmp_num m e m' e').
  { rewrite (cmp_num_eq_l _ _ _ _ _ _ Ex). rewrite cmp_num_swap, (cmp_num_eq_l _ _ _ _ _ _ Ey), <- cmp_num_swap. reflexivity. }
  rewrite C. split.
  - intros H. destruct (cmp_num m e m' e') eqn:Q; try discriminate. destruct (num_eq F m e m' e') as [-> ->]; (assumption || lia || reflexivity).
  - intros H. injection H as -> ->. rewrite num_refl. reflexivity.
Qed.
(** One round of the test. *)
Lemma dot4_round E F a0 a1 a2 a3 b0 b1 b2 b3 : dot4_covers E F ->
  wf (E + F + 3) a0 -> wf (E + F + 3) a1 -> wf (E + F + 3) a2 -> wf (E + F + 3) a3 -> wf (E + F + 3) b0 -> wf (E + F + 3) b1 -> wf (E + F + 3) b2 -> wf (E + F + 3) b3 ->
  pos_normal (decode E F a0) -> pos_normal (decode E F a1) -> pos_normal (decode E F a2) -> pos_normal (decode E F a3) -> pos_normal (decode E F b0) -> pos_normal (decode E F b1) -> pos_normal (decode E F b2) -> pos_normal (decode E F b3) ->
  exists r g x y, dot4_ref E F a0 a1 a2 a3 b0 b1 b2 b3 = Some r /\ dot4_pos_rndd E F a0 a1 a2 a3 b0 b1 b2 b3 = Some g /\ to_double E F r = Some x /\ to_double E F g = Some y /\
    (dbl_ne x y = false <-> decode E F g = dot4_spec E F (decode E F a0) (decode E F a1) (decode E F a2) (decode E F a3) (decode E F b0) (decode E F b1) (decode E F b2) (decode E F b3)).
Proof.
  intros H U0 U1 U2 U3 V0 V1 V2 V3 P0 P1 P2 P3 Q0 Q1 Q2 Q3. destruct (ref4_total E F a0 a1 a2 a3 b0 b1 b2 b3) as (r & R & Wr & D); try assumption. destruct H as (HE & HF & _).
  destruct (dot4_ok E F a0 a1 a2 a3 b0 b1 b2 b3) as (g & V & k & G & Wg & DG & _); try assumption; try lia. rewrite <- D.
  destruct (doubles_differ E F r g HE HF Wr Wg) as (x & y & Tx & Ty & C).
  - rewrite D. unfold dot4_spec. destruct (dot4_exact _ _ _ _ _ _ _ _) as [M e]. apply rndd_sign.
  - rewrite DG. apply rndd_sign.
  - exists r, g, x, y. auto 6.
Qed.
Lemma eight {A} (xs : list A) : length xs = 8%nat -> exists a0 a1 a2 a3 b0 b1 b2 b3, xs = [a0; a1; a2; a3; b0; b1; b2; b3].
Proof. intros H. do 8 (destruct xs as [|? xs]; [discriminate|]). destruct xs; [|discriminate]. eexists _, _, _, _, _, _, _, _. reflexivity. Qed.
Definition step4 (E F : Z) (xs : list Z) : option bool :=
  match xs with
  | [a0; a1; a2; a3; b0; b1; b2; b3] =>
      do ref <- dot4_ref E F a0 a1 a2 a3 b0 b1 b2 b3;
      do got <- dot4_pos_rndd E F a0 a1 a2 a3 b0 b1 b2 b3;
      do x <- to_double E F ref; do y <- to_double E F got; Some (dbl_ne x y)
  | _ => None
  end.
Lemma step4_ok E F xs : dot4_covers E F -> length xs = 8%nat -> Forall (fun x => wf (E + F + 3) x /\ pos_normal (decode E F x)) xs -> exists b, step4 E F xs = Some b /\ (b = false <-> right4 E F xs).
Proof.
  intros H L A. destruct (eight xs L) as (a0 & a1 & a2 & a3 & b0 & b1 & b2 & b3 & ->). rewrite !Forall_cons_iff in A. destruct A as ([U0 P0] & [U1 P1] & [U2 P2] & [U3 P3] & [V0 Q0] & [V1 Q1] & [V2 Q2] & [V3 Q3] & _).
  destruct (dot4_round E F a0 a1 a2 a3 b0 b1 b2 b3) as (r & g & x & y & R & G & X & Y & C); try assumption. exists (dbl_ne x y). cbn [step4 right4]. rewrite R. cbn [bind]. rewrite G. cbn [bind]. rewrite X, Y. cbn [bind]. split; [reflexivity|]. rewrite C. split.
  - intros Q. exists g. auto.
  - intros (g' & G' & D). injection G' as <-. exact D.
Qed.
Lemma test4_step draw E F n rng r : source_args draw E F positive_source 8 rng = Some r -> length (fst r) = 8%nat ->
  test_dot4 draw E F (S n) rng = do b <- step4 E F (fst r); if b then Some false else test_dot4 draw E F n (snd r).
Proof.
  intros H L. cbn [test_dot4].
  rewrite H. cbn [bind]. destruct (eight (fst r) L) as (a0 & a1 & a2 & a3 & b0 & b1 & b2 & b3 & ->). cbn [step4].
  destruct (dot4_ref E F a0 a1 a2 a3 b0 b1 b2 b3); [cbn [bind]|reflexivity]. destruct (dot4_pos_rndd E F a0 a1 a2 a3 b0 b1 b2 b3); [cbn [bind]|reflexivity]. destruct (to_double E F z); [cbn [bind]|reflexivity]. destruct (to_double E F z0); reflexivity.
Qed.
(** The operands of the i-th round. *)
Lemma test4_decides K draw E F n ws : dot4_covers E F -> draws K draw -> words ws -> (n * (8 * words_per_value E F K) <= length ws)%nat ->
  exists b, test_dot4 draw E F n ws = Some b /\
    (b = true <-> forall i, (i < n)%nat -> exists xs r, source_args draw E F positive_source 8 (skipn (i * (8 * words_per_value E F K)) ws) = Some (xs, r) /\ right4 E F xs).
Proof.
  intros H D. revert ws. induction n as [|n IH]; intros ws W L; [exists true; split; [reflexivity|]; split; [intros _ i Hi; lia|reflexivity]|]. cbn [Nat.mul] in L.
  pose proof H as (HE & HF & _). destruct (args_words K draw E F 8 ws ltac:(lia) ltac:(lia) D W ltac:(lia)) as (xs & A & N & P).
  rewrite (test4_step draw E F n ws _ A N). cbn [fst snd]. destruct (step4_ok E F xs H N P) as (b & -> & B). cbn [bind]. destruct b.
  - exists false. split; [reflexivity|]. split; [discriminate|]. intros Q. destruct (Q 0%nat ltac:(lia)) as (xs' & r' & A' & R). cbn [Nat.mul skipn] in A'. rewrite A in A'. injection A' as <- <-. apply B in R. discriminate.
  - destruct (IH (skipn (8 * words_per_value E F K) ws)) as (b & -> & C); [apply words_skip; exact W|rewrite skipn_length; lia|]. exists b. split; [reflexivity|]. rewrite C. split.
    + intros Q [|i] Hi; [exists xs, (skipn (8 * words_per_value E F K) ws); split; [exact A|apply B; reflexivity]|]. destruct (Q i ltac:(lia)) as (ys & r & S & R). exists ys, r. rewrite skipn_skipn in S. auto.
    + intros Q i Hi. destruct (Q (S i) ltac:(lia)) as (ys & r & S & R). exists ys, r. rewrite skipn_skipn. auto.
Qed.
Lemma right4_narrow E F xs : 1 <= E <= 30 -> 1 <= F -> 3 * 2 ^ (E - 1) - 2 < 4 * F -> length xs = 8%nat -> Forall (fun x => wf (E + F + 3) x /\ pos_normal (decode E F x)) xs -> right4 E F xs.
Proof.
  intros HE HF HN L A. destruct (eight xs L) as (a0 & a1 & a2 & a3 & b0 & b1 & b2 & b3 & ->). rewrite !Forall_cons_iff in A. destruct A as ([U0 P0] & [U1 P1] & [U2 P2] & [U3 P3] & [V0 Q0] & [V1 Q1] & [V2 Q2] & [V3 Q3] & _).
  destruct (dot4_narrow E F a0 a1 a2 a3 b0 b1 b2 b3) as (r & R & _ & D); try assumption. exists r. auto.
Qed.
Lemma test4_passes K draw E F n ws : dot4_covers E F -> 3 * 2 ^ (E - 1) - 2 < 4 * F -> draws K draw -> words ws -> (n * (8 * words_per_value E F K) <= length ws)%nat -> test_dot4 draw E F n ws = Some true.
Proof.
  intros H HN D W L. pose proof H as (HE & HF & _). destruct (test4_decides K draw E F n ws H D W L) as (b & T & B). rewrite T. f_equal. apply B. intros i Hi.
  destruct (args_words K draw E F 8 (skipn (i * (8 * words_per_value E F K)) ws) ltac:(lia) ltac:(lia) D (words_skip _ _ W)) as (xs & A & N & P); [rewrite skipn_length; nia|]. exists xs. eexists. split; [exact A|]. apply right4_narrow; (assumption || lia).
Qed.
(** Words that make the source deliver given operands. *)
Lemma word_onto K E F x : 1 <= E <= 128 -> 1 <= F <= 128 -> wf (E + F + 3) x -> pos_normal (decode E F x) ->
  exists ws, words ws /\ length ws = words_per_value E F K /\ forall draw rest, draws K draw -> source_next draw E F positive_source (ws ++ rest) = Some (x, rest).
Proof.
  intros HE HF Wx Px. destruct (pos_view E F x ltac:(lia) ltac:(lia) Wx Px) as (e & f & O & -> & _). destruct O as (_ & _ & _ & He & Hf).
  destruct (random_onto E e [] ltac:(lia) He) as (we & Le & Fe & Re). destruct (random_onto F f [] ltac:(lia) Hf) as (wfr & Lf & Ff & Rf).
  destruct (random_top E we [] ltac:(lia) (conj Le Fe)) as [Te _]. destruct (random_top F wfr [] ltac:(lia) (conj Lf Ff)) as [Tf _].
  assert (E1 : top_bits E we = e) by congruence. assert (E2 : top_bits F wfr = f) by congruence.
  exists (we ++ wfr ++ repeat 0 K). split; [|split].
  - apply Forall_app. split; [exact Fe|]. apply Forall_app. split; [exact Ff|]. apply Forall_forall. intros w Hw. apply repeat_spec in Hw. subst w. lia.
  - rewrite !app_length, repeat_length. unfold words_per_value. lia.
  - intros draw rest D. rewrite <- !app_assoc. destruct (D 64 (repeat 0 K ++ rest) ltac:(lia)) as (u & U & U0 & U1). { rewrite app_length, repeat_length. lia. }
    replace (skipn K (repeat 0 K ++ rest)) with rest in U by (rewrite skipn_app, repeat_length, Nat.sub_diag, skipn_all2 by (rewrite repeat_length; lia); reflexivity).
    unfold source_next. destruct (random_top E we (wfr ++ repeat 0 K ++ rest) ltac:(lia) (conj Le Fe)) as [-> Be]. cbn [bind]. destruct (random_top F wfr (repeat 0 K ++ rest) ltac:(lia) (conj Lf Ff)) as [-> Bf]. cbn [bind]. change (cdf_back positive_source) with 64. rewrite U. cbn [bind].
    assert (S : select_class u (class_cdf positive_source) = Some PosNormal).
    { change (class_cdf positive_source) with [(PosZero, 0); (NegZero, 0); (PosNormal, 64); (NegNormal, 64); (PosInf, 64); (NegInf, 64); (ClassNaN, 64)]. cbn [select_class]. destruct (Qle_bool u (inject_Z 0)) eqn:T. { apply Qle_z in T. exfalso. apply (Qlt_not_le _ _ U0). exact T. } destruct (Qle_bool u (inject_Z 64)) eqn:T'; [reflexivity|]. apply Qle_b_z in T'. exfalso. apply (Qlt_not_le _ _ T'). exact U1. }
    rewrite S. cbn [bind]. rewrite E1, E2. do 2 f_equal. change 0 with (Z.b2z false) at 1. apply mk_pack; lia.
Qed.
Lemma args_onto K E F xs : 1 <= E <= 128 -> 1 <= F <= 128 -> Forall (fun x => wf (E + F + 3) x /\ pos_normal (decode E F x)) xs ->
  exists ws, words ws /\ length ws = (length xs * words_per_value E F K)%nat /\ forall draw rest, draws K draw -> source_args draw E F positive_source (length xs) (ws ++ rest) = Some (xs, rest).
Proof.
  intros HE HF. induction 1 as [|x xs [Wx Px] A (ws & W & L & S)]; [exists []; split; [constructor|]; split; reflexivity|].
  destruct (word_onto K E F x HE HF Wx Px) as (w & W' & L' & S'). exists (w ++ ws). split; [apply Forall_app; split; assumption|]. split; [rewrite app_length, L, L'; reflexivity|].
  intros draw rest D. cbn [length source_args]. rewrite <- app_assoc, (S' draw _ D). cbn [bind snd fst]. rewrite (S draw rest D). reflexivity.
Qed.
Lemma test4_fails K E F n xs : dot4_covers E F -> length xs = 8%nat -> Forall (fun x => wf (E + F + 3) x /\ pos_normal (decode E F x)) xs -> ~ right4 E F xs ->
  exists ws, words ws /\ length ws = (8 * words_per_value E F K)%nat /\ forall draw rest, draws K draw -> test_dot4 draw E F (S n) (ws ++ rest) = Some false.
Proof.
  intros H L A R. pose proof H as (HE & HF & _). destruct (args_onto K E F xs ltac:(lia) ltac:(lia) A) as (ws & W & LW & S). exists ws. rewrite L in LW. split; [exact W|]. split; [exact LW|]. intros draw rest D.
  pose proof (S draw rest D) as S'. rewrite L in S'. rewrite (test4_step draw E F n _ _ S' L). cbn [fst snd]. destruct (step4_ok E F xs H L A) as (b & -> & B). cbn [bind]. destruct b; [reflexivity|]. exfalso. apply R. apply B. reflexivity.
Qed.
(** ** The exhaustive test *)
Lemma for_each_total {A X : Type} (body : A -> option (option X)) l : (forall x, In x l -> exists r, body x = Some r) -> exists r, for_each body l = Some r.
Proof.
  induction l as [|x l IH]; intros H; [exists None; reflexivity|]. cbn [for_each]. destruct (H x (or_introl eq_refl)) as [r ->]. cbn [bind]. destruct r as [q|]; [exists (Some q); reflexivity|]. apply IH. intros y Hy. apply H. right. exact Hy.
Qed.
Lemma for_each_none {A X : Type} (body : A -> option (option X)) l : for_each body l = Some None <-> forall x, In x l -> body x = Some None.
Proof.
  induction l as [|x l IH]; [split; [intros _ y []|reflexivity]|]. cbn [for_each]. split.
  - intros H y [<-|Hy]; destruct (body x) as [[q|]|]; try discriminate; [reflexivity|]. cbn [bind] in H. apply IH; assumption.
  - intros H. rewrite (H x (or_introl eq_refl)). cbn [bind]. apply IH. intros y Hy. apply H. right. exact Hy.
Qed.
Lemma for_each_some {A X : Type} (body : A -> option (option X)) l q : for_each body l = Some (Some q) -> exists x, In x l /\ body x = Some (Some q).
Proof.
  induction l as [|x l IH]; [discriminate|]. cbn [for_each]. destruct (body x) as [[q'|]|] eqn:B; [|intros H; destruct (IH H) as (y & Hy & Q); exists y; split; [right; exact Hy|exact Q]|discriminate].
  cbn [bind]. intros H. injection H as ->. exists x. split; [left; reflexivity|exact B].
Qed.
Definition body4 (E F x0 x1 x2 x3 x4 x5 x6 x7 : Z) : option (option (list Z)) :=
  do b <- step4 E F [x0; x1; x2; x3; x4; x5; x6; x7]; Some (if b then Some [x0; x1; x2; x3; x4; x5; x6; x7] else None).
Lemma exhaust4_eq E F : let xs := positives E F in exhaust_dot4 E F =
  for_each (fun x0 => for_each (fun x1 => for_each (fun x2 => for_each (fun x3 => for_each (fun x4 => for_each (fun x5 => for_each (fun x6 => for_each (fun x7 => body4 E F x0 x1 x2 x3 x4 x5 x6 x7) xs) xs) xs) xs) xs) xs) xs) xs.
Proof.
  intros xs. unfold exhaust_dot4. fold xs. generalize xs. clear xs. intros xs.
  assert (EXT : forall (X : Type) (f g : Z -> option (option X)) l, (forall x, f x = g x) -> for_each f l = for_each g l) by (intros X f g l H; induction l as [|y l IH]; [reflexivity|]; cbn [for_each]; rewrite H, IH; reflexivity).
  do 8 (apply EXT; intros ?). unfold body4, step4. generalize (dot4_ref E F) (dot4_pos_rndd E F) (to_double E F). intros R P T. destruct (R _ _ _ _ _ _ _ _) as [u|]; [cbn [bind]|reflexivity]. destruct (P _ _ _ _ _ _ _ _) as [v|]; [cbn [bind]|reflexivity]. destruct (T u); [cbn [bind]|reflexivity]. destruct (T v); reflexivity.
Qed.
Lemma exhaust4_decides E F : dot4_covers E F ->
  (exists q, exhaust_dot4 E F = Some q) /\
  (exhaust_dot4 E F = Some None <-> forall xs, length xs = 8%nat -> Forall (fun x => wf (E + F + 3) x /\ pos_normal (decode E F x)) xs -> right4 E F xs) /\
  (forall xs, exhaust_dot4 E F = Some (Some xs) -> length xs = 8%nat /\ Forall (fun x => wf (E + F + 3) x /\ pos_normal (decode E F x)) xs /\ ~ right4 E F xs).
Proof.
  intros H. pose proof H as (HE & HF & _). destruct (positives_all E F ltac:(lia) ltac:(lia)) as [_ PA]. rewrite exhaust4_eq. cbv zeta.
  assert (ST : forall x0 x1 x2 x3 x4 x5 x6 x7, In x0 (positives E F) -> In x1 (positives E F) -> In x2 (positives E F) -> In x3 (positives E F) -> In x4 (positives E F) -> In x5 (positives E F) -> In x6 (positives E F) -> In x7 (positives E F) ->
    Forall (fun x => wf (E + F + 3) x /\ pos_normal (decode E F x)) [x0; x1; x2; x3; x4; x5; x6; x7] /\ exists b, step4 E F [x0; x1; x2; x3; x4; x5; x6; x7] = Some b /\ (b = false <-> right4 E F [x0; x1; x2; x3; x4; x5; x6; x7])).
  { intros. assert (A : Forall (fun x => wf (E + F + 3) x /\ pos_normal (decode E F x)) [x0; x1; x2; x3; x4; x5; x6; x7]) by (repeat (apply Forall_cons; [apply PA; assumption|]); apply Forall_nil). split; [exact A|]. apply step4_ok; [exact H|reflexivity|exact A]. }
  split; [|split].
  - do 8 (apply for_each_total; intros ? ?). unfold body4. destruct (ST x x0 x1 x2 x3 x4 x5 x6) as (_ & b & -> & _); try assumption. eexists. reflexivity.
  - split.
    + intros Q xs L A. destruct (eight xs L) as (a0 & a1 & a2 & a3 & b0 & b1 & b2 & b3 & ->). rewrite !Forall_cons_iff in A. destruct A as (A0 & A1 & A2 & A3 & B0 & B1 & B2 & B3 & _). apply PA in A0, A1, A2, A3, B0, B1, B2, B3.
      destruct (ST a0 a1 a2 a3 b0 b1 b2 b3) as (_ & b & S & R); try assumption.
      rewrite for_each_none in Q. specialize (Q a0 A0). rewrite for_each_none in Q. specialize (Q a1 A1). rewrite for_each_none in Q. specialize (Q a2 A2). rewrite for_each_none in Q. specialize (Q a3 A3).
      rewrite for_each_none in Q. specialize (Q b0 B0). rewrite for_each_none in Q. specialize (Q b1 B1). rewrite for_each_none in Q. specialize (Q b2 B2). rewrite for_each_none in Q. specialize (Q b3 B3).
      unfold body4 in Q. rewrite S in Q. cbn [bind] in Q. apply R. destruct b; [discriminate|reflexivity].
    + intros Q. do 8 (apply for_each_none; intros ? ?). unfold body4. destruct (ST x x0 x1 x2 x3 x4 x5 x6) as (A & b & -> & R); try assumption. cbn [bind]. rewrite (proj2 R); [reflexivity|]. apply Q; [reflexivity|exact A].
  - intros xs Q. do 8 (apply for_each_some in Q; destruct Q as (? & ? & Q)). destruct (ST x x0 x1 x2 x3 x4 x5 x6) as (A & b & S & R); try assumption. unfold body4 in Q. rewrite S in Q. cbn [bind] in Q. destruct b; [|discriminate]. injection Q as <-. split; [reflexivity|]. split; [exact A|]. intros N. apply R in N. discriminate.
Qed.
