(** The random test source: which class it delivers, and that it reaches everything. *)
From Coq Require Import ZArith QArith List Lia Bool.
From Verif Require Import Fw FwLemmas FlopocoLemmas FwWord FwWordProofs FwWordProofs2 FwWordProofs3 SpecFw Spec Flopoco Source SpecSource.
Import ListNotations.
Open Scope Z_scope.

Lemma back_ok p : cdf_back p = weights p.
Proof. unfold cdf_back, weights, class_cdf, classes. cbn [cdf_from last snd weight_before]. lia. Qed.
Lemma Qle_z u k : Qle_bool u (inject_Z k) = true <-> (u <= inject_Z k)%Q.
Proof. apply Qle_bool_iff. Qed.
Lemma Qle_b_z u k : Qle_bool u (inject_Z k) = false <-> (inject_Z k < u)%Q.
Proof. split; intros H. - apply Qnot_le_lt. intros C. apply Qle_bool_iff in C. congruence. - destruct (Qle_bool u (inject_Z k)) eqn:E; [|reflexivity]. apply Qle_bool_iff in E. exfalso. apply (Qlt_not_le _ _ H E). Qed.
Lemma cdf_list p : class_cdf p = map (fun c => (c, weight_before p c + p c)) classes.
Proof. unfold class_cdf, classes. cbn [cdf_from map weight_before]. repeat (f_equal; try lia). Qed.
Lemma inj_lt a b u : (inject_Z a < u)%Q -> (u <= inject_Z b)%Q -> a < b.
Proof. intros H1 H2. rewrite Zlt_Qlt. eapply Qlt_le_trans; eassumption. Qed.
Ltac qle := match goal with |- context [Qle_bool ?u (inject_Z ?k)] => let E := fresh "E" in destruct (Qle_bool u (inject_Z k)) eqn:E; [apply Qle_z in E|apply Qle_b_z in E] end.
Lemma select_found p u : (0 <= u)%Q -> (u <= inject_Z (weights p))%Q -> exists c, select_class u (class_cdf p) = Some c /\ (u <= inject_Z (weight_before p c + p c))%Q /\ ((0 < u)%Q -> (inject_Z (weight_before p c) < u)%Q).
Proof.
  intros H0 HT. rewrite cdf_list. unfold classes. cbn [map select_class]. qle; [exists PosZero; repeat split; [exact E|intros H; exact H]|].
  qle; [exists NegZero; repeat split; [exact E0|intros _; cbn [weight_before] in *; rewrite Z.add_0_l in E; exact E]|].
  qle; [exists PosNormal; repeat split; [exact E1|intros _; exact E0]|].
  qle; [exists NegNormal; repeat split; [exact E2|intros _; exact E1]|].
  qle; [exists PosInf; repeat split; [exact E3|intros _; exact E2]|].
  qle; [exists NegInf; repeat split; [exact E4|intros _; exact E3]|].
  qle; [exists ClassNaN; repeat split; [exact E5|intros _; exact E4]|].
  exfalso. apply (Qlt_not_le _ _ E5 HT).
Qed.
Lemma before_mono p c d : (forall c, 0 <= p c) -> c <> d -> weight_before p c + p c <= weight_before p d \/ weight_before p d + p d <= weight_before p c.
Proof.
  intros P N. pose proof (P PosZero). pose proof (P NegZero). pose proof (P PosNormal). pose proof (P NegNormal). pose proof (P PosInf). pose proof (P NegInf). pose proof (P ClassNaN).
  destruct c, d; cbn [weight_before]; (contradiction || (left; lia) || (right; lia)).
Qed.
Lemma before_weights p c : (forall c, 0 <= p c) -> 0 <= weight_before p c /\ weight_before p c + p c <= weights p.
Proof.
  intros P. pose proof (P PosZero). pose proof (P NegZero). pose proof (P PosNormal). pose proof (P NegNormal). pose proof (P PosInf). pose proof (P NegInf). pose proof (P ClassNaN).
  unfold weights. destruct c; cbn [weight_before]; lia.
Qed.
Lemma select_iff p u c : (forall c, 0 <= p c) -> (0 < u)%Q -> (u <= inject_Z (weights p))%Q ->
  select_class u (class_cdf p) = Some c <-> (inject_Z (weight_before p c) < u)%Q /\ (u <= inject_Z (weight_before p c + p c))%Q.
Proof.
  intros P H0 HT. destruct (select_found p u (Qlt_le_weak _ _ H0) HT) as (d & E & U & L). specialize (L H0). rewrite E. split.
  - intros Q. injection Q as <-. split; assumption.
  - intros [L2 U2]. f_equal. assert (D : {d = c} + {d <> c}) by decide equality. destruct D as [D|D]; [exact D|]. exfalso. destruct (before_mono p d c P D) as [B|B].
    + pose proof (inj_lt _ _ u L2 U). lia.
    + pose proof (inj_lt _ _ u L U2). lia.
Qed.
Lemma select_zero p : (forall c, 0 <= p c) -> select_class 0 (class_cdf p) = Some PosZero.
Proof. intros P. rewrite cdf_list. unfold classes. cbn [map select_class]. replace (Qle_bool 0 (inject_Z (weight_before p PosZero + p PosZero))) with true; [reflexivity|]. symmetry. apply Qle_z. cbn [weight_before]. change 0%Q with (inject_Z 0). rewrite <- Zle_Qle. specialize (P PosZero). lia. Qed.
Lemma random_top W ws rest : 0 <= W <= 128 -> enough W ws -> m_random W (ws ++ rest) = Some (top_bits W ws, rest) /\ 0 <= top_bits W ws < 2 ^ W.
Proof.
  intros H [L Fa]. split; [apply random_ok; assumption|]. unfold top_bits. pose proof (number_bound (2 ^ 32) ws ltac:(lia) Fa) as B. rewrite <- Z.pow_mul_r in B by lia.
  pose proof (Z.div_mod (W + 31) 32 ltac:(lia)) as D. pose proof (Z.mod_pos_bound (W + 31) 32 ltac:(lia)) as M. assert (K : 0 <= 32 * Z.of_nat (length ws) - W) by lia.
  assert (P : 0 < 2 ^ (32 * Z.of_nat (length ws) - W)) by (apply Z.pow_pos_nonneg; lia). split; [apply Z.div_pos; lia|]. apply Z.div_lt_upper_bound; [exact P|]. rewrite <- Z.pow_add_r by lia. replace (32 * Z.of_nat (length ws) - W + W) with (32 * Z.of_nat (length ws)) by lia. lia.
Qed.
Lemma random_bit w rest : 0 <= w < 2 ^ 32 -> m_random 1 (w :: rest) = Some (Z.b2z (2 ^ 31 <=? w), rest).
Proof.
  intros H. pose proof (random_top 1 [w] rest ltac:(lia)) as R. destruct R as [R _]; [split; [reflexivity|repeat constructor; lia]|]. change ([w] ++ rest) with (w :: rest) in R. rewrite R. do 2 f_equal. unfold top_bits, number. cbn [fold_left length]. change (32 * Z.of_nat 1 - 1) with 31. rewrite Z.mul_0_l, Z.add_0_l.
  destruct (Z.leb_spec (2 ^ 31) w); cbn [Z.b2z]; symmetry; [apply (Z.div_unique _ _ _ (w - 2 ^ 31)); lia|apply (Z.div_unique _ _ _ w); lia].
Qed.
(** The word of class c (the sign of a NaN apart). *)
Definition word_of (E F : Z) (c : class) (s : bool) (ex frac : Z) : Z :=
  match c with
  | PosZero => pack E F 0 false ex frac | NegZero => pack E F 0 true ex frac
  | PosNormal => pack E F 1 false ex frac | NegNormal => pack E F 1 true ex frac
  | PosInf => pack E F 2 false ex frac | NegInf => pack E F 2 true ex frac
  | ClassNaN => pack E F 3 s ex frac
  end.
Lemma word_ok E F c s ex frac : 1 <= E -> 1 <= F -> 0 <= ex < 2 ^ E -> 0 <= frac < 2 ^ F ->
  let x := word_of E F c s ex frac in wf (E + F + 3) x /\ value_class (decode E F x) = c /\ x mod 2 ^ (E + F) = ex * 2 ^ F + frac.
Proof.
  intros HE HF He Hf x. unfold x. clear x.
  assert (K : forall fl (b : bool), 0 <= fl < 4 -> wf (E + F + 3) (pack E F fl b ex frac) /\ decode E F (pack E F fl b ex frac) = (if fl =? 0 then Zero b else if fl =? 1 then Num b (2 ^ F + frac) (ex - bias E - F) else if fl =? 2 then Inf b else NaN) /\ pack E F fl b ex frac mod 2 ^ (E + F) = ex * 2 ^ F + frac).
  { intros fl b Hfl. assert (O : okf E F fl ex frac) by (unfold okf; lia). split; [apply pack_wf; exact O|]. split; [apply decode_pack; exact O|]. apply (pack_slices E F fl b ex frac O). }
  destruct c; cbn [word_of].
  - destruct (K 0 false ltac:(lia)) as (A & B & C). rewrite B. auto.
  - destruct (K 0 true ltac:(lia)) as (A & B & C). rewrite B. auto.
  - destruct (K 1 false ltac:(lia)) as (A & B & C). rewrite B. auto.
  - destruct (K 1 true ltac:(lia)) as (A & B & C). rewrite B. auto.
  - destruct (K 2 false ltac:(lia)) as (A & B & C). rewrite B. auto.
  - destruct (K 2 true ltac:(lia)) as (A & B & C). rewrite B. auto.
  - destruct (K 3 s ltac:(lia)) as (A & B & C). rewrite B. auto.
Qed.
Lemma next_eq draw E F p we wf r1 u w rest c : 1 <= E <= 128 -> 1 <= F <= 128 -> enough E we -> enough F wf -> 0 <= w < 2 ^ 32 ->
  draw (weights p) r1 = Some (u, w :: rest) -> select_class u (class_cdf p) = Some c ->
  exists r, source_next draw E F p (we ++ wf ++ r1) = Some (word_of E F c (2 ^ 31 <=? w) (top_bits E we) (top_bits F wf), r).
Proof.
  intros HE HF Le Lf Hw Hd Hs. unfold source_next. destruct (random_top E we (wf ++ r1) ltac:(lia) Le) as [-> Be]. cbn [bind]. destruct (random_top F wf r1 ltac:(lia) Lf) as [-> Bf]. cbn [bind]. rewrite back_ok, Hd. cbn [bind]. rewrite Hs.
  pose proof (fun fl b => mk_pack E F fl b (top_bits E we) (top_bits F wf) ltac:(lia) ltac:(lia) Be Bf) as M.
  destruct c; cbn [bind word_of].
  - pose proof (M 0 false) as M0. cbn [Z.b2z] in M0. rewrite M0. eauto.
  - pose proof (M 0 true) as M0. cbn [Z.b2z] in M0. rewrite M0. eauto.
  - pose proof (M 1 false) as M0. cbn [Z.b2z] in M0. rewrite M0. eauto.
  - pose proof (M 1 true) as M0. cbn [Z.b2z] in M0. rewrite M0. eauto.
  - pose proof (M 2 false) as M0. cbn [Z.b2z] in M0. rewrite M0. eauto.
  - pose proof (M 2 true) as M0. cbn [Z.b2z] in M0. rewrite M0. eauto.
  - rewrite random_bit by exact Hw. cbn [bind fst snd]. rewrite (M 3 (2 ^ 31 <=? w)). eauto.
Qed.
Lemma next_ok draw E F p we wfr r1 u w rest : (forall c, 0 <= p c) -> 1 <= E <= 128 -> 1 <= F <= 128 -> enough E we -> enough F wfr -> 0 <= w < 2 ^ 32 ->
  draw (weights p) r1 = Some (u, w :: rest) -> (0 < u)%Q -> (u <= inject_Z (weights p))%Q ->
  exists x r, source_next draw E F p (we ++ wfr ++ r1) = Some (x, r) /\ wf (E + F + 3) x /\ x mod 2 ^ (E + F) = top_bits E we * 2 ^ F + top_bits F wfr /\
    0 < p (value_class (decode E F x)) /\
    forall c, value_class (decode E F x) = c <-> (inject_Z (weight_before p c) < u)%Q /\ (u <= inject_Z (weight_before p c + p c))%Q.
Proof.
  intros P HE HF Le Lf Hw Hd H0 HT. destruct (select_found p u (Qlt_le_weak _ _ H0) HT) as (d & Ed & U & L). specialize (L H0). destruct (next_eq draw E F p we wfr r1 u w rest d HE HF Le Lf Hw Hd Ed) as [r Er].
  destruct (random_top E we [] ltac:(lia) Le) as [_ Be]. destruct (random_top F wfr [] ltac:(lia) Lf) as [_ Bf].
  destruct (word_ok E F d (2 ^ 31 <=? w) _ _ ltac:(lia) ltac:(lia) Be Bf) as (A & B & C). exists (word_of E F d (2 ^ 31 <=? w) (top_bits E we) (top_bits F wfr)), r.
  split; [exact Er|]. split; [exact A|]. split; [exact C|]. rewrite B. split; [pose proof (inj_lt _ _ u L U); lia|].
  intros c. rewrite <- (select_iff p u c P H0 HT). rewrite Ed. split; congruence.
Qed.
Lemma next_zero draw E F p we wfr r1 w rest : (forall c, 0 <= p c) -> 1 <= E <= 128 -> 1 <= F <= 128 -> enough E we -> enough F wfr -> 0 <= w < 2 ^ 32 ->
  draw (weights p) r1 = Some (0%Q, w :: rest) -> exists x r, source_next draw E F p (we ++ wfr ++ r1) = Some (x, r) /\ decode E F x = Zero false.
Proof.
  intros P HE HF Le Lf Hw Hd. destruct (next_eq draw E F p we wfr r1 0%Q w rest PosZero HE HF Le Lf Hw Hd (select_zero p P)) as [r Er].
  destruct (random_top E we [] ltac:(lia) Le) as [_ Be]. destruct (random_top F wfr [] ltac:(lia) Lf) as [_ Bf]. eexists. exists r. split; [exact Er|]. cbn [word_of]. rewrite decode_pack by (unfold okf; lia). reflexivity.
Qed.
Lemma next_onto E F p x : (forall c, 0 <= p c) -> 1 <= E <= 128 -> 1 <= F <= 128 -> wf (E + F + 3) x -> 0 < p (value_class (decode E F x)) ->
  exists u ws, (0 < u)%Q /\ (u <= inject_Z (weights p))%Q /\ Forall (fun w => 0 <= w < 2 ^ 32) ws /\
    forall draw, (forall T r, draw T r = Some (u, r)) -> exists r, source_next draw E F p ws = Some (x, r).
Proof.
  intros P HE HF Hx Hp. destruct (pack_view E F x ltac:(lia) ltac:(lia) Hx) as (fl & s & e & f & O & ->). rewrite decode_pack in Hp by exact O. assert (O2 : 0 <= e < 2 ^ E /\ 0 <= f < 2 ^ F /\ 0 <= fl < 4) by (unfold okf in O; lia). destruct O2 as (He & Hf & Hfl).
  destruct (random_onto E e [] ltac:(lia) He) as (we & Le & Fe & Re). destruct (random_onto F f [] ltac:(lia) Hf) as (wfr & Lf & Ff & Rf).
  destruct (random_top E we [] ltac:(lia) (conj Le Fe)) as [Te _]. destruct (random_top F wfr [] ltac:(lia) (conj Lf Ff)) as [Tf _].
  assert (E1 : top_bits E we = e) by congruence. assert (E2 : top_bits F wfr = f) by congruence.
  remember (value_class (if fl =? 0 then Zero s else if fl =? 1 then Num s (2 ^ F + f) (e - bias E - F) else if fl =? 2 then Inf s else NaN)) as c eqn:Ec.
  exists (inject_Z (weight_before p c + p c)), (we ++ wfr ++ [if s then 2 ^ 31 else 0]). destruct (before_weights p c P) as [B1 B2].
  assert (U0 : (0 < inject_Z (weight_before p c + p c))%Q) by (change 0%Q with (inject_Z 0); rewrite <- Zlt_Qlt; lia).
  assert (UT : (inject_Z (weight_before p c + p c) <= inject_Z (weights p))%Q) by (rewrite <- Zle_Qle; lia).
  split; [exact U0|]. split; [exact UT|]. split; [apply Forall_app; split; [exact Fe|]; apply Forall_app; split; [exact Ff|]; constructor; [destruct s; lia|constructor]|].
  intros draw Hd. assert (S : select_class (inject_Z (weight_before p c + p c)) (class_cdf p) = Some c).
  { apply select_iff; [exact P|exact U0|exact UT|]. split; [rewrite <- Zlt_Qlt; lia|apply Qle_refl]. }
  destruct (next_eq draw E F p we wfr [if s then 2 ^ 31 else 0] _ (if s then 2 ^ 31 else 0) [] c HE HF (conj Le Fe) (conj Lf Ff) ltac:(destruct s; lia) (Hd _ _) S) as [r Er]. exists r. rewrite Er. do 2 f_equal. rewrite E1, E2. subst c.
  assert (V : fl = 0 \/ fl = 1 \/ fl = 2 \/ fl = 3) by lia. destruct V as [-> |[-> |[-> | ->]]]; destruct s; reflexivity.
Qed.
Lemma fold_disabled ds c : let p := fold_right disable_class source_init ds in (In c ds -> p c = 0) /\ (~ In c ds -> p c = source_init c) /\ 0 <= p c.
Proof.
  assert (Q : forall c d, class_eqb c d = true <-> c = d) by (intros [] []; cbn; split; congruence).
  induction ds as [|d ds (A & B & C)]; cbn [fold_right In].
  - split; [intros []|]. split; [reflexivity|]. destruct c; cbn; lia.
  - unfold disable_class at 1 3 5. destruct (class_eqb c d) eqn:E.
    + apply Q in E. subst d. split; [reflexivity|]. split; [tauto|lia].
    + assert (c <> d) by (intros ->; rewrite (proj2 (Q d d) eq_refl) in E; discriminate). split; [intros [->|H']; [congruence|exact (A H')]|]. split; [intros H'; apply B; tauto|exact C].
Qed.
Lemma next_enabled draw E F ds we wfr r1 u w rest : let p := fold_right disable_class source_init ds in
  1 <= E <= 128 -> 1 <= F <= 128 -> enough E we -> enough F wfr -> 0 <= w < 2 ^ 32 -> draw (weights p) r1 = Some (u, w :: rest) -> (0 < u)%Q -> (u <= inject_Z (weights p))%Q ->
  exists x r, source_next draw E F p (we ++ wfr ++ r1) = Some (x, r) /\ wf (E + F + 3) x /\ ~ In (value_class (decode E F x)) ds.
Proof.
  intros p HE HF Le Lf Hw Hd H0 HT. destruct (next_ok draw E F p we wfr r1 u w rest (fun c => proj2 (proj2 (fold_disabled ds c))) HE HF Le Lf Hw Hd H0 HT) as (x & r & A & B & _ & C & _).
  exists x, r. split; [exact A|]. split; [exact B|]. intros I. apply (proj1 (fold_disabled ds _)) in I. unfold p in C. lia.
Qed.
