(** The test program, for any policy that converts and computes references faithfully. *)
From Coq Require Import ZArith List Bool Lia.
From Verif Require Import Fw Spec SpecPolicy MpfrLib MpfrRange Policy App CompareProofs FlopocoLemmas.
Import ListNotations.
Open Scope Z_scope.

Lemma mpfr_cmp_vcmp x y : vcmp x y = if mpfr_unordered_p x y then None else Some (mpfr_cmp x y).
Proof.
  unfold mpfr_unordered_p. destruct x as [|[]|[]|[] m e], y as [|[]|[]|[] n f]; cbn [mpfr_nan_p orb]; try reflexivity.
Qed.
Lemma cmp_num_sgn s m e n f : cmp_num (sgn s m) e (sgn s n) f = signed s (cmp_num m e n f).
Proof. destruct s; cbn [sgn signed]; [apply cmp_num_opp|reflexivity]. Qed.
Lemma pow_cancel a b k : 0 <= k -> (a * 2 ^ k ?= b * 2 ^ k) = (a ?= b).
Proof. intros H. pose proof (Z.pow_pos_nonneg 2 k ltac:(lia) H). symmetry. apply Zmult_compare_compat_r. lia. Qed.
Lemma cmp_num_eq_l m e m' e' n f : cmp_num m e m' e' = Eq -> cmp_num m e n f = cmp_num m' e' n f.
Proof.
  intros H. set (k := Z.min (Z.min e e') f). rewrite (cmp_num_k m e m' e' k) in H by lia. apply Z.compare_eq in H.
  rewrite (cmp_num_k m e n f k), (cmp_num_k m' e' n f k) by lia. rewrite H. reflexivity.
Qed.
Lemma vcmp_veq_l x x' y : veq x x' -> vcmp x y = vcmp x' y.
Proof.
  intros H. destruct x as [|s|s|s m e], x' as [|s'|s'|s' m' e']; cbn [veq] in H; try contradiction; try subst; try reflexivity.
  destruct H as [-> H]. destruct y as [|t|t|t n f]; cbn [vcmp]; try reflexivity. f_equal. apply cmp_num_eq_l. rewrite cmp_num_sgn, H. destruct s'; reflexivity.
Qed.
Lemma vcmp_swap x y : vcmp y x = match vcmp x y with Some c => Some (CompOpp c) | None => None end.
Proof. destruct x as [|[]|[]|[] m e], y as [|[]|[]|[] n f]; cbn [vcmp CompOpp]; try reflexivity; f_equal; apply cmp_num_swap. Qed.
Lemma vcmp_veq x x' y y' : veq x x' -> veq y y' -> vcmp x y = vcmp x' y'.
Proof. intros A B. rewrite (vcmp_veq_l x x' y A), (vcmp_swap y x'), (vcmp_veq_l y y' x' B), <- vcmp_swap. reflexivity. Qed.
Lemma veq_nan x x' : veq x x' -> mpfr_nan_p x = mpfr_nan_p x'.
Proof. destruct x, x'; cbn; intros; try contradiction; reflexivity. Qed.
Lemma veq_refl x : veq x x.
Proof. destruct x; cbn [veq]; auto. split; [reflexivity|]. unfold cmp_num. apply Z.compare_refl. Qed.
Lemma veq_sym x y : veq x y -> veq y x.
Proof. destruct x, y; cbn [veq]; auto. intros [-> H]. split; [reflexivity|]. rewrite cmp_num_swap, H. reflexivity. Qed.
Lemma veq_trans x y z : veq x y -> veq y z -> veq x z.
Proof. destruct x, y, z; cbn [veq]; intros A B; try contradiction; try congruence; auto. destruct A as [-> A], B as [-> B]. split; [reflexivity|]. rewrite (cmp_num_eq_l _ _ _ _ _ _ A). exact B. Qed.

(** The comparison of checkOperator. *)
Definition differs (x y : fval) : bool :=
  match mpfr_cmp x y with Eq => false | _ => true end || negb (Bool.eqb (mpfr_nan_p x) (mpfr_nan_p y)).
Lemma differs_ok x y x' y' : veq x x' -> veq y y' -> (differs x y = false <-> same_value x' y').
Proof.
  intros A B. unfold differs. assert (S : same_value x' y' <-> (if mpfr_unordered_p x y then mpfr_nan_p x = true /\ mpfr_nan_p y = true else mpfr_cmp x y = Eq)).
  { pose proof (mpfr_cmp_vcmp x y) as C. rewrite (vcmp_veq x x' y y' A B) in C. unfold mpfr_unordered_p in *. rewrite (veq_nan x x' A), (veq_nan y y' B) in *. unfold same_value.
    destruct x', y'; cbn [mpfr_nan_p orb] in *; rewrite ?C; split; intros; try (destruct H; congruence); try congruence; auto. }
  rewrite S. unfold mpfr_unordered_p. destruct (mpfr_nan_p x) eqn:NX, (mpfr_nan_p y) eqn:NY; cbn [orb Bool.eqb negb].
  - destruct x, y; try discriminate. split; auto.
  - rewrite orb_true_r. split; [discriminate|intros [_ H]; discriminate].
  - rewrite orb_true_r. split; [discriminate|intros [H _]; discriminate].
  - rewrite orb_false_r. destruct (mpfr_cmp x y); split; congruence.
Qed.

(** What a policy must do: read words, and bring each reference to the rounded value. *)
Definition reference_ok (P : policy) (D : Z -> fval) (V : Z -> Prop) (ref : fval -> fval -> option fval) (op : fval -> fval -> fval) : Prop :=
  forall a b x y, V a -> V b -> to_mpfr P a = Some x -> to_mpfr P b = Some y ->
  exists r w v, ref x y = Some r /\ from_mpfr P true r = Some w /\ to_mpfr P w = Some v /\ veq v (op (D a) (D b)).
Definition reads_ok (P : policy) (D : Z -> fval) (V : Z -> Prop) : Prop := forall w, V w -> exists x, to_mpfr P w = Some x /\ veq x (D w).

Lemma check_operator_ok P D V ref op a b x y got :
  reads_ok P D V -> reference_ok P D V ref op -> V a -> V b -> to_mpfr P a = Some x -> to_mpfr P b = Some y -> (exists r, got = Some r /\ V r) ->
  exists f, check_operator P (ref x y) got = Some f /\ (f = false <-> gives D got (op (D a) (D b))).
Proof.
  intros R C Ha Hb Hx Hy [g [-> Hg]]. destruct (C a b x y Ha Hb Hx Hy) as [r [w [v [E1 [E2 [E3 E4]]]]]]. destruct (R g Hg) as [z [G1 G2]].
  exists (differs z v). split. { unfold check_operator. rewrite E1. cbn [bind]. rewrite E2. cbn [bind]. rewrite E3. cbn [bind]. rewrite G1. reflexivity. }
  rewrite (differs_ok z v _ _ G2 E4). split; [intros H; exists g; split; [reflexivity|exact H]|intros [g' [H1 H2]]; injection H1 as <-; exact H2].
Qed.
(** The answers checkComparison expects: the right ones for numbers, those of "equal" (and "not equal") when one operand is NaN. *)
Definition nan_v (x : fval) : bool := match x with NaN => true | _ => false end.
Definition wanted (D : Z -> fval) (O : operators) (a b : Z) : Prop :=
  if nan_v (D a) || nan_v (D b) then
    o_eq O a b = Some true /\ o_ne O a b = Some true /\ o_lt O a b = Some false /\ o_le O a b = Some true /\ o_gt O a b = Some false /\ o_ge O a b = Some true
  else right_comparisons D O a b.
Lemma check_cmp_ok o r : (exists c, o = Some c) -> exists f, check_comparison o r = Some f /\ (f = false <-> o = Some r).
Proof. intros [c ->]. exists (negb (Bool.eqb c r)). split; [reflexivity|]. destruct c, r; cbn; split; congruence. Qed.

Lemma check_pair_ok P D V mul add div O a b :
  reads_ok P D V -> reference_ok P D V (ref_mul P) mul -> reference_ok P D V (ref_add P) add -> reference_ok P D V (ref_div P) div ->
  V a -> V b -> returns V O a b ->
  exists fs, check_pair P O (a, b) = Some fs /\ length fs = 9%nat /\
    (existsb (fun f => f) fs = false <-> wanted D O a b /\ right_arithmetic D mul add div O a b).
Proof.
  intros R Cm Ca Cd Ha Hb [R1 [R2 [R3 [R4 [R5 [R6 [R7 [R8 R9]]]]]]]]. destruct (R a Ha) as [x [Hx Vx]], (R b Hb) as [y [Hy Vy]].
  unfold check_pair. rewrite Hx, Hy. cbn [bind]. cbv zeta.
  destruct (check_operator_ok P D V _ _ a b x y _ R Cm Ha Hb Hx Hy R7) as [f7 [E7 F7]].
  destruct (check_operator_ok P D V _ _ a b x y _ R Ca Ha Hb Hx Hy R8) as [f8 [E8 F8]].
  destruct (check_operator_ok P D V _ _ a b x y _ R Cd Ha Hb Hx Hy R9) as [f9 [E9 F9]].
  rewrite E7, E8, E9.
  destruct (check_cmp_ok _ (match mpfr_cmp x y with Eq => true | _ => false end) R1) as [f1 [E1 F1]].
  destruct (check_cmp_ok _ (match mpfr_cmp x y with Eq => false | _ => true end || mpfr_unordered_p x y) R2) as [f2 [E2 F2]].
  destruct (check_cmp_ok _ (match mpfr_cmp x y with Lt => true | _ => false end) R3) as [f3 [E3 F3]].
  destruct (check_cmp_ok _ (match mpfr_cmp x y with Gt => false | _ => true end) R4) as [f4 [E4 F4]].
  destruct (check_cmp_ok _ (match mpfr_cmp x y with Gt => true | _ => false end) R5) as [f5 [E5 F5]].
  destruct (check_cmp_ok _ (match mpfr_cmp x y with Lt => false | _ => true end) R6) as [f6 [E6 F6]].
  rewrite E1, E2, E3, E4, E5, E6. cbn [bind]. exists [f1; f2; f3; f4; f5; f6; f7; f8; f9]. split; [reflexivity|]. split; [reflexivity|].
  assert (X : existsb (fun f => f) [f1; f2; f3; f4; f5; f6; f7; f8; f9] = false <-> (f1 = false /\ f2 = false /\ f3 = false /\ f4 = false /\ f5 = false /\ f6 = false) /\ (f7 = false /\ f8 = false /\ f9 = false)).
  { cbn [existsb]. rewrite !orb_false_iff. intuition. }
  rewrite X. unfold right_arithmetic. rewrite F7, F8, F9, F1, F2, F3, F4, F5, F6.
  assert (W : wanted D O a b <-> (o_eq O a b = Some (match mpfr_cmp x y with Eq => true | _ => false end) /\ o_ne O a b = Some (match mpfr_cmp x y with Eq => false | _ => true end || mpfr_unordered_p x y) /\
    o_lt O a b = Some (match mpfr_cmp x y with Lt => true | _ => false end) /\ o_le O a b = Some (match mpfr_cmp x y with Gt => false | _ => true end) /\
    o_gt O a b = Some (match mpfr_cmp x y with Gt => true | _ => false end) /\ o_ge O a b = Some (match mpfr_cmp x y with Lt => false | _ => true end))).
  { unfold wanted, right_comparisons. pose proof (mpfr_cmp_vcmp x y) as C. rewrite (vcmp_veq x (D a) y (D b) Vx Vy) in C. unfold eq_spec, lt_spec, le_spec, gt_spec, ge_spec. rewrite C.
    unfold mpfr_unordered_p in *. assert (NA : nan_v (D a) = mpfr_nan_p x) by (rewrite (veq_nan _ _ Vx); reflexivity). assert (NB : nan_v (D b) = mpfr_nan_p y) by (rewrite (veq_nan _ _ Vy); reflexivity). rewrite NA, NB.
    destruct (mpfr_nan_p x || mpfr_nan_p y) eqn:N.
    - assert (Q : mpfr_cmp x y = Eq) by (destruct x as [|[]|[]|[] ? ?], y as [|[]|[]|[] ? ?]; try discriminate N; reflexivity). rewrite Q. cbn [orb]. reflexivity.
    - rewrite orb_false_r. destruct (mpfr_cmp x y); reflexivity. }
  rewrite W. reflexivity.
Qed.

(** Counting. *)
Definition bad (r : results) : bool := existsb (fun ab => negb (fst ab =? 0)) r.
Definition counted (r : results) : Prop := Forall (fun ab => 0 <= fst ab) r.
Lemma count_ok fs : forall r, length fs = length r -> counted r -> counted (count r fs) /\ length (count r fs) = length r /\ bad (count r fs) = bad r || existsb (fun f => f) fs.
Proof.
  induction fs as [|f fs IH]; intros [|[p q] r] L C; cbn [length] in L; try lia; [cbn; auto|]. unfold count. cbn [combine map]. fold (count r fs). inversion C as [|? ? C1 C2]; subst. cbn [fst] in C1.
  destruct (IH r ltac:(lia) C2) as [I1 [I2 I3]]. split; [constructor; [cbn [fst]; destruct f; lia|exact I1]|]. split; [cbn [length]; rewrite I2; reflexivity|].
  unfold bad in *. cbn [existsb fst]. rewrite I3. destruct f; cbn [orb].
  - replace (p + 1 =? 0) with false by lia. cbn [negb orb]. rewrite orb_true_r. reflexivity.
  - rewrite !orb_assoc. reflexivity.
Qed.
Lemma loop_counts (c : Z * Z -> option (list bool)) (Q : Z * Z -> Prop) l :
  (forall ab, In ab l -> exists fs, c ab = Some fs /\ length fs = 9%nat /\ (existsb (fun f => f) fs = false <-> Q ab)) ->
  forall r, length r = 9%nat -> counted r ->
  exists r', loop (fun r ab => do fs <- c ab; Some (count r fs)) r l = Some r' /\ (bad r' = false <-> bad r = false /\ forall ab, In ab l -> Q ab).
Proof.
  induction l as [|ab l IH]; intros H r L C.
  - exists r. split; [reflexivity|]. split; [intros; split; [assumption|intros ? []]|intros [? _]; assumption].
  - destruct (H ab (or_introl eq_refl)) as [fs [F1 [F2 F3]]]. destruct (count_ok fs r ltac:(lia) C) as [C1 [C2 C3]].
    destruct (IH (fun x Hx => H x (or_intror Hx)) (count r fs) ltac:(lia) C1) as [r' [G1 G2]]. exists r'. cbn [loop]. rewrite F1. cbn [bind]. split; [exact G1|].
    rewrite G2, C3, orb_false_iff, F3. split.
    + intros [[A B] K]. split; [exact A|]. intros x [<-|Hx]; [exact B|apply K; exact Hx].
    + intros [A K]. split; [split; [exact A|apply K; left; reflexivity]|]. intros x Hx. apply K. right. exact Hx.
Qed.
Theorem test_inputs_gen P D V mul add div O l :
  reads_ok P D V -> reference_ok P D V (ref_mul P) mul -> reference_ok P D V (ref_add P) add -> reference_ok P D V (ref_div P) div ->
  (forall a, In a l -> V a) -> (forall a b, In a l -> In b l -> returns V O a b) ->
  exists f, test_inputs P O l = Some f /\
    (f = false <-> forall a b, In a l -> In b l -> wanted D O a b /\ right_arithmetic D mul add div O a b).
Proof.
  intros R Cm Ca Cd Hv Hr. destruct (loop_counts (check_pair P O) (fun ab => wanted D O (fst ab) (snd ab) /\ right_arithmetic D mul add div O (fst ab) (snd ab)) (list_prod l l)) with (r := no_results) as [r [E B]].
  - intros [a b] Hab. apply in_prod_iff in Hab. destruct Hab as [A B]. apply check_pair_ok with (V := V); auto.
  - reflexivity.
  - unfold counted, no_results. repeat constructor; cbn; lia.
  - unfold test_inputs. rewrite E. cbn [bind]. eexists. split; [reflexivity|].
    assert (X : negb (Z.of_nat (length (filter (fun ab => negb (fst ab =? 0)) r)) =? 0) = bad r).
    { clear. unfold bad. induction r as [|x r IH]; [reflexivity|]. cbn [filter existsb]. destruct (negb (fst x =? 0)); cbn [orb length]; [|exact IH]. apply negb_true_iff, Z.eqb_neq. lia. }
    rewrite X, B. split.
    + intros [_ K] a b Ha Hb. apply (K (a, b)). apply in_prod_iff. split; assumption.
    + intros K. split; [reflexivity|]. intros [a b] Hab. apply in_prod_iff in Hab. cbn [fst snd]. apply K; tauto.
Qed.
