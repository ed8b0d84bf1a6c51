(** Interval arithmetic of fixval. *)
From Coq Require Import ZArith Bool List Lia QArith Qpower.
From Verif Require Import Fw FwLemmas SpecFix Fixval.
Import ListNotations.
Open Scope Z_scope.

Definition in_range (a : fixv) : Prop := flow (fst a) <= snd a <= fhigh (fst a).
Lemma i64_some x y : i64 x = Some y -> y = x /\ - 2 ^ 63 <= x < 2 ^ 63.
Proof. unfold i64. destruct (_ && _) eqn:E; cbn [assert_ bind]; [|discriminate]. intros H. injection H as <-. split; [reflexivity|lia]. Qed.
Lemma i64_ok x : - 2 ^ 63 <= x < 2 ^ 63 -> i64 x = Some x.
Proof. intros H. unfold i64. replace (_ && _) with true by lia. reflexivity. Qed.
Lemma i32_some x y : i32 x = Some y -> y = x.
Proof. unfold i32. destruct (_ && _); cbn [assert_ bind]; [|discriminate]. intros H. injection H as <-. reflexivity. Qed.
Lemma shl64_some v k y : shl64 v k = Some y -> y = v * 2 ^ k /\ 0 <= k < 64 /\ - 2 ^ 63 <= v * 2 ^ k < 2 ^ 63.
Proof.
  unfold shl64. destruct (_ && _) eqn:E; cbn [assert_ bind]; [|discriminate]. intros H. apply i64_some in H as [-> H]. split; [reflexivity|]. split; [lia|exact H].
Qed.
Lemma shl64_ok v k : 0 <= k < 64 -> - 2 ^ 63 <= v * 2 ^ k < 2 ^ 63 -> shl64 v k = Some (v * 2 ^ k).
Proof. intros H H1. unfold shl64. replace (_ && _) with true by lia. cbn [assert_ bind]. apply i64_ok, H1. Qed.
Lemma shr64_ok v k : 0 <= k < 64 -> shr64 v k = Some (v / 2 ^ k).
Proof. intros H. unfold shr64. replace (_ && _) with true by lia. cbn [assert_ bind]. rewrite Z.shiftr_div_pow2 by lia. reflexivity. Qed.
Lemma shr64_some v k y : shr64 v k = Some y -> y = v / 2 ^ k /\ 0 <= k < 64.
Proof. unfold shr64. destruct (_ && _) eqn:E; cbn [assert_ bind]; [|discriminate]. intros H. injection H as <-. rewrite Z.shiftr_div_pow2 by lia. split; [reflexivity|lia]. Qed.
Lemma cmin_min a b : cmin a b = Z.min a b.
Proof. unfold cmin. destruct (a <=? b) eqn:E; lia. Qed.
Lemma cmax_max a b : cmax a b = Z.max a b.
Proof. unfold cmax. destruct (b <? a) eqn:E; lia. Qed.
Lemma mkfix_ok t x : flow t <= x <= fhigh t -> mkfix t x = Some (t, x).
Proof. intros H. unfold mkfix. replace (flow t <=? x) with true by lia. replace (x <=? fhigh t) with true by lia. reflexivity. Qed.
Lemma mkfix_bad t x : ~ (flow t <= x <= fhigh t) -> mkfix t x = None.
Proof. intros H. unfold mkfix. destruct (flow t <=? x) eqn:E; [|reflexivity]. replace (x <=? fhigh t) with false by lia. reflexivity. Qed.
Lemma entry_ok a : in_range a -> entry a = Some tt.
Proof. destruct a as [t x]. unfold in_range, entry. cbn [fst snd]. intros H. replace (flow t <=? x) with true by lia. replace (x <=? fhigh t) with true by lia. reflexivity. Qed.
Lemma entry_bad a : ~ in_range a -> entry a = None.
Proof. destruct a as [t x]. unfold in_range, entry. cbn [fst snd]. intros H. destruct (flow t <=? x) eqn:E; [|reflexivity]. cbn [assert_ bind]. replace (x <=? fhigh t) with false by lia. reflexivity. Qed.
Ltac peel H := match type of H with bind ?a _ = Some _ => let E := fresh "E" in destruct a eqn:E; cbn [bind] in H; [|discriminate H] end.

(** ** Addition *)
Lemma scale_between l h x k : 0 <= k -> l <= x <= h -> l * 2 ^ k <= x * 2 ^ k <= h * 2 ^ k.
Proof. intros Hk H. pose proof (pow2_pos k Hk). nia. Qed.
Lemma add_exact a b t : add_type (fst a) (fst b) = Some t -> in_range a -> in_range b ->
  exists v, fix_add a b = Some (t, v) /\ flow t <= v <= fhigh t /\ fshift t = Z.min (fshift (fst a)) (fshift (fst b)) /\
    v = snd a * 2 ^ (fshift (fst a) - fshift t) + snd b * 2 ^ (fshift (fst b) - fshift t).
Proof.
  destruct a as [[ea la ha] x]. destruct b as [[eb lb hb] y]. unfold in_range. cbn [fst snd flow fhigh fshift]. intros T Ha Hb.
  unfold fix_add. cbn [fst snd]. rewrite T. cbn [bind]. rewrite !entry_ok by (unfold in_range; cbn; lia). cbn [bind].
  unfold add_type in T. cbn [flow fhigh fshift] in T. rewrite cmin_min, cmax_max in T. cbn [fshift]. rewrite cmax_max.
  peel T. peel T. apply i32_some in E, E0. subst z z0. peel T. peel T. apply shl64_some in E as [-> [K1 R1]]. apply shl64_some in E0 as [-> [K2 R2]].
  peel T. apply i64_some in E as [-> R3]. peel T. peel T. apply shl64_some in E as [-> [_ R4]]. apply shl64_some in E0 as [-> [_ R5]]. peel T. apply i64_some in E as [-> R6]. injection T as <-. cbn [fshift flow fhigh].
  remember (Z.max ea eb - eb) as sa. remember (Z.max ea eb - ea) as sb.
  pose proof (scale_between la ha x sa ltac:(lia) Ha) as Bx. pose proof (scale_between lb hb y sb ltac:(lia) Hb) as By.
  rewrite (shl64_ok x sa) by lia. rewrite (shl64_ok y sb) by lia. cbn [bind]. unfold add64. rewrite i64_ok by lia. cbn [bind].
  exists (x * 2 ^ sa + y * 2 ^ sb). split; [apply mkfix_ok; cbn [flow fhigh]; lia|]. split; [lia|]. split; [reflexivity|].
  replace (ea - Z.min ea eb) with sa by lia. replace (eb - Z.min ea eb) with sb by lia. reflexivity.
Qed.
Lemma add_tight a b t : add_type a b = Some t -> flow a <= fhigh a -> flow b <= fhigh b ->
  (exists v, fix_add (a, flow a) (b, flow b) = Some (t, v) /\ v = flow t) /\ (exists v, fix_add (a, fhigh a) (b, fhigh b) = Some (t, v) /\ v = fhigh t).
Proof.
  intros T Ha Hb.
  destruct (add_exact (a, flow a) (b, flow b) t T) as [v [E [_ [S V]]]]; try (unfold in_range; cbn [fst snd]; lia).
  destruct (add_exact (a, fhigh a) (b, fhigh b) t T) as [w [E' [_ [_ V']]]]; try (unfold in_range; cbn [fst snd]; lia).
  cbn [fst snd] in *. rewrite S in V, V'. destruct a as [ea la ha]. destruct b as [eb lb hb]. cbn [flow fhigh fshift] in *.
  unfold add_type in T. cbn [flow fhigh fshift] in T. rewrite cmin_min, cmax_max in T.
  peel T. peel T. apply i32_some in E0, E1. subst z z0. peel T. peel T. apply shl64_some in E0 as [-> [K1 R1]]. apply shl64_some in E1 as [-> [K2 R2]].
  peel T. apply i64_some in E0 as [-> R3]. peel T. peel T. apply shl64_some in E0 as [-> [_ R4]]. apply shl64_some in E1 as [-> [_ R5]]. peel T. apply i64_some in E0 as [-> R6]. injection T as <-. cbn [fshift flow fhigh] in *.
  replace (ea - Z.min ea eb) with (Z.max ea eb - eb) in * by lia. replace (eb - Z.min ea eb) with (Z.max ea eb - ea) in * by lia.
  split; [exists v; split; [exact E|exact V]|exists w; split; [exact E'|exact V']].
Qed.

(** ** Multiplication *)
Lemma mul_between la ha x lb hb y : la <= x <= ha -> lb <= y <= hb ->
  Z.min (Z.min (la * lb) (la * hb)) (Z.min (ha * lb) (ha * hb)) <= x * y <= Z.max (Z.max (la * lb) (la * hb)) (Z.max (ha * lb) (ha * hb)).
Proof.
  intros Hx Hy.
  assert (A : forall p, Z.min (p * lb) (p * hb) <= p * y <= Z.max (p * lb) (p * hb)).
  { intros p. destruct (Z.le_gt_cases 0 p); [pose proof (Z.mul_le_mono_nonneg_l lb y p); pose proof (Z.mul_le_mono_nonneg_l y hb p); lia|].
    pose proof (Z.mul_le_mono_nonpos_l lb y p). pose proof (Z.mul_le_mono_nonpos_l y hb p). lia. }
  assert (B : Z.min (la * y) (ha * y) <= x * y <= Z.max (la * y) (ha * y)).
  { destruct (Z.le_gt_cases 0 y); [pose proof (Z.mul_le_mono_nonneg_r la x y); pose proof (Z.mul_le_mono_nonneg_r x ha y); lia|].
    pose proof (Z.mul_le_mono_nonpos_r la x y). pose proof (Z.mul_le_mono_nonpos_r x ha y). lia. }
  pose proof (A la). pose proof (A ha). lia.
Qed.
Lemma mul_exact a b t : mul_type (fst a) (fst b) = Some t -> in_range a -> in_range b ->
  exists v, fix_mul a b = Some (t, v) /\ flow t <= v <= fhigh t /\ fshift t = fshift (fst a) + fshift (fst b) /\ v = snd a * snd b.
Proof.
  destruct a as [[ea la ha] x]. destruct b as [[eb lb hb] y]. unfold in_range. cbn [fst snd flow fhigh fshift]. intros T Ha Hb.
  unfold fix_mul. cbn [fst snd]. rewrite T. cbn [bind]. rewrite !entry_ok by (unfold in_range; cbn; lia). cbn [bind].
  unfold mul_type in T. cbn [flow fhigh fshift] in T.
  peel T. apply i32_some in E. subst z. unfold mul64 in T. peel T. apply i64_some in E as [-> R1]. peel T. apply i64_some in E as [-> R2]. peel T. apply i64_some in E as [-> R3]. peel T. apply i64_some in E as [-> R4].
  unfold cmin4, cmax4 in T. rewrite !cmin_min, !cmax_max in T. injection T as <-. cbn [fshift flow fhigh]. pose proof (mul_between la ha x lb hb y Ha Hb) as B.
  remember (la * lb) as p1. remember (la * hb) as p2. remember (ha * lb) as p3. remember (ha * hb) as p4. remember (x * y) as p.
  unfold mul64. rewrite <- Heqp. rewrite i64_ok by lia. cbn [bind]. exists p. split; [apply mkfix_ok; cbn [flow fhigh]; lia|]. split; [lia|]. split; reflexivity.
Qed.
(** ** Shifts *)
Lemma shr_const_exact k a : 0 <= k < 64 -> in_range a -> exists t v, fix_shr_const k a = Some (t, v) /\ fshift t = fshift (fst a) /\
  flow t = flow (fst a) / 2 ^ k /\ fhigh t = fhigh (fst a) / 2 ^ k /\ flow t <= v <= fhigh t /\ v = snd a / 2 ^ k.
Proof.
  destruct a as [[e l h] x]. unfold in_range. cbn [fst snd flow fhigh fshift]. intros Hk Hx. unfold fix_shr_const. cbn [fst snd flow fhigh fshift]. rewrite !shr64_ok by lia. cbn [bind].
  pose proof (pow2_pos k ltac:(lia)). pose proof (Z.div_le_mono l x (2 ^ k) ltac:(lia) ltac:(lia)). pose proof (Z.div_le_mono x h (2 ^ k) ltac:(lia) ltac:(lia)).
  eexists _, (x / 2 ^ k). split; [apply mkfix_ok; cbn [flow fhigh]; lia|]. cbn [flow fhigh fshift]. repeat split; lia.
Qed.
(** The variable shift keeps its range for the smallest shift only; it is right when that is all there is,
    and when the values straddle zero. *)
Lemma shr_exact v s t : shr_type (fst v) (fst s) = Some t -> in_range v -> in_range s -> snd s < 64 ->
  fix_shr v s = if (flow t <=? snd v / 2 ^ snd s) && (snd v / 2 ^ snd s <=? fhigh t) then Some (t, snd v / 2 ^ snd s) else None.
Proof.
  destruct v as [[e l h] x]. destruct s as [[es ls hs] k]. unfold in_range. cbn [fst snd flow fhigh fshift]. intros T Hv Hs Hk.
  unfold fix_shr. cbn [fst snd]. rewrite T. cbn [bind]. rewrite !entry_ok by (unfold in_range; cbn; lia). cbn [bind].
  unfold shr_type in T. cbn [flow fhigh fshift] in T. destruct (es =? 0); [|discriminate]. cbn [assert_ bind] in T. destruct (0 <=? ls) eqn:Q; [|discriminate]. cbn [assert_ bind] in T.
  rewrite shr64_ok by lia. cbn [bind]. unfold mkfix. destruct (flow t <=? x / 2 ^ k); [|reflexivity]. cbn [assert_ bind andb]. destruct (x / 2 ^ k <=? fhigh t); reflexivity.
Qed.
Lemma div_mono_pow x j k : 0 <= j <= k -> 0 <= x -> x / 2 ^ k <= x / 2 ^ j.
Proof. intros H Hx. apply Z.div_le_compat_l; [lia|]. split; [apply pow2_pos; lia|apply pow2_le; lia]. Qed.
Lemma div_mono_pow_neg x j k : 0 <= j <= k -> x < 0 -> x / 2 ^ j <= x / 2 ^ k.
Proof.
  intros H Hx. pose proof (pow2_pos j ltac:(lia)) as Pj. pose proof (pow2_pos k ltac:(lia)) as Pk. pose proof (pow2_le j k ltac:(lia)).
  assert (N : x / 2 ^ j < 0) by (apply Z.div_lt_upper_bound; lia).
  apply Z.div_le_lower_bound; [lia|]. pose proof (Z.mul_div_le x (2 ^ j) ltac:(lia)). nia.
Qed.
Lemma shr_straddle v s t : shr_type (fst v) (fst s) = Some t -> in_range v -> in_range s -> snd s < 64 -> flow (fst v) <= 0 -> - 1 <= fhigh (fst v) ->
  exists r, fix_shr v s = Some (t, r) /\ r = snd v / 2 ^ snd s /\ flow t <= r <= fhigh t.
Proof.
  intros T Hv Hs Hk L H0. assert (H1 : 0 <= fhigh (fst v) \/ fhigh (fst v) = -1) by lia. rewrite (shr_exact v s t T Hv Hs Hk). destruct v as [[e l h] x]. destruct s as [[es ls hs] k]. unfold in_range in *. cbn [fst snd flow fhigh fshift] in *.
  unfold shr_type in T. cbn [flow fhigh fshift] in T. destruct (es =? 0); [|discriminate]. cbn [assert_ bind] in T. destruct (0 <=? ls) eqn:Q; [|discriminate]. cbn [assert_ bind] in T.
  rewrite !shr64_ok in T by lia. cbn [bind] in T. injection T as <-. cbn [flow fhigh].
  pose proof (pow2_pos ls ltac:(lia)) as Pl. pose proof (pow2_pos k ltac:(lia)) as Pk.
  assert (A : l / 2 ^ ls <= x / 2 ^ k).
  { destruct (Z.le_gt_cases 0 x).
    - assert (l / 2 ^ ls <= 0) by (apply Z.div_le_upper_bound; lia). pose proof (Z.div_pos x (2 ^ k) ltac:(lia) Pk). lia.
    - pose proof (Z.div_le_mono l x (2 ^ ls) ltac:(lia) ltac:(lia)). pose proof (div_mono_pow_neg x ls k ltac:(lia) ltac:(lia)). lia. }
  assert (B : x / 2 ^ k <= h / 2 ^ ls).
  { destruct (Z.le_gt_cases 0 x).
    - pose proof (Z.div_le_mono x h (2 ^ ls) ltac:(lia) ltac:(lia)). pose proof (div_mono_pow x ls k ltac:(lia) ltac:(lia)). lia.
    - assert (x / 2 ^ k < 0) by (apply Z.div_lt_upper_bound; lia). destruct H1 as [H1| ->]; [pose proof (Z.div_pos h (2 ^ ls) H1 Pl); lia|].
      assert (- (1) <= -1 / 2 ^ ls) by (apply Z.div_le_lower_bound; lia). lia. }
  exists (x / 2 ^ k). replace ((l / 2 ^ ls <=? x / 2 ^ k) && (x / 2 ^ k <=? h / 2 ^ ls)) with true by lia. repeat split; assumption.
Qed.

Lemma shr_fixed v s t : shr_type (fst v) (fst s) = Some t -> in_range v -> in_range s -> flow (fst s) = fhigh (fst s) ->
  exists r, fix_shr v s = Some (t, r) /\ r = snd v / 2 ^ snd s /\ flow t <= r <= fhigh t.
Proof.
  intros T Hv Hs F. destruct v as [[e l h] x]. destruct s as [[es ls hs] k]. unfold in_range in *. cbn [fst snd flow fhigh fshift] in *. assert (k = ls) by lia. subst k. assert (T' := T).
  unfold shr_type in T'. cbn [flow fhigh fshift] in T'. destruct (es =? 0); [|discriminate]. cbn [assert_ bind] in T'. destruct (0 <=? ls) eqn:Q; [|discriminate]. cbn [assert_ bind] in T'.
  peel T'. peel T'. apply shr64_some in E as [-> K]. apply shr64_some in E0 as [-> _]. injection T' as <-.
  rewrite (shr_exact (Fixt e l h, x) (Fixt es ls hs, ls) _ T) by (unfold in_range; cbn [fst snd flow fhigh]; lia). cbn [fst snd flow fhigh].
  pose proof (pow2_pos ls ltac:(lia)). pose proof (Z.div_le_mono l x (2 ^ ls) ltac:(lia) ltac:(lia)). pose proof (Z.div_le_mono x h (2 ^ ls) ltac:(lia) ltac:(lia)).
  exists (x / 2 ^ ls). replace ((l / 2 ^ ls <=? x / 2 ^ ls) && (x / 2 ^ ls <=? h / 2 ^ ls)) with true by lia. repeat split; assumption.
Qed.

(** ** Comparison: always "equal" *)
Lemma fix_compare_zero eA vA eB vB c : fix_compare eA vA eB vB = Some c -> c = 0.
Proof.
  unfold fix_compare. intros H. peel H. injection H as <-. replace (z <? z) with false by lia. replace (z >? z) with false by lia. reflexivity.
Qed.
Lemma fix_compare_ok eA vA eB vB : 0 <= eA - Z.min eA eB < 64 -> - 2 ^ 63 <= vA * 2 ^ (eA - Z.min eA eB) < 2 ^ 63 -> fix_compare eA vA eB vB = Some 0.
Proof.
  intros He Hv. unfold fix_compare, checked_shl. rewrite cmin_min. rewrite shl64_ok by lia. cbn [bind]. rewrite shr64_ok by lia. cbn [bind].
  rewrite Z.div_mul by (pose proof (pow2_pos (eA - Z.min eA eB) ltac:(lia)); lia). rewrite Z.eqb_refl. cbn [assert_ bind].
  remember (vA * 2 ^ (eA - Z.min eA eB)) as z. replace (z <? z) with false by lia. replace (z >? z) with false by lia. reflexivity.
Qed.
(** Where it is right: exactly when the two numbers are equal. *)
Lemma fix_compare_right eA vA eB vB c : fix_compare eA vA eB vB = Some c ->
  (c = Z.sgn (vA * 2 ^ (eA - Z.min eA eB) - vB * 2 ^ (eB - Z.min eA eB)) <-> vA * 2 ^ (eA - Z.min eA eB) = vB * 2 ^ (eB - Z.min eA eB)).
Proof. intros H. apply fix_compare_zero in H as ->. lia. Qed.

(** ** Conversion and select *)
Lemma convert_value t a r : convert_fix t a = Some r -> r = (t, None).
Proof. unfold convert_fix. destruct a as [ta x]. intros H. repeat (peel H). injection H as <-. reflexivity. Qed.
Lemma select_value sel a b r : fix_select sel a b = Some r -> snd r = None.
Proof.
  unfold fix_select. intros H. peel H. peel H. peel H. injection H as <-. apply convert_value in E0, E1. subst p p0. destruct sel; reflexivity.
Qed.
