(** Unions, products and polynomials of fixed-point values, and the numbers they stand for. *)
From Coq Require Import ZArith Bool List Lia QArith Qpower Qfield.
From Verif Require Import Fw FwLemmas SpecFix Fixval FixvalProofs.
Import ListNotations.
Open Scope Z_scope.

Lemma two_nz : ~ ((2 # 1) == 0)%Q.
Proof. discriminate. Qed.
Lemma fixq_scale e k v : 0 <= k -> (fixq e (v * 2 ^ k) == fixq (e + k) v)%Q.
Proof.
  intros Hk. unfold fixq. rewrite inject_Z_mult, Zpower_Qpower by lia. rewrite (Qpower_plus (2 # 1) e k) by apply two_nz. change (inject_Z 2) with (2 # 1)%Q. ring.
Qed.
Lemma fixq_add e a b : (fixq e (a + b) == fixq e a + fixq e b)%Q.
Proof. unfold fixq. rewrite inject_Z_plus. ring. Qed.
Lemma fixq_mul ea eb a b : (fixq (ea + eb) (a * b) == fixq ea a * fixq eb b)%Q.
Proof. unfold fixq. rewrite inject_Z_mult, (Qpower_plus (2 # 1) ea eb) by apply two_nz. ring. Qed.
Definition num (a : fixv) : Q := fixq (fshift (fst a)) (snd a).

Lemma add_num a b t : add_type (fst a) (fst b) = Some t -> in_range a -> in_range b ->
  exists v, fix_add a b = Some (t, v) /\ flow t <= v <= fhigh t /\ (fixq (fshift t) v == fixq (fshift (fst a)) (snd a) + fixq (fshift (fst b)) (snd b))%Q.
Proof.
  intros T Ha Hb. destruct (add_exact a b t T Ha Hb) as [v [E [R [S V]]]]. exists v. split; [exact E|]. split; [exact R|].
  rewrite V, fixq_add, !fixq_scale by lia. replace (fshift t + (fshift (fst a) - fshift t)) with (fshift (fst a)) by lia. replace (fshift t + (fshift (fst b) - fshift t)) with (fshift (fst b)) by lia. reflexivity.
Qed.
Lemma mul_num a b t : mul_type (fst a) (fst b) = Some t -> in_range a -> in_range b ->
  exists v, fix_mul a b = Some (t, v) /\ flow t <= v <= fhigh t /\ (fixq (fshift t) v == fixq (fshift (fst a)) (snd a) * fixq (fshift (fst b)) (snd b))%Q.
Proof.
  intros T Ha Hb. destruct (mul_exact a b t T Ha Hb) as [v [E [R [S V]]]]. exists v. split; [exact E|]. split; [exact R|]. rewrite V, S. apply fixq_mul.
Qed.
Lemma product_cons2 x y r : fix_product (x :: y :: r) = (do p <- fix_product (y :: r); fix_mul x p).
Proof. reflexivity. Qed.
Lemma product_type_cons2 x y r : product_type (x :: y :: r) = (do p <- product_type (y :: r); mul_type x p).
Proof. reflexivity. Qed.
Lemma product_num : forall xs t, product_type (map fst xs) = Some t -> Forall in_range xs ->
  exists v, fix_product xs = Some (t, v) /\ flow t <= v <= fhigh t /\ (fixq (fshift t) v == qprod (map (fun a => fixq (fshift (fst a)) (snd a)) xs))%Q.
Proof.
  induction xs as [|x xs IH]; intros t T F; [discriminate|]. inversion_clear F as [|? ? Hx Hr].
  destruct xs as [|y r].
  - cbn in T. injection T as <-. exists (snd x). split; [destruct x; reflexivity|]. split; [exact Hx|]. cbn [map qprod]. ring.
  - cbn [map] in T. rewrite product_type_cons2 in T. peel T. destruct (IH _ E Hr) as [v [Ev [Rv Qv]]].
    destruct (mul_num x (f, v) t T Hx Rv) as [w [Ew [Rw Qw]]]. exists w. split; [rewrite product_cons2, Ev; exact Ew|]. split; [exact Rw|].
    rewrite Qw. cbn [map qprod] in *. cbn [fst snd]. rewrite Qv. reflexivity.
Qed.
Lemma qpoly_shift x l : forall k, (qpoly x (S k) l == x * qpoly x k l)%Q.
Proof. induction l as [|c l IH]; intros k; cbn [qpoly]; [ring|]. rewrite (IH (S k)). cbn [qpow]. ring. Qed.
Lemma horner_cons2 x c d r : fix_horner x (c :: d :: r) = (do b <- fix_horner x (d :: r); do m <- fix_mul x b; fix_add c m).
Proof. reflexivity. Qed.
Lemma horner_type_cons2 x c d r : horner_type x (c :: d :: r) = (do b <- horner_type x (d :: r); do m <- mul_type x b; add_type c m).
Proof. reflexivity. Qed.
Lemma horner_num x : in_range x -> forall cs t, horner_type (fst x) (map fst cs) = Some t -> Forall in_range cs ->
  exists v, fix_horner x cs = Some (t, v) /\ flow t <= v <= fhigh t /\
    (fixq (fshift t) v == qpoly (fixq (fshift (fst x)) (snd x)) 0 (map (fun a => fixq (fshift (fst a)) (snd a)) cs))%Q.
Proof.
  intros Hx. induction cs as [|c cs IH]; intros t T F; [discriminate|]. inversion_clear F as [|? ? Hc Hr].
  destruct cs as [|d r].
  - cbn in T. injection T as <-. exists (snd c). split; [destruct c; reflexivity|]. split; [exact Hc|]. cbn [map qpoly qpow]. ring.
  - cbn [map] in T. rewrite horner_type_cons2 in T. peel T. peel T. destruct (IH _ E Hr) as [v [Ev [Rv Qv]]].
    destruct (mul_num x (f, v) f0 E0 Hx Rv) as [w [Ew [Rw Qw]]]. destruct (add_num c (f0, w) t T Hc Rw) as [u [Eu [Ru Qu]]].
    exists u. split; [rewrite horner_cons2, Ev; cbn [bind]; rewrite Ew; exact Eu|]. split; [exact Ru|].
    rewrite Qu. cbn [fst snd]. rewrite Qw. cbn [fst snd]. rewrite Qv. change (map (fun a => fixq (fshift (fst a)) (snd a)) (c :: d :: r)) with (fixq (fshift (fst c)) (snd c) :: map (fun a => fixq (fshift (fst a)) (snd a)) (d :: r)).
    remember (map (fun a => fixq (fshift (fst a)) (snd a)) (d :: r)) as l. cbn [qpoly]. rewrite (qpoly_shift _ l 0). cbn [qpow]. ring.
Qed.

(** ** Union *)
Lemma union_contains a b t x : union_type a b = Some t -> fshift t = Z.min (fshift a) (fshift b) /\
  (flow a <= x <= fhigh a -> flow t <= x * 2 ^ (fshift a - fshift t) <= fhigh t) /\
  (flow b <= x <= fhigh b -> flow t <= x * 2 ^ (fshift b - fshift t) <= fhigh t).
Proof.
  destruct a as [ea la ha]. destruct b as [eb lb hb]. unfold union_type. cbn [flow fhigh fshift]. rewrite cmin_min, cmax_max. intros T.
  peel T. peel T. apply i32_some in E, E0. subst z z0. peel T. peel T. apply shl64_some in E as [-> [K1 R1]]. apply shl64_some in E0 as [-> [_ R2]].
  peel T. peel T. apply shl64_some in E as [-> [K2 R3]]. apply shl64_some in E0 as [-> [_ R4]]. rewrite cmin_min, cmax_max in T. injection T as <-. cbn [fshift flow fhigh].
  split; [reflexivity|]. replace (ea - Z.min ea eb) with (Z.max ea eb - eb) by lia. replace (eb - Z.min ea eb) with (Z.max ea eb - ea) by lia.
  split; intros H.
  - pose proof (scale_between la ha x (Z.max ea eb - eb) ltac:(lia) H). lia.
  - pose proof (scale_between lb hb x (Z.max ea eb - ea) ltac:(lia) H). lia.
Qed.

(** ** Failures *)
Lemma shr_fails : exists v s t, shr_type (fst v) (fst s) = Some t /\ in_range v /\ in_range s /\ 0 <= snd s < 64 /\ fix_shr v s = None.
Proof. exists (Fixt 0 8 9, 8), (Fixt 0 0 3, 3), (Fixt 0 8 9). vm_compute. intuition congruence. Qed.
Lemma shr_fails_neg : exists v s t, shr_type (fst v) (fst s) = Some t /\ in_range v /\ in_range s /\ 0 <= snd s < 64 /\ snd v < 0 /\ fix_shr v s = None.
Proof. exists (Fixt 0 (-9) (-8), -8), (Fixt 0 0 3, 3), (Fixt 0 (-9) (-8)). vm_compute. intuition congruence. Qed.
Lemma compare_wrong : exists eA vA eB vB c, fix_compare eA vA eB vB = Some c /\ vA * 2 ^ (eA - Z.min eA eB) < vB * 2 ^ (eB - Z.min eA eB) /\ c <> -1.
Proof. exists 0, 1, 0, 2, 0. vm_compute. intuition congruence. Qed.
Lemma convert_loses : exists t a, convert_fix t a = Some (t, None) /\ in_range a /\ fshift t = fshift (fst a) /\ ~ (flow t <= snd a <= fhigh t).
Proof. exists (Fixt 0 0 1), (Fixt 0 0 100, 100). vm_compute. intuition congruence. Qed.
Lemma checked_shl_ok v k s : checked_shl v k = Some s <-> 0 <= k < 64 /\ - 2 ^ 63 <= v * 2 ^ k < 2 ^ 63 /\ s = v * 2 ^ k.
Proof.
  unfold checked_shl. split.
  - intros H. peel H. apply shl64_some in E as [-> [K R]]. rewrite shr64_ok in H by lia. cbn [bind] in H. peel H. injection H as <-. repeat split; lia.
  - intros [K [R ->]]. rewrite shl64_ok by assumption. cbn [bind]. rewrite shr64_ok by lia. cbn [bind].
    rewrite Z.div_mul by (pose proof (pow2_pos k ltac:(lia)); lia). rewrite Z.eqb_refl. reflexivity.
Qed.
Lemma predicates eA vA eB vB c : fix_compare eA vA eB vB = Some c ->
  fix_lt eA vA eB vB = Some (c <? 0) /\ fix_le eA vA eB vB = Some (c <=? 0) /\ fix_eq eA vA eB vB = Some (c =? 0) /\ fix_ge eA vA eB vB = Some (0 <=? c) /\ fix_gt eA vA eB vB = Some (0 <? c).
Proof. intros H. unfold fix_lt, fix_le, fix_eq, fix_ge, fix_gt. rewrite H. cbn [bind]. rewrite Z.geb_leb, Z.gtb_ltb. repeat split. Qed.
