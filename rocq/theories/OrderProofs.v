(** Rounding preserves order: proofs for C74. *)
From Coq Require Import ZArith Bool Lia Reals Lra.
From Flocq Require Import Core.
From Verif Require Import Fw FwLemmas Spec SpecLemmas SpecFma SpecFlocq SpecReal.
From Verif Require ValueLemmas.
Open Scope Z_scope.

Lemma cmp_rv s m e t n f : cmp_num (sgn s m) e (sgn t n) f = Rcompare (rv (Num s m e)) (rv (Num t n f)).
Proof.
  unfold cmp_num. cbv zeta. remember (Z.min e f) as k. rewrite (sgn_real s m e k), (sgn_real t n f k) by lia. rewrite Rcompare_mult_r by (apply bpow_gt_0). rewrite Rcompare_IZR.
  unfold sgn. f_equal; [destruct s|destruct t]; ring.
Qed.
Lemma rv_pos (s : bool) m e : 0 < m -> if s then (rv (Num s m e) < 0)%R else (0 < rv (Num s m e))%R.
Proof. intros H. assert (0 < IZR m * bpow radix2 e)%R by (apply Rmult_lt_0_compat; [apply IZR_lt; exact H|apply bpow_gt_0]). destruct s; cbn [rv]; lra. Qed.
Lemma vcmp_rv x y : number x -> number y -> vcmp x y = Some (Rcompare (rv x) (rv y)).
Proof.
  intros Hx Hy. destruct x as [| |s|s m e]; try contradiction; destruct y as [| |t|t n f]; try contradiction; cbn [number] in *; cbn [vcmp].
  - cbn [rv]. rewrite Rcompare_Eq; reflexivity.
  - pose proof (rv_pos t n f Hy) as P. change (rv (Zero s)) with 0%R. destruct t; [rewrite Rcompare_Gt by exact P|rewrite Rcompare_Lt by exact P]; reflexivity.
  - pose proof (rv_pos s m e Hx) as P. change (rv (Zero t)) with 0%R. destruct s; [rewrite Rcompare_Lt by exact P|rewrite Rcompare_Gt by exact P]; reflexivity.
  - rewrite cmp_rv. reflexivity.
Qed.
Lemma le_rv x y : number x -> number y -> (le_spec x y = true <-> (rv x <= rv y)%R).
Proof. intros Hx Hy. unfold le_spec. rewrite vcmp_rv by assumption. destruct (Rcompare_spec (rv x) (rv y)); split; intros; try reflexivity; try lra; discriminate. Qed.
(** A value whose significand, if it has one, is positive. *)
Definition okv (x : fval) : Prop := match x with Num _ m _ => 0 < m | _ => True end.
Lemma okv_cases x : okv x -> x = NaN \/ (exists s, x = Inf s) \/ number x.
Proof. destruct x; cbn; intros; eauto. Qed.
Lemma le_inf_r x : x <> NaN -> le_spec x (Inf false) = true.
Proof. destruct x as [|[]| |]; intros H; try reflexivity; congruence. Qed.
Lemma le_inf_l x : x <> NaN -> le_spec (Inf true) x = true.
Proof. destruct x as [|[]| |]; intros H; try reflexivity; congruence. Qed.
Lemma le_refl x : x <> NaN -> okv x -> le_spec x x = true.
Proof. intros N H. destruct (okv_cases x H) as [Q | [[s ->] | Q]]; [contradiction|destruct s; reflexivity|]. apply le_rv; try assumption. apply Rle_refl. Qed.
Lemma le_not_nan x y : le_spec x y = true -> x <> NaN /\ y <> NaN.
Proof. destruct x, y; cbn; intros H; split; congruence. Qed.
Lemma le_from_inf y : le_spec (Inf false) y = true -> y = Inf false.
Proof. destruct y as [|[]|[]|[]]; cbn; intros; try discriminate; reflexivity. Qed.
Lemma le_to_inf x : le_spec x (Inf true) = true -> x = Inf true.
Proof. destruct x as [|[]|[]|[]]; cbn; intros; try discriminate; reflexivity. Qed.
Lemma le_zero t x y : x = Zero t -> (exists s, y = Zero s) -> le_spec x y = true /\ le_spec y x = true.
Proof. intros -> [s ->]. split; reflexivity. Qed.

Section Rnd.
Context (lo hi F : Z) (HF : 0 <= F) (HL : lo <= hi).
Notation rnd := (round_range lo hi F).
Lemma round_mono x y : (x <= y)%R -> (round radix2 (FLX_exp (F + 1)) ZnearestE x <= round radix2 (FLX_exp (F + 1)) ZnearestE y)%R.
Proof. intros H. assert (Prec_gt_0 (F + 1)) by (unfold Prec_gt_0; lia). apply round_le; [apply FLX_exp_valid; assumption|apply valid_rnd_N|exact H]. Qed.
Lemma round_nn x : (0 <= x)%R -> (0 <= round radix2 (FLX_exp (F + 1)) ZnearestE x)%R.
Proof. intros H. rewrite <- (round_0 radix2 (FLX_exp (F + 1)) ZnearestE). apply round_mono. exact H. Qed.
Lemma round_np x : (x <= 0)%R -> (round radix2 (FLX_exp (F + 1)) ZnearestE x <= 0)%R.
Proof. intros H. rewrite <- (round_0 radix2 (FLX_exp (F + 1)) ZnearestE). apply round_mono. exact H. Qed.
(** Rounding a larger real never gives a smaller value. *)
Lemma rounded_mono x y v w : rounded lo hi F x v -> rounded lo hi F y w -> (x <= y)%R -> le_spec v w = true.
Proof.
  intros Hv Hw L. pose proof (round_mono x y L) as RM. unfold rounded in Hv, Hw. cbv zeta in Hv, Hw.
  pose proof (bpow_gt_0 radix2 lo) as B0. pose proof (bpow_le radix2 lo (hi + 1) ltac:(lia)) as B1.
  pose proof (round_nn x) as NX. pose proof (round_np x) as PX. pose proof (round_nn y) as NY. pose proof (round_np y) as PY.
  remember (round radix2 (FLX_exp (F + 1)) ZnearestE x) as rx. remember (round radix2 (FLX_exp (F + 1)) ZnearestE y) as ry.
  assert (SX : (x < 0 \/ 0 <= x)%R) by lra. assert (SY : (y < 0 \/ 0 <= y)%R) by lra.
  assert (AX : (x < 0 /\ rx <= 0 /\ Rabs rx = - rx \/ 0 <= x /\ 0 <= rx /\ Rabs rx = rx)%R).
  { destruct SX as [S | S]; [left; specialize (PX ltac:(lra))|right; specialize (NX ltac:(lra))]; split; try assumption; split; try assumption; [apply Rabs_left1|apply Rabs_pos_eq]; assumption. }
  assert (AY : (y < 0 /\ ry <= 0 /\ Rabs ry = - ry \/ 0 <= y /\ 0 <= ry /\ Rabs ry = ry)%R).
  { destruct SY as [S | S]; [left; specialize (PY ltac:(lra))|right; specialize (NY ltac:(lra))]; split; try assumption; split; try assumption; [apply Rabs_left1|apply Rabs_pos_eq]; assumption. }
  clear NX PX NY PY SX SY Heqrx Heqry.
  assert (K : forall (t : bool) (P : Prop), (t = true <-> P) -> ((t = true /\ P) \/ (t = false /\ ~ P))). { intros t P [H1 H2]. destruct t; [left; auto|right; split; [reflexivity|]; intros p; specialize (H2 p); discriminate]. }
  destruct v as [|s|s|s m e]; [contradiction|..]; destruct w as [|t|t|t n f]; try contradiction.
  - destruct Hv as [S1 H1], Hw as [S2 H2]. destruct (K _ _ S1) as [[-> ?] | [-> ?]], (K _ _ S2) as [[-> ?] | [-> ?]]; try reflexivity. exfalso. lra.
  - destruct Hv as [S1 H1], Hw as [S2 H2]. destruct (K _ _ S1) as [[-> ?] | [-> ?]]; try reflexivity. exfalso. destruct AX as [AX | AX]; destruct AX as (? & ? & E1); destruct AY as [AY | AY]; destruct AY as (? & ? & E2); rewrite E1, E2 in *; lra.
  - destruct Hv as [S1 H1], Hw as [S2 [H2 H3]]. destruct (K _ _ S1) as [[-> ?] | [-> ?]]; try reflexivity. exfalso. destruct AX as [AX | AX]; destruct AX as (? & ? & E1); destruct AY as [AY | AY]; destruct AY as (? & ? & E2); rewrite E1, E2 in *; lra.
  - destruct Hv as [S1 H1], Hw as [S2 H2]. destruct (K _ _ S2) as [[-> ?] | [-> ?]]; try reflexivity. exfalso. destruct AX as [AX | AX]; destruct AX as (? & ? & E1); destruct AY as [AY | AY]; destruct AY as (? & ? & E2); rewrite E1, E2 in *; lra.
  - reflexivity.
  - destruct Hv as [S1 H1], Hw as [S2 [H2 H3]]. destruct (K _ _ S2) as [[-> ?] | [-> ?]]; try reflexivity. exfalso. destruct AX as [AX | AX]; destruct AX as (? & ? & E1); destruct AY as [AY | AY]; destruct AY as (? & ? & E2); rewrite E1, E2 in *; lra.
  - destruct Hv as [S1 [H1 H3]], Hw as [S2 H2]. destruct (K _ _ S2) as [[-> ?] | [-> ?]]; try reflexivity. exfalso. destruct AX as [AX | AX]; destruct AX as (? & ? & E1); destruct AY as [AY | AY]; destruct AY as (? & ? & E2); rewrite E1, E2 in *; lra.
  - destruct Hv as [S1 [H1 H3]], Hw as [S2 H2]. destruct (K _ _ S1) as [[-> ?] | [-> ?]]; try reflexivity. exfalso. destruct AX as [AX | AX]; destruct AX as (? & ? & E1); destruct AY as [AY | AY]; destruct AY as (? & ? & E2); rewrite E1, E2 in *; lra.
  - destruct Hv as [S1 [H1 H3]], Hw as [S2 [H2 H4]]. unfold le_spec. cbn [vcmp]. rewrite cmp_rv, H1, H2. destruct (Rcompare_spec rx ry); try reflexivity. lra.
Qed.

Lemma add_mono x y z : okv x -> okv y -> okv z -> le_spec x y = true -> add_gen rnd x z <> NaN -> add_gen rnd y z <> NaN -> le_spec (add_gen rnd x z) (add_gen rnd y z) = true.
Proof.
  intros Ox Oy Oz L Nx Ny. destruct (le_not_nan x y L) as [Mx My].
  destruct (okv_cases z Oz) as [-> | [[c ->] | Hz]]; [exfalso; apply Nx; destruct x; reflexivity| |].
  - assert (X : forall v, v <> NaN -> add_gen rnd v (Inf c) <> NaN -> add_gen rnd v (Inf c) = Inf c). { intros v Nv. destruct v as [|s| |]; cbn [add_gen]; try congruence. destruct (Bool.eqb s c) eqn:Q; try congruence. apply eqb_prop in Q. congruence. }
    rewrite (X x), (X y) by assumption. destruct c; reflexivity.
  - assert (NI : forall b, add_gen rnd (Inf b) z = Inf b) by (intros b; destruct z; try contradiction; reflexivity).
    destruct (okv_cases x Ox) as [Q | [[a ->] | Hx]]; [contradiction| |].
    { destruct a. { rewrite NI. apply le_inf_l. exact Ny. } rewrite (le_from_inf y L). rewrite NI. reflexivity. }
    destruct (okv_cases y Oy) as [Q | [[b ->] | Hy]]; [contradiction| |].
    { destruct b. { rewrite (le_to_inf x L), NI. reflexivity. } rewrite NI. apply le_inf_r. exact Nx. }
    apply le_rv in L; try assumption. eapply rounded_mono; [apply add_real; assumption|apply add_real; assumption|lra].
Qed.
Lemma convert_mono x y : okv x -> okv y -> le_spec x y = true -> le_spec (convert_gen rnd x) (convert_gen rnd y) = true.
Proof.
  intros Ox Oy L. destruct (le_not_nan x y L) as [Mx My].
  destruct (okv_cases x Ox) as [Q | [[a ->] | Hx]]; [contradiction| |].
  { destruct a; [|rewrite (le_from_inf y L); reflexivity]. change (convert_gen rnd (Inf true)) with (Inf true). apply le_inf_l. destruct (okv_cases y Oy) as [Q | [[b ->] | Hy]]; [contradiction|discriminate|]. pose proof (convert_real lo hi F HF HL y Hy) as P. intros Q. rewrite Q in P. exact P. }
  destruct (okv_cases y Oy) as [Q | [[b ->] | Hy]]; [contradiction| |].
  { destruct b. { rewrite (le_to_inf x L). reflexivity. } change (convert_gen rnd (Inf false)) with (Inf false). apply le_inf_r. pose proof (convert_real lo hi F HF HL x Hx) as P. intros Q. rewrite Q in P. exact P. }
  apply le_rv in L; try assumption. eapply rounded_mono; [apply convert_real; assumption|apply convert_real; assumption|exact L].
Qed.

Lemma neg_neg x : neg_spec (neg_spec x) = x.
Proof. destruct x as [|[]|[]|[]]; reflexivity. Qed.
Lemma neg_nan x : x <> NaN -> neg_spec x <> NaN.
Proof. destruct x; cbn; congruence. Qed.
Lemma neg_okv x : okv x -> okv (neg_spec x).
Proof. destruct x; exact (fun H => H). Qed.
Lemma rnd_neg s n d k : rnd (negb s) n d k = neg_spec (rnd s n d k).
Proof. unfold round_range. destruct (round_pos F n d) as [m e]. unfold finish. destruct (_ <? _); [reflexivity|]. destruct (_ <? _); reflexivity. Qed.
Lemma mul_neg x z : mul_gen rnd x (neg_spec z) = neg_spec (mul_gen rnd x z).
Proof. destruct x as [|s|s|s m e]; destruct z as [|t|t|t n f]; cbn [mul_gen neg_spec]; try reflexivity; rewrite ?negb_xorb_r, <- ?negb_xorb_r; try reflexivity. rewrite <- rnd_neg. reflexivity. Qed.
Lemma div_neg x z : div_gen rnd x (neg_spec z) = neg_spec (div_gen rnd x z).
Proof. destruct x as [|s|s|s m e]; destruct z as [|t|t|t n f]; cbn [div_gen neg_spec]; try reflexivity; rewrite <- ?negb_xorb_r; try reflexivity. rewrite <- rnd_neg. reflexivity. Qed.
Lemma div_neg_l x z : div_gen rnd (neg_spec x) z = neg_spec (div_gen rnd x z).
Proof. destruct x as [|s|s|s m e]; destruct z as [|t|t|t n f]; cbn [div_gen neg_spec]; try reflexivity; rewrite <- ?negb_xorb_l; try reflexivity. rewrite <- rnd_neg. reflexivity. Qed.
Lemma rv_neg x : rv (neg_spec x) = (- rv x)%R.
Proof. destruct x as [| | |[] m e]; cbn [neg_spec rv negb]; ring. Qed.
Lemma le_neg x y : okv x -> okv y -> le_spec x y = true -> le_spec (neg_spec y) (neg_spec x) = true.
Proof.
  intros Ox Oy L. destruct (le_not_nan x y L) as [Mx My].
  destruct (okv_cases x Ox) as [Q | [[a ->] | Hx]]; [contradiction| |].
  { destruct a; [apply le_inf_r; apply neg_nan; exact My|rewrite (le_from_inf y L); reflexivity]. }
  destruct (okv_cases y Oy) as [Q | [[b ->] | Hy]]; [contradiction| |].
  { destruct b; [rewrite (le_to_inf x L); reflexivity|apply le_inf_l; apply neg_nan; exact Mx]. }
  apply le_rv in L; try assumption. apply le_rv; [destruct y; exact Hy|destruct x; exact Hx|]. rewrite !rv_neg. lra.
Qed.
Lemma mul_mono x y z : okv x -> okv y -> okv z -> le_spec (Zero false) z = true -> le_spec x y = true -> mul_gen rnd x z <> NaN -> mul_gen rnd y z <> NaN -> le_spec (mul_gen rnd x z) (mul_gen rnd y z) = true.
Proof.
  intros Ox Oy Oz P L Nx Ny. destruct (le_not_nan x y L) as [Mx My].
  destruct (okv_cases z Oz) as [-> | [[c ->] | Hz]]; [discriminate| |].
  - destruct c; [discriminate|]. destruct x as [|s|s|s m e]; [contradiction| |exfalso; apply Nx; reflexivity|]; destruct y as [|t|t|t n f]; try contradiction; try (exfalso; apply Ny; reflexivity); destruct s; cbn [mul_gen xorb]; try (destruct t; reflexivity); try discriminate; destruct t; try reflexivity; try discriminate.
    unfold le_spec in L. cbn [vcmp] in L. rewrite cmp_rv in L. cbn [okv] in Ox, Oy. pose proof (rv_pos false m e Ox) as P1. pose proof (rv_pos true n f Oy) as P2. cbn beta iota in P1, P2. rewrite Rcompare_Gt in L by lra. discriminate.
  - apply le_rv in P; [|exact I|exact Hz]. cbn [rv] in P.
    assert (IT : forall b, mul_gen rnd (Inf b) z <> NaN -> mul_gen rnd (Inf b) z = Inf b). { intros b N. destruct z as [| |u|u k g]; try contradiction. pose proof (rv_pos u k g Hz). destruct u; [lra|]. cbn [mul_gen]. rewrite xorb_false_r. reflexivity. }
    destruct (okv_cases x Ox) as [Q | [[a ->] | Hx]]; [contradiction| |].
    { rewrite (IT a Nx). destruct a; [apply le_inf_l; exact Ny|]. rewrite (le_from_inf y L) in *. rewrite (IT false Ny). reflexivity. }
    destruct (okv_cases y Oy) as [Q | [[b ->] | Hy]]; [contradiction| |].
    { rewrite (IT b Ny). destruct b; [|apply le_inf_r; exact Nx]. rewrite (le_to_inf x L) in Hx. contradiction. }
    apply le_rv in L; try assumption. eapply rounded_mono; [apply mul_real; assumption|apply mul_real; assumption|]. apply Rmult_le_compat_r; assumption.
Qed.
Lemma mul_anti x y z : okv x -> okv y -> okv z -> le_spec z (Zero false) = true -> le_spec x y = true -> mul_gen rnd x z <> NaN -> mul_gen rnd y z <> NaN -> le_spec (mul_gen rnd y z) (mul_gen rnd x z) = true.
Proof.
  intros Ox Oy Oz P L Nx Ny. apply le_neg in P; [|exact Oz|exact I]. pose proof (mul_neg x (neg_spec z)) as EX. pose proof (mul_neg y (neg_spec z)) as EY. rewrite neg_neg in EX, EY. rewrite EX in Nx |- *. rewrite EY in Ny |- *. clear EX EY.
  assert (NN : forall v, neg_spec v <> NaN -> v <> NaN) by (intros v A B; rewrite B in A; apply A; reflexivity).
  assert (OM : forall v, okv v -> okv (mul_gen rnd v (neg_spec z))).
  { intros v Ov. destruct (okv_cases v Ov) as [-> | [[a ->] | Hv]]; [exact I|destruct (neg_spec z); try exact I; destruct z; exact I|]. destruct (okv_cases _ (neg_okv z Oz)) as [Q | [[c Q] | Hz]]; [rewrite Q; destruct v; exact I|rewrite Q; destruct v; exact I|].
    destruct v as [| |s|s m e]; try contradiction; destruct (neg_spec z) as [| |t|t n f]; try contradiction; try exact I. cbn [number] in *. cbn [mul_gen]. pose proof (round_range_flocq lo hi F (xorb s t) (m * n) 1 (e + f) HF HL ltac:(nia) ltac:(lia)) as R. cbv zeta in R. destruct (rnd _ _ _ _); try exact I. cbn [okv]. pose proof (pow2_pos F HF). lia. }
  apply le_neg; [apply OM; exact Ox|apply OM; exact Oy|]. apply mul_mono; try assumption; [apply neg_okv; exact Oz|apply NN; exact Nx|apply NN; exact Ny].
Qed.
Lemma pos_cases z : okv z -> lt_spec (Zero false) z = true -> z = Inf false \/ number z /\ (0 < rv z)%R.
Proof.
  intros O P. destruct (okv_cases z O) as [-> | [[c ->] | Hz]]; [discriminate|destruct c; [discriminate|left; reflexivity]|]. right. split; [exact Hz|]. unfold lt_spec in P. rewrite vcmp_rv in P by (try exact I; exact Hz). change (rv (Zero false)) with 0%R in P. destruct (Rcompare_spec 0 (rv z)); try discriminate. assumption.
Qed.
Lemma div_mono x y z : okv x -> okv y -> okv z -> lt_spec (Zero false) z = true -> le_spec x y = true -> div_gen rnd x z <> NaN -> div_gen rnd y z <> NaN -> le_spec (div_gen rnd x z) (div_gen rnd y z) = true.
Proof.
  intros Ox Oy Oz P L Nx Ny. destruct (le_not_nan x y L) as [Mx My].
  destruct (pos_cases z Oz P) as [-> | [Hz Z]].
  - destruct x as [|s|s|s m e]; [contradiction|exfalso; apply Nx; reflexivity|..]; destruct y as [|t|t|t n f]; try contradiction; try (exfalso; apply Ny; reflexivity); reflexivity.
  - assert (IT : forall b, div_gen rnd (Inf b) z = Inf b). { intros b. destruct z as [| |u|u k g]; try contradiction; [cbn [rv] in Z; lra|]. pose proof (rv_pos u k g Hz). destruct u; [lra|]. cbn [div_gen]. rewrite xorb_false_r. reflexivity. }
    destruct (okv_cases x Ox) as [Q | [[a ->] | Hx]]; [contradiction| |].
    { rewrite (IT a). destruct a; [apply le_inf_l; exact Ny|]. rewrite (le_from_inf y L) in *. rewrite (IT false). reflexivity. }
    destruct (okv_cases y Oy) as [Q | [[b ->] | Hy]]; [contradiction| |].
    { rewrite (IT b). destruct b; [|apply le_inf_r; exact Nx]. rewrite (le_to_inf x L) in Hx. contradiction. }
    apply le_rv in L; try assumption. eapply rounded_mono; [apply div_real; try assumption; lra|apply div_real; try assumption; lra|]. apply Rmult_le_compat_r; [|assumption]. apply Rlt_le, Rinv_0_lt_compat. exact Z.
Qed.
(** Dividing a nonnegative number by a larger positive number gives no larger quotient. *)
Lemma div_anti_r x y z : okv x -> okv y -> okv z -> le_spec (Zero false) z = true -> lt_spec (Zero false) x = true -> le_spec x y = true -> div_gen rnd z x <> NaN -> div_gen rnd z y <> NaN -> le_spec (div_gen rnd z y) (div_gen rnd z x) = true.
Proof.
  intros Ox Oy Oz P X L Nx Ny. destruct (le_not_nan x y L) as [Mx My].
  destruct (okv_cases z Oz) as [-> | [[c ->] | Hz]]; [discriminate| |].
  - destruct c; [discriminate|]. destruct (pos_cases x Ox X) as [-> | [Hx Z]]; [exfalso; apply Nx; reflexivity|]. destruct x as [| |s|s m e]; try contradiction; [cbn [rv] in Z; lra|]. pose proof (rv_pos s m e Hx). destruct s; [lra|]. apply le_inf_r. exact Ny.
  - apply le_rv in P; [|exact I|exact Hz]. cbn [rv] in P. destruct (pos_cases x Ox X) as [-> | [Hx Z]].
    { rewrite (le_from_inf y L). destruct z; try contradiction; reflexivity. }
    destruct (okv_cases y Oy) as [Q | [[b ->] | Hy]]; [contradiction| |].
    { destruct b; [rewrite (le_to_inf x L) in Hx; contradiction|].
      assert (D : exists t, div_gen rnd z (Inf false) = Zero t) by (destruct z; try contradiction; eexists; reflexivity). destruct D as [t ->].
      pose proof (div_real lo hi F HF HL z x Hz Hx ltac:(lra)) as R. apply (rounded_mono 0 (rv z / rv x) (Zero t)); [apply rounded_zero; reflexivity|exact R|]. apply Rmult_le_pos; [exact P|]. apply Rlt_le, Rinv_0_lt_compat. exact Z. }
    apply le_rv in L; try assumption. eapply rounded_mono; [apply div_real; try assumption; lra|apply div_real; try assumption; lra|]. apply Rmult_le_compat_l; [exact P|]. apply Rinv_le; lra.
Qed.
End Rnd.
