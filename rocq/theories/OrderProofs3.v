(** The operators preserve order: proofs for C74, continued. *)
From Coq Require Import ZArith Bool Lia Reals Lra.
From Flocq Require Import Core.
From Verif Require Import Fw FwLemmas Spec SpecLemmas TestsProofs4 SpecFma SpecFlocq SpecReal SpecOrder Flopoco CompareProofs FlopocoProofs ConvertProofs AddDual AddDualProofs AddDualProofs5 AddSingle AddSingleProofs3 AddSingleProofs4 Fma FmaProofs FmaProofs4 Ieee IeeeProofs IeeeProofs2 RealProofs PolicyProofs PolicyProofs2 OrderProofs OrderSingle OrderProofs2.
From Verif Require ValueLemmas.
Open Scope Z_scope.

(** ** The single-path adder. *)
Lemma cmp_pow m e p : cmp_num m e 1 p = Rcompare (rv (Num false m e)) (bpow radix2 p).
Proof. pose proof (cmp_rv false m e false 1 p) as H. cbn [sgn] in H. rewrite H. f_equal. cbn [rv]. ring. Qed.
Lemma ab_num F p x z : number x -> number z -> ab F p (rv x) (rv z) -> absorbed F x z.
Proof.
  intros Hx Hz [A [B C]]. pose proof (bpow_gt_0 radix2 p). pose proof (bpow_gt_0 radix2 (p - F - 2)).
  destruct x as [| |s|s m e]; try contradiction; [cbn [rv] in A; lra|]. destruct z as [| |t|t n f]; try contradiction; [cbn [rv] in C; lra|].
  pose proof (rv_pos s m e Hx). pose proof (rv_pos t n f Hz). destruct s; [lra|]. destruct t; [|lra].
  exists false, m, e, n, f, p. split; [reflexivity|]. split; [reflexivity|]. rewrite !cmp_pow. cbn [rv] in *. split; [apply Rcompare_Eq; exact A|]. split; [apply Rcompare_Gt; lra|apply Rcompare_Lt; lra].
Qed.
Lemma ab_num_neg F p x z : number x -> number z -> ab F p (- rv x) (- rv z) -> absorbed F x z.
Proof.
  intros Hx Hz A. rewrite <- !rv_neg in A. assert (Hx' : number (neg_spec x)) by (destruct x; exact Hx). assert (Hz' : number (neg_spec z)) by (destruct z; exact Hz). destruct (ab_num F p _ _ Hx' Hz' A) as (s & m & e & n & f & q & E1 & E2 & C).
  exists (negb s), m, e, n, f, q. rewrite <- (neg_neg x), <- (neg_neg z), E1, E2. split; [reflexivity|]. split; [reflexivity|exact C].
Qed.
Lemma absorbed_ab F x z : absorbed F x z -> exists p, ab F p (rv x) (rv z) /\ rv x = bpow radix2 p \/ ab F p (- rv x) (- rv z) /\ rv x = (- bpow radix2 p)%R.
Proof.
  intros (s & m & e & n & f & p & -> & -> & C1 & C2 & C3). exists p. rewrite cmp_pow in C1, C2, C3. cbn [rv] in C1, C2, C3.
  apply Rcompare_Eq_inv in C1. apply Rcompare_Gt_inv in C2. apply Rcompare_Lt_inv in C3.
  destruct s; [right|left]; cbn [rv negb]; (split; [split|]); try lra.
Qed.
Lemma veq_rv x y : veq x y -> rv x = rv y.
Proof.
  destruct x as [|s|s|s m e], y as [|t|t|t n f]; cbn [veq]; intros H; try contradiction; try reflexivity. destruct H as [-> C].
  pose proof (cmp_rv false m e false n f) as Q. cbn [sgn] in Q. rewrite C in Q. symmetry in Q. apply Rcompare_Eq_inv in Q. cbn [rv] in *. destruct t; lra.
Qed.
Lemma dec_fmt E F G x : 1 <= E -> 1 <= F <= G -> fmt G (rv (decode E F x)).
Proof.
  intros HE HF. unfold fmt. destruct (decode E F x) as [| | |s m e] eqn:D; cbn [rv]; try apply generic_format_0.
  destruct (dec_num E F x s m e HE ltac:(lia) D) as [M _]. assert (X : generic_format radix2 (FLX_exp (G + 1)) (IZR m * bpow radix2 e)).
  { apply generic_format_FLX. exists (Float radix2 m e); [reflexivity|]. cbn [Fnum]. change (Zpower radix2 (G + 1)) with (2 ^ (G + 1)). pose proof (pow2_le (F + 1) (G + 1) ltac:(lia)). pose proof (pow2_pos F ltac:(lia)). lia. }
  destruct s; [apply generic_format_opp|]; exact X.
Qed.
Lemma dec_clamp E F r : 1 <= E -> 1 <= F -> (exists s m e, decode E F r = Num s m e) -> clamp (emin E) (emax E) (rv (decode E F r)) (decode E F r).
Proof.
  intros HE HF (s & m & e & D). rewrite D. destruct (dec_num E F r s m e HE HF D) as [[M1 M2] [L1 L2]]. unfold clamp. split; [reflexivity|].
  assert (X : Rabs (rv (Num s m e)) = (IZR m * bpow radix2 e)%R). { pose proof (bpow_gt_0 radix2 e). pose proof (pow2_pos F ltac:(lia)). assert (0 < IZR m)%R by (apply IZR_lt; lia). assert (0 < IZR m * bpow radix2 e)%R by (apply Rmult_lt_0_compat; assumption). rewrite rv_sgn. destruct s; cbn [sgnR]; rewrite ?Rabs_Ropp; apply Rabs_pos_eq; lra. }
  rewrite X. split.
  + apply Rle_trans with (bpow radix2 (F + e)); [apply bpow_le; lia|]. rewrite bpow_plus. apply Rmult_le_compat_r; [apply bpow_ge_0|]. rewrite <- pow_bpow by lia. apply IZR_le. exact M1.
  + apply Rlt_le_trans with (bpow radix2 (F + 1 + e)); [|apply bpow_le; lia]. rewrite (bpow_plus radix2 (F + 1) e). apply Rmult_lt_compat_r; [apply bpow_gt_0|]. rewrite <- pow_bpow by lia. apply IZR_lt. exact M2.
Qed.
Definition single_ok (E F : Z) : Prop := F + 3 < 2 ^ E /\ 2 ^ E <> 2 * (F + 3) /\ 2 * F + 4 < 2 ^ 31.
Lemma num_pos x : number x -> pos_m x.
Proof. destruct x; cbn; tauto. Qed.
Lemma abs_num F a b : 0 <= F -> okv a -> okv b -> absorbed F a b -> number a /\ number b.
Proof. intros HF Oa Ob (s & m & e & n & f & p & -> & -> & _). split; assumption. Qed.
Lemma single_res E F vx vz r : 1 <= E -> 1 <= F -> number vx -> number vz -> 2 * (F + 3) < 2 ^ E -> (~ absorbed F vx vz /\ ~ absorbed F vz vx -> decode E F r = add_spec E F vx vz) ->
  (absorbed F vx vz -> veq (decode E F r) vx) -> (absorbed F vz vx -> veq (decode E F r) vz) -> exists q, res F (rv vx) (rv vz) q /\ clamp (emin E) (emax E) q (decode E F r).
Proof.
  intros HE HF Hx Hz W R1 R2 R3. assert (ISN : forall a b, absorbed F a b -> veq (decode E F r) a -> exists s m e, decode E F r = Num s m e). { intros a b (s & m & e & n & f & p & -> & _) V. destruct (decode E F r); try contradiction. eauto. }
  destruct (absorbed_dec' F vx vz (num_pos _ Hx) (num_pos _ Hz)) as [A | NA].
  - specialize (R2 A). exists (rv (decode E F r)). split; [|apply dec_clamp; try assumption; eapply ISN; eassumption]. rewrite (veq_rv _ _ R2). destruct (absorbed_ab F _ _ A) as [p [[B Q] | [B Q]]]; [left|right; left]; exists p; split; auto.
  - destruct (absorbed_dec' F vz vx (num_pos _ Hz) (num_pos _ Hx)) as [A | NB].
    + specialize (R3 A). exists (rv (decode E F r)). split; [|apply dec_clamp; try assumption; eapply ISN; eassumption]. rewrite (veq_rv _ _ R3). destruct (absorbed_ab F _ _ A) as [p [[B Q] | [B Q]]]; [left|right; left]; exists p; split; auto.
    + exists (round radix2 (FLX_exp (F + 1)) ZnearestE (rv vx + rv vz)). split.
      * right; right. split; [|reflexivity]. intros p. repeat split; intros A; [apply NA; eapply ab_num|apply NB; eapply ab_num|apply NA; eapply ab_num_neg|apply NB; eapply ab_num_neg]; eassumption.
      * rewrite (R1 (conj NA NB)). apply rounded_clamp; [lia|]. apply add_real; try assumption; [lia|]. apply or_em. exact HE.
Qed.
Lemma o_add_single EX FX EZ FZ x y z : let E := Z.max EX EZ in let F := Z.max FX FZ in 1 <= EX -> 1 <= FX -> 1 <= EZ -> 1 <= FZ -> F + 3 < 2 ^ E -> 2 ^ E <> 2 * (F + 3) -> 2 * F + 4 < 2 ^ 31 ->
  wf (EX + FX + 3) x -> wf (EX + FX + 3) y -> wf (EZ + FZ + 3) z -> le_spec (decode EX FX x) (decode EX FX y) = true ->
  exists r s, add_single E F EX FX EZ FZ x z = Some r /\ add_single E F EX FX EZ FZ y z = Some s /\ (decode E F r <> NaN -> decode E F s <> NaN -> not_above E F r s).
Proof.
  intros E F H1 H2 H3 H4 W1 W2 W3 Wx Wy Wz L. destruct (add_single_char EX FX EZ FZ x z H1 H2 H3 H4 W1 W2 W3 Wx Wz) as [r [Ar [Wr [R1 [R2 R3]]]]]. destruct (add_single_char EX FX EZ FZ y z H1 H2 H3 H4 W1 W2 W3 Wy Wz) as [s [As [Ws [S1 [S2 S3]]]]].
  exists r, s. split; [exact Ar|]. split; [exact As|]. intros Nr Ns. fold E F in Wr, Ws, R1, R2, R3, S1, S2, S3. assert (1 <= E /\ 1 <= F) as [HE HF] by (unfold E, F; lia). assert (FX <= F) as HFX by (unfold F; lia). assert (HF0 : 0 <= F) by lia. clear Ar As. apply order_up; try assumption.
  pose proof (dec_okv EX FX x H2) as Ox. pose proof (dec_okv EX FX y H2) as Oy. pose proof (dec_okv EZ FZ z H4) as Oz. pose proof (or_em E HE) as EM.
  pose proof (dec_fmt EX FX F x H1 ltac:(lia)) as Gx. pose proof (dec_fmt EX FX F y H1 ltac:(lia)) as Gy.
  set (vx := decode EX FX x) in *. set (vy := decode EX FX y) in *. set (vz := decode EZ FZ z) in *. clearbody vx vy vz. clearbody E F. clear Wx Wy Wz x y z.
  assert (G : 2 ^ E < 2 * (F + 3) \/ 2 * (F + 3) < 2 ^ E) by lia. destruct G as [G | G].
  - specialize (R1 (or_introl G)). specialize (S1 (or_introl G)). rewrite R1, S1 in *. apply add_mono; assumption.
  - assert (RA : forall v t, okv v -> (~ number v \/ ~ number vz) -> (2 ^ E < 2 * (F + 3) \/ ~ absorbed F v vz /\ ~ absorbed F vz v -> decode E F t = add_spec E F v vz) -> decode E F t = add_spec E F v vz).
    { intros v t Ov N K. apply K. right. split; intros A; apply abs_num in A; try assumption; tauto. }
    assert (ND : forall v, number v \/ ~ number v) by (intros v; destruct v; cbn; try tauto; lia).
    destruct (ND vz) as [Hz | Hz].
    2: { pose proof (RA vx r Ox (or_intror Hz) R1) as Q1. pose proof (RA vy s Oy (or_intror Hz) S1) as Q2. rewrite Q1, Q2 in *. apply add_mono; assumption. }
    destruct (le_not_nan _ _ L) as [Mx My].
    assert (NI : forall b, add_spec E F (Inf b) vz = Inf b) by (intros b; destruct vz; try contradiction; reflexivity).
    destruct (okv_cases vx Ox) as [Q | [[a ->] | Hx]]; [contradiction| |].
    { rewrite (RA (Inf a) r Ox (or_introl (fun h => h)) R1), NI. destruct a; [apply le_inf_l; exact Ns|]. rewrite (le_from_inf vy L) in *. rewrite (RA (Inf false) s Oy (or_introl (fun h => h)) S1), NI. reflexivity. }
    destruct (okv_cases vy Oy) as [Q | [[b ->] | Hy]]; [contradiction| |].
    { rewrite (RA (Inf b) s Oy (or_introl (fun h => h)) S1), NI. destruct b; [rewrite (le_to_inf vx L) in Hx; contradiction|]. apply le_inf_r. exact Nr. }
    apply le_rv in L; try assumption.
    destruct (single_res E F vx vz r HE HF Hx Hz G (fun h => R1 (or_intror h)) (R2 G) (R3 G)) as [p [P1 P2]].
    destruct (single_res E F vy vz s HE HF Hy Hz G (fun h => S1 (or_intror h)) (S2 G) (S3 G)) as [q [Q1 Q2]].
    apply (clamp_mono (emin E) (emax E) EM p q); [exact P2|exact Q2|eapply res_mono; [exact HF0|exact Gx|exact Gy|exact P1|exact Q1|exact L]|..]; intros t m e D.
    + pose proof (dec_okv E F r HF) as O. rewrite D in O. exact O.
    + pose proof (dec_okv E F s HF) as O. rewrite D in O. exact O.
Qed.
(** ** promote, nextup, fma, and the IEEE operators. *)
Lemma le_veq x x' y y' : veq x x' -> veq y y' -> le_spec x y = le_spec x' y'.
Proof. intros A B. unfold le_spec. rewrite (vcmp_veq x x' y y' A B). reflexivity. Qed.
Lemma o_promote DE DF SE SF x y : 1 <= SE <= DE -> 1 <= SF <= DF -> wf (SE + SF + 3) x -> wf (SE + SF + 3) y ->
  exists r s, promote DE DF SE SF x = Some r /\ promote DE DF SE SF y = Some s /\ le_spec (decode DE DF r) (decode DE DF s) = le_spec (decode SE SF x) (decode SE SF y).
Proof.
  intros H1 H2 Wx Wy. destruct (promote_correct DE DF SE SF x H1 H2 Wx) as [r [Ar [Wr Vr]]]. destruct (promote_correct DE DF SE SF y H1 H2 Wy) as [s [As [Ws Vs]]]. exists r, s. split; [exact Ar|]. split; [exact As|]. apply le_veq; assumption.
Qed.
Lemma lt_rv x y : number x -> number y -> (vcmp x y = Some Lt <-> (rv x < rv y)%R).
Proof. intros Hx Hy. rewrite vcmp_rv by assumption. destruct (Rcompare_spec (rv x) (rv y)); split; intros; try reflexivity; try lra; discriminate. Qed.
Lemma not_le x y : okv x -> okv y -> x <> NaN -> y <> NaN -> le_spec x y = false -> vcmp y x = Some Lt.
Proof. intros Ox Oy Nx Ny L. rewrite vcmp_swap. unfold le_spec in L. destruct (vcmp x y) as [[]|] eqn:C; try discriminate; [reflexivity|]. destruct x, y; try discriminate; congruence. Qed.
Lemma below_le x y z : okv x -> okv y -> okv z -> ~ (x = Zero false /\ y = Zero true) -> le_spec x y = true -> below y z -> below x z.
Proof.
  intros Ox Oy Oz N L B. destruct (le_not_nan _ _ L) as [Mx My].
  destruct (okv_cases x Ox) as [Q | [[a ->] | Hx]]; [contradiction| |].
  - destruct a; [|rewrite (le_from_inf y L) in B; exact B]. left. destruct B as [B | [_ ->]]; [|reflexivity]. destruct z as [|[]| |]; try reflexivity; destruct y as [|[]|[]|[]]; discriminate.
  - destruct (okv_cases y Oy) as [Q | [[b ->] | Hy]]; [contradiction| |].
    { destruct b; [rewrite (le_to_inf x L) in Hx; contradiction|]. exfalso. destruct B as [B | [B _]]; [|discriminate]. destruct z as [|[]|[]|[]]; discriminate. }
    assert (ZN : z <> NaN). { intros ->. destruct B as [B | [_ B]]; [destruct y; try contradiction; discriminate|discriminate]. }
    destruct (okv_cases z Oz) as [Q | [[b ->] | Hz]]; [contradiction| |].
    { destruct b; [exfalso; destruct B as [B | [_ B]]; [destruct y; try contradiction; discriminate|discriminate]|]. left. destruct x; try contradiction; reflexivity. }
    apply le_rv in L; try assumption. destruct B as [B | [-> ->]].
    + left. apply lt_rv; try assumption. apply lt_rv in B; try assumption. lra.
    + change (rv (Zero true)) with 0%R in L. destruct x as [| |s|s m e]; try contradiction.
      * destruct s; [right; split; reflexivity|exfalso; apply N; split; reflexivity].
      * left. apply lt_rv; try assumption. change (rv (Zero false)) with 0%R. pose proof (rv_pos s m e Hx). destruct s; lra.
Qed.
Lemma o_nextup E F x y : 1 <= E -> 1 <= F -> wf (E + F + 3) x -> wf (E + F + 3) y -> ~ (decode E F x = Zero false /\ decode E F y = Zero true) -> le_spec (decode E F x) (decode E F y) = true -> not_above E F (nextup E F x) (nextup E F y).
Proof.
  intros HE HF Wx Wy N L. destruct (nextup_correct E F x HE HF Wx) as [Wr [_ [Ix Bx]]]. destruct (nextup_correct E F y HE HF Wy) as [Ws [_ [Iy By]]]. apply order_up; try assumption.
  destruct (le_not_nan _ _ L) as [Mx My]. pose proof (dec_okv E F x HF) as Ox. pose proof (dec_okv E F y HF) as Oy. pose proof (dec_okv E F (nextup E F x) HF) as Onx. pose proof (dec_okv E F (nextup E F y) HF) as Ony.
  assert (BN : forall a b, below a b -> b <> NaN). { intros a b B ->. exact (below_nan_r a B). }
  assert (IX : decode E F x = Inf false \/ decode E F x <> Inf false) by (destruct (decode E F x) as [|[]| |]; try (left; reflexivity); right; discriminate).
  assert (IY : decode E F y = Inf false \/ decode E F y <> Inf false) by (destruct (decode E F y) as [|[]| |]; try (left; reflexivity); right; discriminate).
  destruct IX as [IX | IX]. { rewrite IX in L. rewrite (Ix IX), (Iy (le_from_inf _ L)). reflexivity. }
  destruct (Bx Mx IX) as [B1 B2]. destruct IY as [IY | IY]. { rewrite (Iy IY). apply le_inf_r. eapply BN. exact B1. }
  destruct (By My IY) as [C1 _]. destruct (le_spec (decode E F (nextup E F x)) (decode E F (nextup E F y))) eqn:Q; [reflexivity|]. exfalso. apply (B2 (nextup E F y) Ws). split.
  - eapply below_le; [exact Ox|exact Oy|exact Ony|exact N|exact L|exact C1].
  - left. apply not_le; try assumption; eapply BN; eassumption.
Qed.
Lemma prod_okv x y : okv x -> okv y -> okv (prod_exact x y).
Proof. intros Ox Oy. destruct x, y; try exact I. cbn in *. nia. Qed.
Lemma prod_mono x y z : okv x -> okv y -> okv z -> le_spec (Zero false) z = true -> le_spec x y = true -> prod_exact x z <> NaN -> prod_exact y z <> NaN -> le_spec (prod_exact x z) (prod_exact y z) = true.
Proof.
  intros Ox Oy Oz P L Nx Ny. destruct (le_not_nan x y L) as [Mx My].
  destruct (okv_cases z Oz) as [-> | [[c ->] | Hz]]; [discriminate| |].
  - destruct c; [discriminate|]. destruct x as [|s|s|s m e]; [contradiction| |exfalso; apply Nx; reflexivity|]; destruct y as [|t|t|t n f]; try contradiction; try (exfalso; apply Ny; reflexivity); unfold prod_exact; destruct s; cbn [mul_gen xorb]; try (destruct t; reflexivity); try discriminate; destruct t; try reflexivity; try discriminate.
    unfold le_spec in L. cbn [vcmp] in L. rewrite cmp_rv in L. cbn [okv] in Ox, Oy. pose proof (rv_pos false m e Ox) as P1. pose proof (rv_pos true n f Oy) as P2. cbn beta iota in P1, P2. rewrite Rcompare_Gt in L by lra. discriminate.
  - apply le_rv in P; [|exact I|exact Hz]. cbn [rv] in P.
    assert (IT : forall b, prod_exact (Inf b) z <> NaN -> prod_exact (Inf b) z = Inf b). { intros b N. destruct z as [| |u|u k g]; try contradiction. pose proof (rv_pos u k g Hz). destruct u; [lra|]. unfold prod_exact. cbn [mul_gen]. rewrite xorb_false_r. reflexivity. }
    destruct (okv_cases x Ox) as [Q | [[a ->] | Hx]]; [contradiction| |].
    { rewrite (IT a Nx). destruct a; [apply le_inf_l; exact Ny|]. rewrite (le_from_inf y L) in *. rewrite (IT false Ny). reflexivity. }
    destruct (okv_cases y Oy) as [Q | [[b ->] | Hy]]; [contradiction| |].
    { rewrite (IT b Ny). destruct b; [|apply le_inf_r; exact Nx]. rewrite (le_to_inf x L) in Hx. contradiction. }
    apply le_rv in L; try assumption. destruct (prod_number x z Hx Hz) as [A1 A2]. destruct (prod_number y z Hy Hz) as [B1 B2]. apply le_rv; try assumption. rewrite A2, B2. apply Rmult_le_compat_r; assumption.
Qed.
Lemma add_okv lo hi F x y : 0 <= F -> lo <= hi -> okv x -> okv y -> okv (add_gen (round_range lo hi F) x y).
Proof.
  intros HF HL Ox Oy. assert (RO : forall s n d k, 0 < n -> 0 < d -> okv (round_range lo hi F s n d k)).
  { intros s n d k Hn Hd. pose proof (round_range_flocq lo hi F s n d k HF HL Hn Hd) as R. cbv zeta in R. destruct (round_range lo hi F s n d k); try exact I. cbn [okv]. pose proof (pow2_pos F HF). lia. }
  destruct x as [|s|s|s m e], y as [|t|t|t n f]; cbn [add_gen]; try exact I; try (destruct (Bool.eqb s t); exact I); try (apply RO; [assumption|lia]). cbv zeta. destruct (_ =? 0) eqn:Q; [exact I|]. apply RO; lia.
Qed.
Lemma conv_nan rnd x : convert_gen rnd x <> NaN -> x <> NaN.
Proof. intros H ->. apply H. reflexivity. Qed.
Lemma o_fma_addend wER wFR wEX wFX wEY wFY wEZ wFZ x y z w :
  1 <= wER -> 1 <= wFR -> 1 <= wEX -> 1 <= wFX -> 1 <= wEY -> 1 <= wFY -> 1 <= wEZ -> 1 <= wFZ ->
  let E := Z.max (Z.max wEX wEY + 2) (wEZ + 1) in let F := Z.max (wFX + wFY + 2) wFZ in
  dual_ok_width E F -> wER <> E \/ F <= wFR -> wf (wEX + wFX + 3) x -> wf (wEY + wFY + 3) y -> wf (wEZ + wFZ + 3) z -> wf (wEZ + wFZ + 3) w -> le_spec (decode wEZ wFZ z) (decode wEZ wFZ w) = true ->
  exists r s, fma wER wFR wEX wFX wEY wFY wEZ wFZ x y z = Some r /\ fma wER wFR wEX wFX wEY wFY wEZ wFZ x y w = Some s /\ (decode wER wFR r <> NaN -> decode wER wFR s <> NaN -> not_above wER wFR r s).
Proof.
  intros H1 H2 H3 H4 H5 H6 H7 H8 E F OK D Wx Wy Wz Ww L. destruct (fma_two_roundings wER wFR wEX wFX wEY wFY wEZ wFZ x y z H1 H2 H3 H4 H5 H6 H7 H8 OK D Wx Wy Wz) as [r [Ar [Wr Dr]]]. destruct (fma_two_roundings wER wFR wEX wFX wEY wFY wEZ wFZ x y w H1 H2 H3 H4 H5 H6 H7 H8 OK D Wx Wy Ww) as [s [As [Ws Ds]]].
  exists r, s. split; [exact Ar|]. split; [exact As|]. intros Nr Ns. fold E F in Dr, Ds. clear Ar As. assert (1 <= E /\ 1 <= F) as [HE HF] by (unfold E, F; lia). clearbody E F. pose proof (or_em wER H1) as EM. pose proof (or_em E HE) as EM2. apply order_up; try assumption. rewrite Dr, Ds in *. apply conv_nan in Nr. apply conv_nan in Ns.
  assert (OP : okv (prod_exact (decode wEX wFX x) (decode wEY wFY y))) by (apply prod_okv; apply dec_okv; assumption). pose proof (dec_okv wEZ wFZ z H8) as Oz. pose proof (dec_okv wEZ wFZ w H8) as Ow.
  apply convert_mono; try assumption; try lia; try (apply add_okv; try assumption; lia). unfold add_spec in *. rewrite (ValueLemmas.add_gen_comm _ (prod_exact _ _) (decode wEZ wFZ z)) in *. rewrite (ValueLemmas.add_gen_comm _ (prod_exact _ _) (decode wEZ wFZ w)) in *. apply add_mono; try assumption; lia.
Qed.
Lemma o_fma_factor wER wFR wEX wFX wEY wFY wEZ wFZ x y z w :
  1 <= wER -> 1 <= wFR -> 1 <= wEX -> 1 <= wFX -> 1 <= wEY -> 1 <= wFY -> 1 <= wEZ -> 1 <= wFZ ->
  let E := Z.max (Z.max wEX wEY + 2) (wEZ + 1) in let F := Z.max (wFX + wFY + 2) wFZ in
  dual_ok_width E F -> wER <> E \/ F <= wFR -> wf (wEX + wFX + 3) x -> wf (wEX + wFX + 3) w -> wf (wEY + wFY + 3) y -> wf (wEZ + wFZ + 3) z -> le_spec (Zero false) (decode wEY wFY y) = true -> le_spec (decode wEX wFX x) (decode wEX wFX w) = true ->
  exists r s, fma wER wFR wEX wFX wEY wFY wEZ wFZ x y z = Some r /\ fma wER wFR wEX wFX wEY wFY wEZ wFZ w y z = Some s /\ (decode wER wFR r <> NaN -> decode wER wFR s <> NaN -> not_above wER wFR r s).
Proof.
  intros H1 H2 H3 H4 H5 H6 H7 H8 E F OK D Wx Ww Wy Wz P L. destruct (fma_two_roundings wER wFR wEX wFX wEY wFY wEZ wFZ x y z H1 H2 H3 H4 H5 H6 H7 H8 OK D Wx Wy Wz) as [r [Ar [Wr Dr]]]. destruct (fma_two_roundings wER wFR wEX wFX wEY wFY wEZ wFZ w y z H1 H2 H3 H4 H5 H6 H7 H8 OK D Ww Wy Wz) as [s [As [Ws Ds]]].
  exists r, s. split; [exact Ar|]. split; [exact As|]. intros Nr Ns. fold E F in Dr, Ds. clear Ar As. assert (1 <= E /\ 1 <= F) as [HE HF] by (unfold E, F; lia). clearbody E F. pose proof (or_em wER H1) as EM. pose proof (or_em E HE) as EM2. apply order_up; try assumption. rewrite Dr, Ds in *. apply conv_nan in Nr. apply conv_nan in Ns.
  pose proof (dec_okv wEX wFX x H4) as Ox. pose proof (dec_okv wEX wFX w H4) as Ow. pose proof (dec_okv wEY wFY y H6) as Oy. pose proof (dec_okv wEZ wFZ z H8) as Oz.
  assert (NP : forall a b rnd, add_gen rnd a b <> NaN -> a <> NaN) by (intros a b rnd Q ->; apply Q; reflexivity).
  apply convert_mono; try assumption; try lia; try (apply add_okv; try apply prod_okv; try assumption; lia). apply add_mono; try assumption; try (apply prod_okv; assumption); try lia. apply prod_mono; try assumption; eapply NP; eassumption.
Qed.
Lemma ie_okv E F x : 1 <= E -> 1 <= F -> wf (E + F + 1) x -> okv (decode_ieee E F x).
Proof. intros HE HF W. pose proof (decode_ie_number E F x HE HF W). destruct (decode_ieee E F x); try exact I. apply H. exact I. Qed.
Lemma ie_le E F a b : 1 <= E -> 1 <= F -> wf (E + F + 1) a -> wf (E + F + 1) b -> (w_le E F a b = Some true <-> le_spec (decode_ieee E F a) (decode_ieee E F b) = true).
Proof. intros HE HF Wa Wb. destruct (w_comparisons_ok E F a b HE HF Wa Wb) as (_ & -> & _). split; congruence. Qed.
Lemma ie_lt E F a b : 1 <= E -> 1 <= F -> wf (E + F + 1) a -> wf (E + F + 1) b -> (w_lt E F a b = Some true <-> lt_spec (decode_ieee E F a) (decode_ieee E F b) = true).
Proof. intros HE HF Wa Wb. destruct (w_comparisons_ok E F a b HE HF Wa Wb) as (-> & _). split; congruence. Qed.
Lemma o_w_add E F a b c : dual_ok_width E F -> wf (E + F + 1) a -> wf (E + F + 1) b -> wf (E + F + 1) c -> w_le E F a b = Some true ->
  exists r s, w_add E F a c = Some r /\ w_add E F b c = Some s /\ (decode_ieee E F r <> NaN -> decode_ieee E F s <> NaN -> w_le E F r s = Some true).
Proof.
  intros OK Wa Wb Wc L. assert (2 <= E /\ 1 <= F) as [HE HF] by (unfold dual_ok_width in OK; lia). destruct (w_add_ok E F a c OK Wa Wc) as [r [Ar [Wr Dr]]]. destruct (w_add_ok E F b c OK Wb Wc) as [s [As [Ws Ds]]]. exists r, s. split; [exact Ar|]. split; [exact As|]. intros Nr Ns.
  apply ie_le; try assumption; try lia. apply ie_le in L; try assumption; try lia. rewrite Dr, Ds in *. apply add_mono; try assumption; try (apply ie_okv; try assumption; lia); [lia|]. apply em; lia.
Qed.
Lemma o_w_mul E F a b c : 2 <= E -> 1 <= F -> wf (E + F + 1) a -> wf (E + F + 1) b -> wf (E + F + 1) c -> w_le E F a b = Some true ->
  exists r s, w_mul E F a c = Some r /\ w_mul E F b c = Some s /\ (decode_ieee E F r <> NaN -> decode_ieee E F s <> NaN -> (w_le E F 0 c = Some true -> w_le E F r s = Some true) /\ (w_le E F c 0 = Some true -> w_le E F s r = Some true)).
Proof.
  intros HE HF Wa Wb Wc L. destruct (w_mul_ok E F a c HE HF Wa Wc) as [r [Ar [Wr Dr]]]. destruct (w_mul_ok E F b c HE HF Wb Wc) as [s [As [Ws Ds]]]. exists r, s. split; [exact Ar|]. split; [exact As|]. intros Nr Ns.
  assert (W0 : wf (E + F + 1) 0) by (pose proof (pow2_pos (E + F + 1) ltac:(lia)); unfold wf; lia). assert (D0 : decode_ieee E F 0 = Zero false). { unfold decode_ieee. cbv zeta. rewrite !Z.div_0_l by (apply Z.pow_nonzero; lia). rewrite Z.mod_0_l by (apply Z.pow_nonzero; lia). reflexivity. }
  destruct (em E ltac:(lia)) as [_ EM]. specialize (EM HE). apply ie_le in L; try assumption; try lia. split; intros P; apply ie_le; try assumption; try lia; apply ie_le in P; try assumption; try lia; rewrite D0 in P; rewrite Dr, Ds in *; [apply mul_mono|apply mul_anti]; try assumption; try (apply ie_okv; try assumption; lia); lia.
Qed.
Lemma o_w_div E F a b c : 2 <= E -> 1 <= F -> wf (E + F + 1) a -> wf (E + F + 1) b -> wf (E + F + 1) c -> w_le E F a b = Some true -> w_lt E F 0 c = Some true ->
  exists r s, w_div E F a c = Some r /\ w_div E F b c = Some s /\ (decode_ieee E F r <> NaN -> decode_ieee E F s <> NaN -> w_le E F r s = Some true).
Proof.
  intros HE HF Wa Wb Wc L P. destruct (w_div_ok E F a c HE HF Wa Wc) as [r [Ar [Wr Dr]]]. destruct (w_div_ok E F b c HE HF Wb Wc) as [s [As [Ws Ds]]]. exists r, s. split; [exact Ar|]. split; [exact As|]. intros Nr Ns.
  assert (W0 : wf (E + F + 1) 0) by (pose proof (pow2_pos (E + F + 1) ltac:(lia)); unfold wf; lia). assert (D0 : decode_ieee E F 0 = Zero false). { unfold decode_ieee. cbv zeta. rewrite !Z.div_0_l by (apply Z.pow_nonzero; lia). rewrite Z.mod_0_l by (apply Z.pow_nonzero; lia). reflexivity. }
  destruct (em E ltac:(lia)) as [_ EM]. specialize (EM HE). apply ie_le in L; try assumption; try lia. apply ie_lt in P; try assumption; try lia. rewrite D0 in P. apply ie_le; try assumption; try lia. rewrite Dr, Ds in *. apply div_mono; try assumption; try (apply ie_okv; try assumption; lia); lia.
Qed.
