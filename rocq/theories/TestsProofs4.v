(** The adders against the comparison that lets neighbours pass. *)
From Coq Require Import ZArith List Bool Lia.
From Verif Require Import Fw FwLemmas Spec SpecLemmas SpecTests Flopoco FlopocoLemmas FlopocoProofs CompareProofs AddLemmas ValueLemmas AddSingle AddSingleProofs3 MpfrLib Mpfr MpfrRange MpfrProofs MpfrProofs2 Policy PolicyProofs PolicyProofs6 Tests TestsProofs TestsProofs2 TestsProofs3.
Import ListNotations.
Open Scope Z_scope.

Lemma near_adj F s m e n f : 1 <= F -> 2 ^ F <= m < 2 ^ (F + 1) -> 2 ^ F <= n < 2 ^ (F + 1) -> -1 <= idx F m e - idx F n f <= 1 ->
  near F (Num s m e) (Num s n f).
Proof.
  intros HF Hm Hn D. right; right. intros t q k Hq. unfold between. destruct s, t.
  - rewrite !(vcmp_negs F) by (lia || tauto). split; intros [A B]; apply some_inj in A; apply some_inj in B; rewrite Z.compare_lt_iff in A, B; lia.
  - destruct (vcmp_np F q k n f ltac:(lia) Hq Hn) as [_ A]. destruct (vcmp_np F q k m e ltac:(lia) Hq Hm) as [_ B]. rewrite A, B. split; intros [_ ?]; discriminate.
  - destruct (vcmp_np F m e q k ltac:(lia) Hm Hq) as [_ A]. destruct (vcmp_np F n f q k ltac:(lia) Hn Hq) as [_ B]. rewrite A, B. split; intros [? _]; discriminate.
  - rewrite !(vcmp_pos F) by (lia || tauto). split; intros [A B]; apply some_inj in A; apply some_inj in B; rewrite Z.compare_lt_iff in A, B; lia.
Qed.

Lemma cmp_one m e p : 0 < m -> cmp_num m e 1 p = Eq -> e <= p /\ m = 2 ^ (p - e).
Proof.
  intros Hm H. destruct (Z_le_gt_dec e p) as [L|L].
  - split; [exact L|]. rewrite (cmp_num_k _ _ _ _ e), Z.sub_diag, Z.pow_0_r, Z.mul_1_r, Z.mul_1_l in H by lia. apply Z.compare_eq_iff, H.
  - rewrite (cmp_num_k _ _ _ _ p), Z.sub_diag, Z.pow_0_r, Z.mul_1_l in H by lia. apply Z.compare_eq_iff in H.
    replace (e - p) with (e - p - 1 + 1) in H by lia. rewrite pow2_S in H by lia. pose proof (pow2_pos (e - p - 1) ltac:(lia)). nia.
Qed.
Definition pos_m (v : fval) : Prop := match v with Num _ m _ => 0 < m | _ => True end.
Lemma absorbed_dec' F x y : pos_m x -> pos_m y -> absorbed F x y \/ ~ absorbed F x y.
Proof.
  intros Hx Hy. destruct x as [| | |s m e]; try (right; intros (?&?&?&?&?&?&H&_); discriminate H).
  destruct y as [| | |t n f]; try (right; intros (?&?&?&?&?&?&_&H&_); discriminate H).
  destruct (Bool.bool_dec t (negb s)) as [->|N]; [|right; intros (?&?&?&?&?&?&A&B&_); injection A as -> -> ->; injection B as B _ _; contradiction].
  set (p := Z.log2 m + e).
  assert (U : forall p', cmp_num m e 1 p' = Eq -> p' = p).
  { intros p' H. destruct (cmp_one m e p' Hx H) as [L ->]. subst p. rewrite Z.log2_pow2 by lia. lia. }
  destruct (cmp_num m e 1 p) eqn:C1; [|right; intros (?&?&?&?&?&p'&A&B&K&_); injection A as <- <- <-; rewrite (U _ K) in K; congruence..].
  destruct (cmp_num n f 1 (p - F - 2)) eqn:C2; try (right; intros (?&?&?&?&?&p'&A&B&K&K2&_); injection A as <- <- <-; injection B as <- <-; rewrite (U _ K) in K2; congruence).
  destruct (cmp_num n f 1 (p - F - 1)) eqn:C3; try (right; intros (?&?&?&?&?&p'&A&B&K&_&K2); injection A as <- <- <-; injection B as <- <-; rewrite (U _ K) in K2; congruence).
  left. exists s, m, e, n, f, p. auto 10.
Qed.

(** The sum that add_single gets wrong: the number below the power of two. *)
Lemma absorbed_sum E F x y : 1 <= F -> pos_m x -> pos_m y -> absorbed F x y ->
  exists s p m e n f, x = Num s m e /\ y = Num (negb s) n f /\ veq x (Num s (2 ^ F) (p - F)) /\ f <= p - F - 3 /\ p <= e + Z.log2 m /\ Z.log2 n + f <= p - F - 2 /\
    (emin E <= p - 1 <= emax E -> add_spec E F x y = Num s (2 ^ (F + 1) - 1) (p - 1 - F)).
Proof.
  intros HF Px Py (s & m & e & n & f & p & -> & -> & C1 & C2 & C3). cbn [pos_m] in Px, Py.
  destruct (cmp_one m e p Px C1) as [Lp Mp].
  pose proof (pow2_pos F ltac:(lia)) as PF. pose proof (pow2_S F ltac:(lia)) as P1.
  assert (Lf : f <= p - F - 2).
  { destruct (Z_le_gt_dec f (p - F - 2)); [assumption|exfalso]. rewrite (cmp_num_k _ _ _ _ (p - F - 1)), Z.sub_diag, Z.pow_0_r, Z.mul_1_r in C3 by lia. rewrite Z.compare_lt_iff in C3.
    pose proof (pow2_pos (f - (p - F - 1)) ltac:(lia)). nia. }
  remember (Z.min e f) as k eqn:Ek. assert (Hke : k <= e) by lia. assert (Hkf : k <= f) by lia.
  assert (Lk : k <= p - F - 2) by lia.
  rewrite (cmp_num_k _ _ _ _ k), Z.mul_1_l in C2 by lia. rewrite (cmp_num_k _ _ _ _ k), Z.mul_1_l in C3 by lia.
  rewrite Z.compare_gt_iff in C2. rewrite Z.compare_lt_iff in C3.
  assert (Lf3 : f <= p - F - 3).
  { destruct (Z.eq_dec f (p - F - 2)) as [->|]; [exfalso|lia]. replace (p - F - 1 - k) with (p - F - 2 - k + 1) in C3 by lia. rewrite pow2_S in C3 by lia. pose proof (pow2_pos (p - F - 2 - k) ltac:(lia)) as PX. generalize dependent (2 ^ (p - F - 2 - k)). intros X C2 C3 PX. apply Z.mul_lt_mono_pos_r in C2; [|exact PX]. rewrite <- (Z.mul_1_l X) in C3 at 1. apply Z.mul_lt_mono_pos_r in C3; [lia|exact PX]. }
  exists s, p, m, e, n, f. split; [reflexivity|]. split; [reflexivity|].
  split. { cbn [veq]. split; [reflexivity|]. rewrite (cmp_num_k _ _ _ _ (Z.min e (p - F))) by lia. rewrite Mp, <- !Z.pow_add_r by lia. apply Z.compare_eq_iff. f_equal. lia. }
  split; [exact Lf3|]. split. { rewrite Mp, Z.log2_pow2 by lia. lia. }
  split.
  { assert (n < 2 ^ (p - F - 1 - f)). { replace (p - F - 1 - k) with (p - F - 1 - f + (f - k)) in C3 by lia. rewrite Z.pow_add_r in C3 by lia. pose proof (pow2_pos (f - k) ltac:(lia)). nia. }
    assert (Z.log2 n < p - F - 1 - f) by (apply Z.log2_lt_pow2; lia). lia. }
  intros HE. unfold add_spec, add_gen. cbv zeta. rewrite <- Ek. clear Ek.
  set (A := m * 2 ^ (e - k)). set (B := n * 2 ^ (f - k)) in *. assert (EA : A = 2 ^ (p - k)). { unfold A. rewrite Mp, <- Z.pow_add_r by lia. f_equal. lia. }
  set (D := 2 ^ (p - F - 1 - k)) in *. assert (PD : 0 < D) by (apply pow2_pos; lia).
  assert (EA2 : A = 2 ^ (F + 1) * D). { rewrite EA. unfold D. rewrite <- Z.pow_add_r by lia. f_equal. lia. }
  assert (HD : D = 2 * 2 ^ (p - F - 2 - k)). { unfold D. replace (p - F - 1 - k) with (p - F - 2 - k + 1) by lia. rewrite pow2_S by lia. reflexivity. }
  assert (AB : 0 < A - B) by nia.
  assert (V : sgn s A + sgn (negb s) B = sgn s (A - B)) by (unfold sgn; destruct s; cbn [negb]; lia). rewrite V.
  assert (sgn s (A - B) =? 0 = false) as -> by (unfold sgn; destruct s; lia).
  assert ((sgn s (A - B) <? 0) = s) as -> by (unfold sgn; destruct s; lia).
  assert (Z.abs (sgn s (A - B)) = A - B) as -> by (unfold sgn; destruct s; lia).
  unfold round_to. rewrite (round_range_char _ _ F s (A - B) 1 k (p - 1 - F) (A - B) D); [|lia|exact AB|lia|exact PD| | ].
  - rewrite (rne_div_near (A - B) D (2 ^ (F + 1) - 1) PD) by nia. unfold norm_me. replace (2 ^ (F + 1) - 1 =? 2 ^ (F + 1)) with false by lia.
    unfold finish. replace (p - 1 - F + F) with (p - 1) by lia. replace (p - 1 <? emin E) with false by lia. replace (emax E <? p - 1) with false by lia. reflexivity.
  - unfold den2, num2. rewrite Z.max_r, Z.max_l by lia. unfold D. replace (- (k - (p - 1 - F))) with (p - F - 1 - k) by lia. rewrite Z.pow_0_r. lia.
  - nia.
Qed.

Lemma decode_pm E F x : 1 <= E -> 1 <= F -> wf (E + F + 3) x -> pos_m (decode E F x).
Proof. intros HE HF Hx. destruct (decode E F x) as [| | |s m e] eqn:D; try exact I. exact (decode_pos E F x s m e HE HF Hx D). Qed.
Lemma bias_le' E E' : 1 <= E <= E' -> 0 <= bias E <= bias E'.
Proof.
  intros H. unfold bias. assert (2 ^ (E - 1) <= 2 ^ (E' - 1)) by (apply Z.pow_le_mono_r; lia). pose proof (pow2_pos (E - 1) ltac:(lia)). lia.
Qed.
Lemma decode_log E F x s m e : 1 <= E -> 1 <= F -> wf (E + F + 3) x -> decode E F x = Num s m e -> emin E <= e + Z.log2 m <= emax E.
Proof.
  intros HE HF Hx D. destruct (pack_view E F x ltac:(lia) ltac:(lia) Hx) as (fl & t & ey & f & O & ->). rewrite decode_pack in D by assumption.
  destruct O as (_ & _ & Hfl & He & Hf). destruct (fl =? 0); [discriminate D|]. destruct (fl =? 1); [|destruct (fl =? 2); discriminate D].
  injection D as <- <- <-. rewrite (Z.log2_unique (2 ^ F + f) F) by (try rewrite Z.pow_succ_r; lia). unfold emin, emax.
  assert (B : 2 ^ E = 2 * bias E + 2) by (unfold bias; replace E with (E - 1 + 1) at 1 by lia; rewrite pow2_S by lia; lia). lia.
Qed.

Lemma absorbed_near E F EX FX EY FY x y r : 1 <= EX <= E -> 1 <= EY <= E -> 1 <= FX -> 1 <= FY -> 1 <= F -> E <= 30 -> F <= 128 ->
  wf (EX + FX + 3) x -> wf (EY + FY + 3) y -> wf (E + F + 3) r ->
  absorbed F (decode EX FX x) (decode EY FY y) -> veq (decode E F r) (decode EX FX x) ->
  near F (decode E F r) (add_spec E F (decode EX FX x) (decode EY FY y)) /\
  decode E F r <> add_spec E F (decode EX FX x) (decode EY FY y).
Proof.
  intros HX HY H1 H2 HF HE30 HF128 Wx Wy Wr Ab Q.
  destruct (absorbed_sum E F _ _ HF (decode_pm EX FX x ltac:(lia) H1 Wx) (decode_pm EY FY y ltac:(lia) H2 Wy) Ab) as (s & p & m & e & n & f & Dx & Dy & V & _ & Lp & Ln & S).
  pose proof (decode_log EX FX x _ _ _ ltac:(lia) H1 Wx Dx) as Rx. pose proof (decode_log EY FY y _ _ _ ltac:(lia) H2 Wy Dy) as Ry.
  pose proof (bias_le' EX E HX). pose proof (bias_le' EY E HY). unfold emin, emax in *. rewrite S by lia.
  pose proof (veq_trans _ _ _ Q V) as V'. pose proof (decode_normal E F r ltac:(split; lia) Wr) as N.
  destruct (decode E F r) as [| | |s' q k]; try contradiction. destruct V' as [-> C]. destruct N as [Hq Hk].
  pose proof (pow2_pos F ltac:(lia)) as PF. pose proof (pow2_S F ltac:(lia)) as P1.
  rewrite (cmp_idx F) in C by lia. apply Z.compare_eq_iff in C.
  assert (I : idx F q k - idx F (2 ^ (F + 1) - 1) (p - 1 - F) = 1) by (rewrite C; unfold idx; nia).
  split; [apply near_adj; lia|]. intros K. injection K as -> ->. lia.
Qed.

Theorem add_single_near wEX wFX wEY wFY x y :
  let E := Z.max wEX wEY in let F := Z.max wFX wFY in
  1 <= wEX -> 1 <= wFX -> 1 <= wEY -> 1 <= wFY -> F + 3 < 2 ^ E -> 2 ^ E <> 2 * (F + 3) -> E <= 30 -> F <= 128 ->
  wf (wEX + wFX + 3) x -> wf (wEY + wFY + 3) y ->
  exists r, add_single E F wEX wFX wEY wFY x y = Some r /\ wf (E + F + 3) r /\
    near F (decode E F r) (add_spec E F (decode wEX wFX x) (decode wEY wFY y)).
Proof.
  intros E F H1 H2 H3 H4 HS HS2 HE30 HF128 Wx Wy.
  destruct (add_single_char wEX wFX wEY wFY x y H1 H2 H3 H4 HS HS2 ltac:(fold F; lia) Wx Wy) as (r & R1 & R2 & R3 & R4 & R5). fold E F in R1, R2, R3, R4, R5. cbv zeta in R3, R4, R5.
  exists r. split; [exact R1|]. split; [exact R2|].
  assert (Same : decode E F r = add_spec E F (decode wEX wFX x) (decode wEY wFY y) -> near F (decode E F r) (add_spec E F (decode wEX wFX x) (decode wEY wFY y))).
  { intros <-. apply near_refl; [lia|]. apply decode_normal; [split; lia|exact R2]. }
  destruct (Z.lt_trichotomy (2 ^ E) (2 * (F + 3))) as [L|[L|L]]; [apply Same, R3; left; exact L|contradiction|].
  pose proof (decode_pm wEX wFX x H1 H2 Wx) as Px. pose proof (decode_pm wEY wFY y H3 H4 Wy) as Py.
  destruct (absorbed_dec' F _ _ Px Py) as [A|A]; [apply absorbed_near; try assumption; try lia; apply R4; assumption|].
  destruct (absorbed_dec' F _ _ Py Px) as [B|B].
  - unfold add_spec. rewrite add_gen_comm. apply absorbed_near; try assumption; try lia. apply R5; assumption.
  - apply Same, R3. right. auto.
Qed.
