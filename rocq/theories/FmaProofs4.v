(** Two roundings land on the right number or next to it. *)
From Coq Require Import ZArith Bool Lia.
From Verif Require Import Fw FwLemmas Spec SpecFma SpecTests SpecLemmas Flopoco FlopocoLemmas FlopocoProofs CompareProofs ValueLemmas AddDualProofs Fma FmaProofs FmaProofs2 FmaProofs3 MpfrProofs2 PolicyProofs PolicyProofs6 TestsProofs3 TestsProofs4.
Open Scope Z_scope.

(** The magnitude of a rounded number against a number q*2^j of the format. *)
Lemma round_pos_view F n k : 0 <= F -> 0 < n ->
  exists e N D, 0 < D /\ 2 ^ F * D <= N < 2 ^ (F + 1) * D /\ N * den2 1 (k - e) = num2 n (k - e) * D /\
    forall E s, round_to E F s n 1 k = finish (emin E) (emax E) F s (norm_me F (rne_div N D) e).
Proof.
  intros HF Hn. set (l := Z.log2 n). destruct (Z.log2_spec n Hn) as [L1 L2]. fold l in L1, L2. pose proof (Z.log2_nonneg n) as L0. fold l in L0.
  exists (l + k - F), (num2 n (F - l)), (den2 1 (F - l)).
  assert (DP : 0 < den2 1 (F - l)) by (apply den2_pos; lia). split; [exact DP|].
  assert (B : 2 ^ F * den2 1 (F - l) <= num2 n (F - l) < 2 ^ (F + 1) * den2 1 (F - l)).
  { unfold den2, num2. rewrite Z.mul_1_l. destruct (Z_le_gt_dec l F).
    - rewrite (Z.max_l 0 (- (F - l))), (Z.max_r 0 (F - l)) by lia. rewrite Z.pow_0_r, !Z.mul_1_r. replace F with (l + (F - l)) at 1 by lia.
      replace (F + 1) with (Z.succ l + (F - l)) by lia. rewrite !Z.pow_add_r by lia. pose proof (pow2_pos (F - l) ltac:(lia)). nia.
    - rewrite (Z.max_r 0 (- (F - l))), (Z.max_l 0 (F - l)) by lia. rewrite Z.pow_0_r, Z.mul_1_r, <- !Z.pow_add_r by lia.
      replace (F + - (F - l)) with l by lia. replace (F + 1 + - (F - l)) with (Z.succ l) by lia. lia. }
  split; [exact B|]. replace (k - (l + k - F)) with (F - l) by lia. split; [reflexivity|].
  intros E s. unfold round_to. apply round_range_char; try lia; try exact B. replace (k - (l + k - F)) with (F - l) by lia. reflexivity.
Qed.
Lemma cmp_at n k q e : cmp_num n k q e = (num2 n (k - e) ?= q * den2 1 (k - e)).
Proof.
  unfold cmp_num, num2, den2. rewrite Z.mul_1_l. destruct (Z.min_spec k e) as [[L ->]|[L ->]].
  - rewrite (Z.max_l 0 (k - e)), (Z.max_r 0 (- (k - e))) by lia. rewrite Z.sub_diag. repeat f_equal; lia.
  - rewrite (Z.max_r 0 (k - e)), (Z.max_l 0 (- (k - e))) by lia. rewrite Z.sub_diag. reflexivity.
Qed.
Lemma cross_compare a b c d : 0 < b -> 0 < d -> a * b = c * d -> forall q, (c ?= q * b) = (a ?= q * d).
Proof. intros Hb Hd H q. destruct (Z.compare_spec a (q * d)); [apply Z.compare_eq_iff|apply Z.compare_lt_iff|apply Z.compare_gt_iff]; nia. Qed.
Lemma pow_gap a b : a < b -> forall k, k <= a -> 2 * 2 ^ (a - k) <= 2 ^ (b - k).
Proof. intros H k Hk. rewrite <- pow2_S by lia. apply Z.pow_le_mono_r; lia. Qed.

Lemma norm_idx F m e : 0 <= F -> 2 ^ F <= m <= 2 ^ (F + 1) ->
  exists m' e', norm_me F m e = (m', e') /\ 2 ^ F <= m' < 2 ^ (F + 1) /\ idx F m' e' = idx F m e.
Proof.
  intros HF Hm. pose proof (pow2_S F HF) as P1. pose proof (pow2_pos F HF) as P0. unfold norm_me, idx. destruct (Z.eqb_spec m (2 ^ (F + 1))) as [->|N].
  - exists (2 ^ F), (e + 1). split; [reflexivity|]. split; lia.
  - exists m, e. split; [reflexivity|]. split; lia.
Qed.
(** (m', e') is n*2^k rounded without a bound on the exponent. *)
Lemma round_order F n k : 1 <= F -> 0 < n -> exists m e, 2 ^ F <= m < 2 ^ (F + 1) /\
  (forall E s, round_to E F s n 1 k = finish (emin E) (emax E) F s (m, e)) /\
  forall q j, 2 ^ F <= q < 2 ^ (F + 1) ->
    (cmp_num n k q j <> Gt -> idx F m e <= idx F q j) /\ (cmp_num n k q j <> Lt -> idx F q j <= idx F m e).
Proof.
  intros HF Hn. destruct (round_pos_view F n k ltac:(lia) Hn) as (e0 & N & D & HD & HN & HC & HR).
  pose proof (pow2_S F ltac:(lia)) as P1. pose proof (pow2_pos F ltac:(lia)) as P0.
  assert (M : 2 ^ F <= rne_div N D <= 2 ^ (F + 1)) by (split; [apply rne_div_lower|apply rne_div_upper]; lia).
  destruct (norm_idx F (rne_div N D) e0 ltac:(lia) M) as (m & e & Q & Hm & I).
  exists m, e. split; [exact Hm|]. split; [intros E s; rewrite HR, Q; reflexivity|].
  assert (DP : 0 < den2 1 (k - e0)) by (apply den2_pos; lia).
  assert (C : forall q, cmp_num n k q e0 = (N ?= q * D)) by (intros q; rewrite cmp_at; apply cross_compare; assumption).
  intros q j Hq. rewrite I.
  assert (Lo : (N ?= 2 ^ F * D) <> Lt) by (rewrite Z.compare_lt_iff; lia). rewrite <- C in Lo.
  assert (Hi : (N ?= 2 ^ (F + 1) * D) = Lt) by (rewrite Z.compare_lt_iff; lia). rewrite <- C in Hi.
  pose (k0 := Z.min k (Z.min j e0)). assert (K1 : k0 <= k) by lia. assert (K2 : k0 <= j) by lia. assert (K3 : k0 <= e0) by lia.
  rewrite (cmp_num_k _ _ _ _ k0), Z.compare_lt_iff in Lo by lia. rewrite (cmp_num_k _ _ _ _ k0), Z.compare_lt_iff in Hi by lia.
  pose proof (pow2_pos (j - k0) ltac:(lia)) as Pj. pose proof (pow2_pos (e0 - k0) ltac:(lia)) as Pe.
  destruct (Z.lt_trichotomy j e0) as [L|[->|L]].
  - pose proof (pow_gap j e0 L k0 K2) as G. split; [|intros _; unfold idx; nia]. intros H. exfalso. apply H.
    rewrite (cmp_num_k _ _ _ _ k0) by lia. apply Z.compare_gt_iff. clearbody k0. generalize dependent (2 ^ (j - k0)). generalize dependent (2 ^ (e0 - k0)). intros. nia.
  - rewrite C. rewrite Z.compare_gt_iff, Z.compare_lt_iff. split; intros H.
    + assert (rne_div N D <= q) by (apply rne_div_upper; lia). unfold idx. lia.
    + assert (q <= rne_div N D) by (apply rne_div_lower; lia). unfold idx. lia.
  - pose proof (pow_gap e0 j L k0 K3) as G. split; [intros _; unfold idx; nia|]. intros H. exfalso. apply H.
    rewrite (cmp_num_k _ _ _ _ k0) by lia. apply Z.compare_lt_iff. clearbody k0. generalize dependent (2 ^ (j - k0)). generalize dependent (2 ^ (e0 - k0)). intros. nia.
Qed.

Lemma finish_neg lo hi F s me : finish lo hi F (negb s) me = neg_spec (finish lo hi F s me).
Proof. destruct me as [m e]. unfold finish. destruct (_ <? lo); [reflexivity|]. destruct (hi <? _); reflexivity. Qed.
Lemma round_neg E F s n d k : round_to E F (negb s) n d k = neg_spec (round_to E F s n d k).
Proof. unfold round_to, round_range. destruct (round_pos F n d) as [m e]. apply finish_neg. Qed.

(** No number of the format separates the two. *)
Definition adjacent (E F : Z) (g v : fval) : Prop :=
  forall s q k, 2 ^ F <= q < 2 ^ (F + 1) -> emin E <= k + F <= emax E -> ~ between g (Num s q k) v /\ ~ between v (Num s q k) g.
Lemma adjacent_neg E F g v : adjacent E F g v -> adjacent E F (neg_spec g) (neg_spec v).
Proof.
  intros H s q k Hq Hk. destruct (H (negb s) q k Hq Hk) as [H1 H2]. replace (Num s q k) with (neg_spec (Num (negb s) q k)) by (cbn; rewrite negb_involutive; reflexivity).
  unfold between in *. rewrite !vcmp_neg. tauto.
Qed.
(** A result against a number of the format. *)
Lemma finish_lt E F m e q j : 1 <= F -> 2 ^ F <= m < 2 ^ (F + 1) -> 2 ^ F <= q < 2 ^ (F + 1) -> emin E <= j + F <= emax E ->
  (vcmp (finish (emin E) (emax E) F false (m, e)) (Num false q j) = Some Lt <-> idx F m e < idx F q j) /\
  (vcmp (Num false q j) (finish (emin E) (emax E) F false (m, e)) = Some Lt <-> idx F q j < idx F m e).
Proof.
  intros HF Hm Hq Hj. pose proof (pow2_S F ltac:(lia)) as P1. pose proof (pow2_pos F ltac:(lia)) as P0. unfold finish.
  destruct (Z.ltb_spec (e + F) (emin E)); [|destruct (Z.ltb_spec (emax E) (e + F))].
  - cbn [vcmp]. unfold idx. split; (split; [try discriminate; intros _|try reflexivity]); nia.
  - cbn [vcmp]. unfold idx. split; (split; [try discriminate; intros _|try reflexivity]); nia.
  - rewrite !(vcmp_pos F) by (lia || assumption). split; (split; [intros H1; apply some_inj in H1; rewrite Z.compare_lt_iff in H1; exact H1|intros H1; f_equal; apply Z.compare_lt_iff; exact H1]).
Qed.
Lemma double_adjacent E F E' F' s n k : 1 <= E' <= E -> 1 <= F' <= F -> 0 < n ->
  adjacent E' F' (convert_spec E' F' (round_to E F s n 1 k)) (round_to E' F' s n 1 k).
Proof.
  intros HE HF Hn. enough (K : adjacent E' F' (convert_spec E' F' (round_to E F false n 1 k)) (round_to E' F' false n 1 k)).
  { destruct s; [|exact K]. apply adjacent_neg in K. change true with (negb false). rewrite !round_neg. replace (convert_spec E' F' (neg_spec (round_to E F false n 1 k))) with (neg_spec (convert_spec E' F' (round_to E F false n 1 k))); [exact K|].
    destruct (round_to E F false n 1 k) as [| | |t a b]; try reflexivity. cbn [convert_spec convert_gen neg_spec]. unfold convert_spec, convert_gen. rewrite round_neg. reflexivity. }
  destruct (round_order F' n k ltac:(lia) Hn) as (m & e & Hm & Rs & Os).
  destruct (round_order F n k ltac:(lia) Hn) as (M & X & HM & RT & OT).
  rewrite Rs, RT. clear Rs RT. pose proof (pow2_S F ltac:(lia)) as P1. pose proof (pow2_pos F ltac:(lia)) as P0. pose proof (pow2_S F' ltac:(lia)) as P1'. pose proof (pow2_pos F' ltac:(lia)) as P0'.
  pose proof (bias_le' E' E HE) as HB.
  destruct (round_order F' M X ltac:(lia) ltac:(lia)) as (m2 & e2 & Hm2 & R2 & O2).
  intros t q j Hq Hj. destruct (Os q j Hq) as [A1 A2]. destruct (O2 q j Hq) as [C1 C2]. destruct (finish_lt E' F' m e q j ltac:(lia) Hm Hq Hj) as [S1 S2].
  destruct (finish_lt E' F' m2 e2 q j ltac:(lia) Hm2 Hq Hj) as [T1 T2].
  pose (d := F - F'). assert (Hd : 0 <= d) by lia. pose proof (pow2_pos d Hd) as PD.
  assert (EF : 2 ^ F = 2 ^ F' * 2 ^ d) by (rewrite <- Z.pow_add_r by lia; f_equal; lia).
  assert (HQ : 2 ^ F <= q * 2 ^ d < 2 ^ (F + 1)) by (rewrite P1, EF; nia).
  destruct (OT (q * 2 ^ d) (j - d) HQ) as [B1 B2].
  assert (SC : forall a b, cmp_num a b (q * 2 ^ d) (j - d) = cmp_num a b q j).
  { intros a b. rewrite (cmp_num_swap q j a b), (cmp_num_swap (q * 2 ^ d) (j - d) a b), cmp_num_scale by exact Hd. reflexivity. }
  rewrite SC in B1, B2. pose proof (cmp_idx F M X (q * 2 ^ d) (j - d) ltac:(lia) HM HQ) as CI. rewrite SC in CI.
  unfold emin, emax in *. unfold finish at 1 4.
  destruct t.
  { (* negative *) assert (U : forall a b, vcmp (finish (- bias E') (bias E' + 1) F' false (a, b)) (Num true q j) = Some Lt -> 0 < a -> False).
    { intros a b H Ha. unfold finish in H. destruct (_ <? _) in H; [discriminate H|]. destruct (_ <? _) in H; [discriminate H|]. cbn [vcmp sgn] in H. rewrite (proj1 (cmp_num_pos_neg a b q j Ha ltac:(lia))) in H. discriminate H. }
    assert (V : vcmp (convert_spec E' F' (finish (- bias E) (bias E + 1) F false (M, X))) (Num true q j) = Some Lt -> False).
    { unfold finish. destruct (_ <? _); [discriminate|]. destruct (_ <? _); [discriminate|]. unfold convert_spec, convert_gen. rewrite R2. unfold emin, emax. intros H. exact (U _ _ H ltac:(lia)). }
    split; intros [H1 H2]; [exact (V H1)|exact (U _ _ H1 ltac:(lia))]. }
  unfold between. rewrite S1, S2. 
  destruct (Z.ltb_spec (X + F) (- bias E)); [|destruct (Z.ltb_spec (bias E + 1) (X + F))].
  - split; intros [H1 H2].
    + assert (cmp_num n k q j <> Lt) as NL by (intros L; rewrite L in A1; specialize (A1 ltac:(discriminate)); lia). specialize (B2 NL). unfold idx in B2. nia.
    + discriminate H2.
  - split; intros [H1 H2].
    + discriminate H1.
    + assert (cmp_num n k q j <> Gt) as NL by (intros L; rewrite L in A2; specialize (A2 ltac:(discriminate)); lia). specialize (B1 NL). unfold idx in B1. nia.
  - unfold convert_spec, convert_gen. rewrite R2. unfold emin, emax. rewrite T1, T2. split; intros [H1 H2].
    + assert (cmp_num n k q j <> Lt) as NL by (intros L; rewrite L in A1; specialize (A1 ltac:(discriminate)); lia). specialize (B2 NL).
      assert (cmp_num M X q j <> Lt) as NL2 by (rewrite CI, Z.compare_lt_iff; lia). specialize (C2 NL2). lia.
    + assert (cmp_num n k q j <> Gt) as NL by (intros L; rewrite L in A2; specialize (A2 ltac:(discriminate)); lia). specialize (B1 NL).
      assert (cmp_num M X q j <> Gt) as NL2 by (rewrite CI, Z.compare_gt_iff; lia). specialize (C1 NL2). lia.
Qed.

Definition signed_v (s : bool) (v : fval) : Prop := match v with NaN => False | Inf t | Zero t => t = s | Num t m _ => t = s /\ 0 < m end.
Lemma adjacent_one E F s g v : 1 <= E -> 1 <= F -> signed_v s g -> signed_v s v -> adjacent E F g v -> one_place E F g v.
Proof.
  intros HE HF Sg Sv H. right. split; [destruct g; try contradiction; discriminate|]. split; [destruct v; try contradiction; discriminate|].
  intros w Hw. destruct (decode E F w) as [|t|t|t q k] eqn:D.
  - unfold between. destruct g; split; intros [A B]; try discriminate A; try discriminate B; destruct v; discriminate A.
  - unfold between. destruct g as [|[]|[]|[] ? ?], v as [|[]|[]|[] ? ?], t; cbn; split; intros [A B]; try discriminate A; try discriminate B; try contradiction; cbn in Sg, Sv; try tauto; try congruence.
  - unfold between. destruct g as [|[]|[]|[] ? ?], v as [|[]|[]|[] ? ?]; cbn; split; intros [A B]; try discriminate A; try discriminate B; try contradiction; cbn in Sg, Sv; try tauto; try congruence; destruct s; intuition congruence.
  - destruct (pack_view E F w HE HF Hw) as (fl & u & ey & f & O & ->). rewrite decode_pack in D by assumption.
    destruct O as (_ & _ & Hfl & He & Hf). destruct (fl =? 0); [discriminate D|]. destruct (fl =? 1); [|destruct (fl =? 2); discriminate D].
    injection D as <- <- <-. pose proof (pow2_S F ltac:(lia)). assert (B : 2 ^ E = 2 * bias E + 2) by (unfold bias; replace E with (E - 1 + 1) at 1 by lia; rewrite pow2_S by lia; lia).
    apply H; unfold emin, emax; lia.
Qed.
Lemma special_one E F v : match v with Num _ _ _ => False | _ => True end -> one_place E F v v.
Proof.
  destruct v as [|s|s|]; intros H; try contradiction; [left; auto|right..]; (split; [discriminate|split; [discriminate|]]); intros w _; unfold between;
    destruct (decode E F w) as [|t|t|[] q k]; destruct s; cbn; try destruct t; split; intros [A B]; discriminate A || discriminate B.
Qed.
Lemma round_signed E F s n d k : 0 <= F -> 0 < n -> 0 < d -> signed_v s (round_to E F s n d k).
Proof.
  intros HF Hn Hd. pose proof (MpfrProofs.round_pos_range F n d HF Hn Hd) as R. pose proof (pow2_pos F HF) as PF.
  unfold round_to, round_range. destruct (round_pos F n d) as [m e]. cbn [fst] in R. unfold finish. destruct (_ <? _); [reflexivity|]. destruct (_ <? _); [reflexivity|]. cbn. split; [reflexivity|lia].
Qed.
Lemma round_one E F E' F' s n k : 1 <= E' <= E -> 1 <= F' <= F -> 0 < n ->
  one_place E' F' (convert_spec E' F' (round_to E F s n 1 k)) (round_to E' F' s n 1 k).
Proof.
  intros HE HF Hn. apply (adjacent_one E' F' s); try lia; [|apply round_signed; lia|apply double_adjacent; assumption].
  pose proof (round_signed E F s n 1 k ltac:(lia) Hn ltac:(lia)) as S. destruct (round_to E F s n 1 k) as [|t|t|t m e]; try assumption.
  destruct S as [-> Hm]. unfold convert_spec, convert_gen. apply round_signed; lia.
Qed.
Lemma sum_one E F E' F' p z : 1 <= E' <= E -> 1 <= F' <= F -> pos_v p -> pos_v z ->
  one_place E' F' (convert_spec E' F' (add_spec E F p z)) (add_gen (round_to E' F') p z).
Proof.
  intros HE HF Hp Hz. unfold add_spec.
  destruct p as [|s|s|s m e], z as [|t|t|t n f]; cbn [add_gen]; try (apply special_one; exact I); try (apply round_one; assumption).
  - destruct (Bool.eqb s t); apply special_one; exact I.
  - cbv zeta. set (v := _ + _). destruct (Z.eqb_spec v 0); [apply special_one; exact I|apply round_one; lia].
Qed.
Theorem fma_one_place wER wFR wEX wFX wEY wFY wEZ wFZ x y z :
  1 <= wEX -> 1 <= wFX -> 1 <= wEY -> 1 <= wFY -> 1 <= wEZ -> 1 <= wFZ ->
  let E := Z.max (Z.max wEX wEY + 2) (wEZ + 1) in let F := Z.max (wFX + wFY + 2) wFZ in
  dual_ok_width E F -> 1 <= wER < E -> 1 <= wFR <= F ->
  wf (wEX + wFX + 3) x -> wf (wEY + wFY + 3) y -> wf (wEZ + wFZ + 3) z ->
  exists r, fma wER wFR wEX wFX wEY wFY wEZ wFZ x y z = Some r /\ wf (wER + wFR + 3) r /\
    one_place wER wFR (decode wER wFR r) (fma_spec wER wFR (decode wEX wFX x) (decode wEY wFY y) (decode wEZ wFZ z)).
Proof.
  intros HEX HFX HEY HFY HEZ HFZ E F HD HER HFR Wx Wy Wz.
  destruct (fma_two_roundings wER wFR wEX wFX wEY wFY wEZ wFZ x y z ltac:(lia) ltac:(lia) HEX HFX HEY HFY HEZ HFZ HD ltac:(left; fold E; lia) Wx Wy Wz) as (r & R1 & R2 & R3).
  exists r. split; [exact R1|]. split; [exact R2|]. rewrite R3. apply sum_one; [fold E; lia|fold F; lia|apply prod_pos; lia|apply ValueLemmas.decode_pos; lia].
Qed.
