(** The reference of the four-term dot product: right whenever it returns, and it returns when the products are close enough. *)
From Coq Require Import ZArith List Bool Lia.
From Verif Require Import Fw FwLemmas Spec SpecLemmas SpecDot SpecDbl SpecMpfr Flopoco FlopocoLemmas FlopocoProofs MpfrLib Mpfr MpfrProofs MpfrProofs2 Dbl DblProofs DblProofs2 DblProofs3 Dot DotProofs DotProofs2 DotProofs5 RefDot SpecRefDot RefDotProofs RefDotProofs2.
Open Scope Z_scope.

(** Two pairs with the same value m*2^e. *)
Definition same (p q : Z * Z) : Prop := forall K, K <= snd p -> K <= snd q -> fst p * 2 ^ (snd p - K) = fst q * 2 ^ (snd q - K).
Lemma at_lower m e K L : L <= K -> K <= e -> m * 2 ^ (e - L) = m * 2 ^ (e - K) * 2 ^ (K - L).
Proof. intros. rewrite <- Z.mul_assoc, <- pow2_add by lia. f_equal. f_equal. lia. Qed.
Lemma same_at K p q : K <= snd p -> K <= snd q -> fst p * 2 ^ (snd p - K) = fst q * 2 ^ (snd q - K) -> same p q.
Proof.
  intros Hp Hq E L Lp Lq. destruct (Z_le_gt_dec L K) as [G|G]. { rewrite (at_lower _ _ K L), (at_lower (fst q) _ K L) by lia. rewrite E. reflexivity. }
  rewrite (at_lower _ _ L K), (at_lower (fst q) _ L K) in E by lia. apply Z.mul_cancel_r in E; [exact E|]. pose proof (pow2_pos (L - K) ltac:(lia)). lia.
Qed.
Lemma same_refl p : same p p.
Proof. intros K _ _. reflexivity. Qed.
Lemma same_trans p q r : same p q -> same q r -> same p r.
Proof.
  intros A B. apply (same_at (Z.min (snd p) (Z.min (snd q) (snd r)))); [lia|lia|]. rewrite (A (Z.min (snd p) (Z.min (snd q) (snd r)))) by lia. apply B; lia.
Qed.
Lemma dadd_at p q K : K <= snd p -> K <= snd q -> fst (dadd p q) * 2 ^ (snd (dadd p q) - K) = fst p * 2 ^ (snd p - K) + fst q * 2 ^ (snd q - K).
Proof.
  destruct p as [m e], q as [n f]. cbn [fst snd]. intros Hp Hq. unfold dadd. cbv zeta. cbn [fst snd]. rewrite Z.mul_add_distr_r. rewrite <- !at_lower by lia. reflexivity.
Qed.
Lemma dadd_snd p q : snd (dadd p q) = Z.min (snd p) (snd q).
Proof. destruct p, q. reflexivity. Qed.
Lemma same_dadd p p' q q' : same p p' -> same q q' -> same (dadd p q) (dadd p' q').
Proof.
  intros A B. remember (Z.min (Z.min (snd p) (snd q)) (Z.min (snd p') (snd q'))) as K eqn:EK. apply (same_at K); rewrite ?dadd_snd; [lia|lia|]. rewrite <- !dadd_snd. rewrite !dadd_at by lia. f_equal; [apply A|apply B]; lia.
Qed.
Lemma same_assoc p q r s : same (dadd (dadd (dadd p q) r) s) (dadd (dadd p q) (dadd r s)).
Proof.
  remember (Z.min (Z.min (snd p) (snd q)) (Z.min (snd r) (snd s))) as K eqn:EK. apply (same_at K); [rewrite !dadd_snd; lia|rewrite !dadd_snd; lia|]. rewrite !dadd_at by (rewrite ?dadd_snd; lia). lia.
Qed.
Lemma rndd_eqv E F p q : 0 <= F -> 0 < fst p -> 0 < fst q -> same p q -> rndd E F p = rndd E F q.
Proof. destruct p as [m e], q as [n f]. cbn [fst]. intros HF Hm Hn S. apply (rndd_same E F m e n f (Z.min e f)); try lia. apply S; cbn; lia. Qed.
Lemma dadd_pos p q : 0 < fst p -> 0 < fst q -> 0 < fst (dadd p q).
Proof. destruct p as [m e], q as [n f]. cbn [fst]. intros Hm Hn. unfold dadd. cbv zeta. cbn [fst]. pose proof (pow2_pos (e - Z.min e f) ltac:(lia)). pose proof (pow2_pos (f - Z.min e f) ltac:(lia)). nia. Qed.

(** ** One addition *)
Lemma mp_round_s p mode s n d k : match mp_round p mode s n d k with Num t _ _ => t = s | _ => True end.
Proof.
  unfold mp_round. cbv zeta. destruct (mp_emax <? _). { destruct mode; [exact I|destruct (mp_away _ s); [exact I|reflexivity]..]. }
  destruct (_ <? mp_emin); [|reflexivity]. destruct mode; [destruct (_ <? _)|destruct (mp_away _ s)..]; (exact I || reflexivity).
Qed.
Lemma mp_round_t p mode s n d k t m e : mp_round p mode s n d k = Num t m e -> t = s.
Proof. intros H. pose proof (mp_round_s p mode s n d k) as S. rewrite H in S. exact S. Qed.
Lemma add_num p A a B b : 0 < A -> 0 < B -> mpfr_add p RNDN (Num false A a) (Num false B b) = mp_round p RNDN false (fst (dadd (A, a) (B, b))) 1 (snd (dadd (A, a) (B, b))) /\
  add_inexact p (Num false A a) (Num false B b) = mpfr_differ (mpfr_add p RNDN (Num false A a) (Num false B b)) (Num false (fst (dadd (A, a) (B, b))) (snd (dadd (A, a) (B, b)))).
Proof.
  intros HA HB. pose proof (dadd_pos (A, a) (B, b) HA HB) as P. cbn [mpfr_add add_inexact]. unfold mp_add_num. cbv zeta. unfold dadd in *. cbv zeta in *. cbn [fst snd] in *. remember (A * 2 ^ (a - Z.min a b) + B * 2 ^ (b - Z.min a b)) as V. unfold mp_round_z. replace (V =? 0) with false by lia. replace (V <? 0) with false by lia. rewrite Z.abs_eq by lia. split; reflexivity.
Qed.
Lemma add_checked p A a B b : 0 < A -> 0 < B -> add_inexact p (Num false A a) (Num false B b) = false ->
  exists C c, mpfr_add p RNDN (Num false A a) (Num false B b) = Num false C c /\ 0 < C /\ same (C, c) (dadd (A, a) (B, b)).
Proof.
  intros HA HB H. destruct (add_num p A a B b HA HB) as [R D]. pose proof (dadd_pos (A, a) (B, b) HA HB) as P. rewrite D in H. rewrite R in *. destruct (dadd (A, a) (B, b)) as [V k]. cbn [fst snd] in *.
  destruct (mp_round p RNDN false V 1 k) as [|t|t|t m e] eqn:M; try discriminate. pose proof (mp_round_t _ _ _ _ _ _ _ _ _ M) as ->. exists m, e. split; [reflexivity|]. cbn [mpfr_differ] in H. cbv zeta in H. apply negb_false_iff, Z.eqb_eq in H.
  split; [|apply (same_at (Z.min e k)); cbn [fst snd]; [lia|lia|exact H]]. pose proof (pow2_pos (e - Z.min e k) ltac:(lia)) as P1. pose proof (pow2_pos (k - Z.min e k) ltac:(lia)) as P2. assert (0 < m * 2 ^ (e - Z.min e k)) by (rewrite H; apply Z.mul_pos_pos; assumption). clear - P1 H0. nia.
Qed.
(** A sum that fits in the precision is exact. *)
Lemma round_fits p V j k : 1 <= p -> 0 <= j -> 0 < V < 2 ^ p -> mp_emin <= k + Z.log2 V + 1 <= mp_emax ->
  exists C c, mp_round p RNDN false (V * 2 ^ j) 1 (k - j) = Num false C c /\ 0 < C /\ same (C, c) (V, k).
Proof.
  intros Hp Hj HV Hk. pose proof (Z.log2_spec V ltac:(lia)) as [L1 L2]. pose proof (Z.log2_nonneg V) as L0. assert (L3 : Z.log2 V <= p - 1) by (assert (Z.log2 V < p) by (apply Z.log2_lt_pow2; lia); lia). pose proof (pow2_pos j Hj) as Pj. assert (HV' : 0 < V * 2 ^ j) by (apply Z.mul_pos_pos; lia).
  unfold mp_round. cbv zeta. rewrite mag_int' by exact HV'. rewrite Z.log2_mul_pow2 by lia. remember (Z.log2 V) as l. remember (p - 1 - l) as g eqn:Eg. replace (- (j + l - (p - 1))) with (g - j) by lia.
  assert (R : rne_div (num2 (V * 2 ^ j) (g - j)) (den2 1 (g - j)) = V * 2 ^ g).
  { unfold num2, den2. destruct (Z_le_gt_dec j g).
    - rewrite Z.max_r by lia. replace (Z.max 0 (- (g - j))) with 0 by lia. change (1 * 2 ^ 0) with 1. rewrite rne_div_1. rewrite <- Z.mul_assoc, <- pow2_add by lia. f_equal. f_equal. lia.
    - rewrite Z.max_l by lia. rewrite Z.max_r by lia. change (2 ^ 0) with 1. rewrite Z.mul_1_r, Z.mul_1_l. replace (V * 2 ^ j) with (V * 2 ^ g * 2 ^ (- (g - j))) by (rewrite <- Z.mul_assoc, <- pow2_add by lia; f_equal; f_equal; lia). apply SpecLemmas.rne_div_exact. apply pow2_pos. lia. }
  rewrite R. remember (V * 2 ^ g) as a. assert (A : 0 < a < 2 ^ p). { subst a. replace (2 ^ p) with (2 ^ (l + 1) * 2 ^ g) by (rewrite <- pow2_add by lia; f_equal; lia). rewrite Z.add_1_r. pose proof (pow2_pos g ltac:(lia)). nia. }
  replace (a =? 2 ^ p) with false by lia. replace (mp_emax <? _) with false by lia. replace (_ <? mp_emin) with false by lia. eexists _, _. split; [reflexivity|]. split; [lia|]. apply (same_at (k - g)); cbn [fst snd]; [lia|lia|]. subst a. replace (j + l - (p - 1) + (k - j) - (k - g)) with 0 by lia. change (2 ^ 0) with 1. replace (k - (k - g)) with g by lia. lia.
Qed.
Lemma add_fits p A a B b V W K : 1 <= p -> 0 < A -> 0 < B -> same (A, a) (V, K) -> same (B, b) (W, K) -> 0 < V -> 0 < W -> V + W < 2 ^ p -> mp_emin <= K -> K + p <= mp_emax ->
  add_inexact p (Num false A a) (Num false B b) = false.
Proof.
  intros Hp HA HB SA SB HV HW HS Lo Hi. destruct (add_num p A a B b HA HB) as [R ->]. rewrite R. pose proof (dadd_pos (A, a) (B, b) HA HB) as P. pose proof (same_dadd _ _ _ _ SA SB) as S. unfold dadd at 2 in S. cbv zeta in S. rewrite Z.min_id, Z.sub_diag, !Z.mul_1_r in S.
  destruct (dadd (A, a) (B, b)) as [T t]. cbn [fst snd] in *. assert (LB : 0 <= Z.log2 (V + W) < p) by (split; [apply Z.log2_nonneg|apply Z.log2_lt_pow2; lia]).
  assert (X : exists C c, mp_round p RNDN false T 1 t = Num false C c /\ 0 < C /\ same (C, c) (V + W, K)).
  { destruct (Z_le_gt_dec t K) as [G|G].
    - pose proof (S t ltac:(cbn; lia) ltac:(cbn; lia)) as E. cbn [fst snd] in E. rewrite Z.sub_diag, Z.mul_1_r in E. rewrite E. pose proof (round_fits p (V + W) (K - t) K Hp ltac:(lia) ltac:(lia) ltac:(lia)) as M. replace (K - (K - t)) with t in M by lia. exact M.
    - pose proof (S K ltac:(cbn; lia) ltac:(cbn; lia)) as E. cbn [fst snd] in E. rewrite Z.sub_diag, Z.mul_1_r in E. pose proof (pow2_pos (t - K) ltac:(lia)) as Pt. assert (TT : T <= V + W) by (rewrite <- E; clear - P Pt; nia). assert (LT : Z.log2 T + (t - K) = Z.log2 (V + W)) by (rewrite <- E, Z.log2_mul_pow2 by lia; lia).
      destruct (round_fits p T 0 t) as (C & c & M & HC & SC); [lia|lia|lia|lia|]. rewrite Z.mul_1_r, Z.sub_0_r in M. exists C, c. split; [exact M|]. split; [exact HC|]. exact (same_trans _ _ _ SC S). }
  destruct X as (C & c & -> & HC & SC). cbn [mpfr_differ]. cbv zeta. apply negb_false_iff, Z.eqb_eq. assert (SD : same (C, c) (T, t)). { apply (same_trans _ _ _ SC). intros L L1 L2. symmetry. apply S; assumption. } apply SD; cbn; lia.
Qed.

(** ** The four additions *)
Definition chain (E F : Z) (v0 v1 v2 v3 : fval) : option Z :=
  let p := 12 * (F + 2) in
  do _ <- assert_ (negb (add_inexact p v0 v1)); let s := mpfr_add p RNDN v0 v1 in
  do _ <- assert_ (negb (add_inexact p s v2)); let s := mpfr_add p RNDN s v2 in
  do _ <- assert_ (negb (add_inexact p s v3)); let s := mpfr_add p RNDN s v3 in
  fl_of_mpfr E F (F + 1) true (mpfr_set (F + 1) RNDD s).
Lemma mul_sharp p F m e n f : 0 <= F -> 2 * F + 2 <= p -> 2 ^ F <= m < 2 ^ (F + 1) -> 2 ^ F <= n < 2 ^ (F + 1) -> mp_emin <= e + f + 2 * F + 1 -> e + f + 2 * F + 2 <= mp_emax ->
  exists j, 0 <= j /\ mpfr_mul p RNDN (Num false m e) (Num false n f) = Num false (m * n * 2 ^ j) (e + f - j) /\ mul_inexact p (Num false m e) (Num false n f) = false.
Proof.
  intros HF Hp Hm Hn Lo Hi. destruct (mul_exact p F m e n f HF Hp Hm Hn Lo Hi) as (j & J & M). exists j. split; [exact J|]. split; [exact M|]. unfold mul_inexact. rewrite M. cbn [mpfr_differ xorb]. cbv zeta. apply negb_false_iff, Z.eqb_eq. rewrite Z.min_l by lia. rewrite Z.sub_diag, Z.mul_1_r. replace (e + f - (e + f - j)) with j by lia. reflexivity.
Qed.
Definition product (p : Z * Z) (v : fval) : Prop := exists j, 0 <= j /\ v = Num false (fst p * 2 ^ j) (snd p - j).
Lemma large_chain E F a0 a1 a2 a3 b0 b1 b2 b3 : 1 <= E <= 29 -> 1 <= F <= 128 ->
  wf (E + F + 3) a0 -> wf (E + F + 3) a1 -> wf (E + F + 3) a2 -> wf (E + F + 3) a3 -> wf (E + F + 3) b0 -> wf (E + F + 3) b1 -> wf (E + F + 3) b2 -> wf (E + F + 3) b3 ->
  pos_normal (decode E F a0) -> pos_normal (decode E F a1) -> pos_normal (decode E F a2) -> pos_normal (decode E F a3) -> pos_normal (decode E F b0) -> pos_normal (decode E F b1) -> pos_normal (decode E F b2) -> pos_normal (decode E F b3) ->
  exists v0 v1 v2 v3, dot4_ref_large E F a0 a1 a2 a3 b0 b1 b2 b3 = chain E F v0 v1 v2 v3 /\
    product (dmul (decode E F a0) (decode E F b0)) v0 /\ product (dmul (decode E F a1) (decode E F b1)) v1 /\ product (dmul (decode E F a2) (decode E F b2)) v2 /\ product (dmul (decode E F a3) (decode E F b3)) v3.
Proof.
  intros HE HF U0 U1 U2 U3 V0 V1 V2 V3 P0 P1 P2 P3 Q0 Q1 Q2 Q3. destruct (emax_29 E HE) as [Lo Hi]. assert (ML : mp_emin = 1 - 2 ^ 30) by reflexivity. assert (MH : mp_emax = 2 ^ 30 - 1) by reflexivity.
  unfold dot4_ref_large. rewrite !check_ok by (assumption || lia). cbn [bind]. rewrite !fl_get_ok by (assumption || lia). cbn [bind]. cbv zeta.
  destruct (dot_num E F a0 ltac:(lia) ltac:(lia) U0 P0) as (m0 & e0 & -> & M0 & X0). destruct (dot_num E F a1 ltac:(lia) ltac:(lia) U1 P1) as (m1 & e1 & -> & M1 & X1).
  destruct (dot_num E F a2 ltac:(lia) ltac:(lia) U2 P2) as (m2 & e2 & -> & M2 & X2). destruct (dot_num E F a3 ltac:(lia) ltac:(lia) U3 P3) as (m3 & e3 & -> & M3 & X3).
  destruct (dot_num E F b0 ltac:(lia) ltac:(lia) V0 Q0) as (n0 & f0 & -> & N0 & Y0). destruct (dot_num E F b1 ltac:(lia) ltac:(lia) V1 Q1) as (n1 & f1 & -> & N1 & Y1).
  destruct (dot_num E F b2 ltac:(lia) ltac:(lia) V2 Q2) as (n2 & f2 & -> & N2 & Y2). destruct (dot_num E F b3 ltac:(lia) ltac:(lia) V3 Q3) as (n3 & f3 & -> & N3 & Y3).
  destruct (mul_sharp (12 * (F + 2)) F m0 e0 n0 f0) as (j0 & J0 & R0 & I0); [lia|lia|assumption|assumption|lia|lia|]. destruct (mul_sharp (2 * (F + 1)) F m1 e1 n1 f1) as (j1 & J1 & R1 & I1); [lia|lia|assumption|assumption|lia|lia|].
  destruct (mul_sharp (2 * (F + 1)) F m2 e2 n2 f2) as (j2 & J2 & R2 & I2); [lia|lia|assumption|assumption|lia|lia|]. destruct (mul_sharp (2 * (F + 1)) F m3 e3 n3 f3) as (j3 & J3 & R3 & I3); [lia|lia|assumption|assumption|lia|lia|].
  rewrite I0, I1, I2, I3, R0, R1, R2, R3. cbn [negb assert_ bind orb dmul]. eexists _, _, _, _. split; [reflexivity|]. repeat split; (eexists; split; [|reflexivity]); assumption.
Qed.
Lemma product_same p v : 0 < fst p -> product p v -> exists A a, v = Num false A a /\ 0 < A /\ same (A, a) p.
Proof.
  intros H (j & J & ->). eexists _, _. split; [reflexivity|]. pose proof (pow2_pos j J). split; [apply Z.mul_pos_pos; assumption|]. apply (same_at (snd p - j)); cbn [fst snd]; [lia|lia|]. rewrite Z.sub_diag, Z.mul_1_r. replace (snd p - (snd p - j)) with j by lia. reflexivity.
Qed.
Lemma assert_some {A} b (k : unit -> option A) r : bind (assert_ b) k = Some r -> b = true /\ k tt = Some r.
Proof. destruct b; [intros H; split; [reflexivity|exact H]|discriminate]. Qed.
Lemma chain_right E F v0 v1 v2 v3 p0 p1 p2 p3 r : ok_ef E F -> 0 < fst p0 -> 0 < fst p1 -> 0 < fst p2 -> 0 < fst p3 -> product p0 v0 -> product p1 v1 -> product p2 v2 -> product p3 v3 ->
  chain E F v0 v1 v2 v3 = Some r -> wf (E + F + 3) r /\ decode E F r = rndd E F (dadd (dadd p0 p1) (dadd p2 p3)).
Proof.
  intros HO H0 H1 H2 H3 Q0 Q1 Q2 Q3. destruct (product_same _ _ H0 Q0) as (A0 & a0 & -> & G0 & S0). destruct (product_same _ _ H1 Q1) as (A1 & a1 & -> & G1 & S1). destruct (product_same _ _ H2 Q2) as (A2 & a2 & -> & G2 & S2). destruct (product_same _ _ H3 Q3) as (A3 & a3 & -> & G3 & S3).
  unfold chain. cbv zeta. remember (12 * (F + 2)) as p. intros H. apply assert_some in H. destruct H as [T H]. apply negb_true_iff in T. destruct (add_checked p A0 a0 A1 a1 G0 G1 T) as (B1 & b1 & R1 & K1 & S1'). rewrite R1 in H.
  apply assert_some in H. destruct H as [T2 H]. apply negb_true_iff in T2. destruct (add_checked p B1 b1 A2 a2 K1 G2 T2) as (B2 & b2 & R2 & K2 & S2'). rewrite R2 in H.
  apply assert_some in H. destruct H as [T3 H]. apply negb_true_iff in T3. destruct (add_checked p B2 b2 A3 a3 K2 G3 T3) as (B3 & b3 & R3 & K3 & S3'). rewrite R3 in H. cbn [mpfr_set] in H.
  destruct (down_num E F B3 b3 HO K3) as (r' & E' & W & D). rewrite H in E'. injection E' as <-. split; [exact W|]. rewrite D. destruct HO. apply rndd_eqv; [lia|exact K3|repeat apply dadd_pos; assumption|].
  apply (same_trans _ _ _ S3'). eapply same_trans; [|apply same_assoc]. apply same_dadd; [|exact S3]. apply (same_trans _ _ _ S2'). apply same_dadd; [|exact S2]. apply (same_trans _ _ _ S1'). apply same_dadd; assumption.
Qed.
Lemma chain_ok E F v0 v1 v2 v3 p0 p1 p2 p3 : ok_ef E F -> 1 <= F <= 128 -> 0 < fst p0 < 2 ^ (2 * F + 2) -> 0 < fst p1 < 2 ^ (2 * F + 2) -> 0 < fst p2 < 2 ^ (2 * F + 2) -> 0 < fst p3 < 2 ^ (2 * F + 2) ->
  Forall (fun p => - 2 ^ 29 - 256 < snd p <= 2 ^ 29) (p0 :: p1 :: p2 :: p3 :: nil) -> within (10 * (F + 2)) (p0 :: p1 :: p2 :: p3 :: nil) -> product p0 v0 -> product p1 v1 -> product p2 v2 -> product p3 v3 ->
  rounds_to E F (chain E F v0 v1 v2 v3) (rndd E F (dadd (dadd p0 p1) (dadd p2 p3))).
Proof.
  intros HO HF H0 H1 H2 H3 B SP Q0 Q1 Q2 Q3. rewrite !Forall_cons_iff in B. destruct B as (B0 & B1 & B2 & B3 & _). assert (ML : mp_emin = 1 - 2 ^ 30) by reflexivity. assert (MH : mp_emax = 2 ^ 30 - 1) by reflexivity.
  assert (X : exists r, chain E F v0 v1 v2 v3 = Some r). 2:{ destruct X as [r X]. exists r. split; [exact X|]. apply (chain_right E F v0 v1 v2 v3 p0 p1 p2 p3 r); (assumption || lia). }
  remember (Z.min (Z.min (snd p0) (snd p1)) (Z.min (snd p2) (snd p3))) as K eqn:EK.
  assert (PW : forall p, In p (p0 :: p1 :: p2 :: p3 :: nil) -> 0 < fst p < 2 ^ (2 * F + 2) -> K <= snd p -> 0 < fst p * 2 ^ (snd p - K) < 2 ^ (12 * F + 22) /\ same p (fst p * 2 ^ (snd p - K), K)).
  { intros p I Hp L. assert (D : snd p - K <= 10 * (F + 2)). { destruct (Z.min_spec (snd p0) (snd p1)) as [[_ Z1]|[_ Z1]], (Z.min_spec (snd p2) (snd p3)) as [[_ Z2]|[_ Z2]], (Z.min_spec (Z.min (snd p0) (snd p1)) (Z.min (snd p2) (snd p3))) as [[_ Z3]|[_ Z3]]; rewrite EK, Z3, ?Z1, ?Z2; apply SP; (assumption || (cbn; tauto)). }
    split. { pose proof (pow2_pos (snd p - K) ltac:(lia)) as P1. assert (P2 : 2 ^ (snd p - K) <= 2 ^ (10 * (F + 2))) by (apply Z.pow_le_mono_r; lia). replace (12 * F + 22) with (2 * F + 2 + 10 * (F + 2)) by lia. rewrite (pow2_add (2 * F + 2) (10 * (F + 2))) by lia. clear - Hp P1 P2. nia. }
    apply (same_at K); cbn [fst snd]; [exact L|lia|]. rewrite Z.sub_diag, Z.mul_1_r. reflexivity. }
  destruct (PW p0 ltac:(cbn; tauto) H0 ltac:(lia)) as [W0 T0]. destruct (PW p1 ltac:(cbn; tauto) H1 ltac:(lia)) as [W1 T1]. destruct (PW p2 ltac:(cbn; tauto) H2 ltac:(lia)) as [W2 T2]. destruct (PW p3 ltac:(cbn; tauto) H3 ltac:(lia)) as [W3 T3].
  destruct (product_same p0 _ (proj1 H0) Q0) as (A0 & a0 & -> & G0 & S0). destruct (product_same p1 _ (proj1 H1) Q1) as (A1 & a1 & -> & G1 & S1). destruct (product_same p2 _ (proj1 H2) Q2) as (A2 & a2 & -> & G2 & S2). destruct (product_same p3 _ (proj1 H3) Q3) as (A3 & a3 & -> & G3 & S3).
  pose proof (same_trans _ _ _ S0 T0) as U0. pose proof (same_trans _ _ _ S1 T1) as U1. pose proof (same_trans _ _ _ S2 T2) as U2. pose proof (same_trans _ _ _ S3 T3) as U3.
  remember (fst p0 * 2 ^ (snd p0 - K)) as w0. remember (fst p1 * 2 ^ (snd p1 - K)) as w1. remember (fst p2 * 2 ^ (snd p2 - K)) as w2. remember (fst p3 * 2 ^ (snd p3 - K)) as w3.
  assert (FOUR : 2 ^ (12 * (F + 2)) = 4 * 2 ^ (12 * F + 22)) by (replace (12 * (F + 2)) with (2 + (12 * F + 22)) by lia; rewrite pow2_add by lia; reflexivity).
  assert (DD : forall A B, same (dadd (A, K) (B, K)) (A + B, K)). { intros A B. unfold dadd. cbv zeta. rewrite Z.min_id, Z.sub_diag, !Z.mul_1_r. apply same_refl. }
  unfold chain. cbv zeta. remember (12 * (F + 2)) as p.
  assert (RR : 1 <= p /\ mp_emin <= K /\ K + p <= mp_emax /\ 0 < w0 /\ 0 < w1 /\ 0 < w2 /\ 0 < w3 /\ 0 < w0 + w1 /\ 0 < w0 + w1 + w2 /\ w0 + w1 < 2 ^ p /\ w0 + w1 + w2 < 2 ^ p /\ w0 + w1 + w2 + w3 < 2 ^ p) by (clear - Heqp HF EK B0 B1 B2 B3 ML MH W0 W1 W2 W3 FOUR; lia).
  destruct RR as (RR1 & RR2 & RR3 & RR4 & RR5 & RR6 & RR7 & RR8 & RR9 & RR10 & RR11 & RR12).
  assert (I1 : add_inexact p (Num false A0 a0) (Num false A1 a1) = false) by (apply (add_fits p A0 a0 A1 a1 w0 w1 K); assumption). rewrite I1. cbn [negb assert_ bind].
  destruct (add_checked p A0 a0 A1 a1 G0 G1 I1) as (C1 & c1 & -> & K1 & X1). pose proof (same_trans _ _ _ (same_trans _ _ _ X1 (same_dadd _ _ _ _ U0 U1)) (DD _ _)) as Y1.
  assert (I2 : add_inexact p (Num false C1 c1) (Num false A2 a2) = false) by (apply (add_fits p C1 c1 A2 a2 (w0 + w1) w2 K); assumption). rewrite I2. cbn [negb assert_ bind].
  destruct (add_checked p C1 c1 A2 a2 K1 G2 I2) as (C2 & c2 & -> & K2 & X2). pose proof (same_trans _ _ _ (same_trans _ _ _ X2 (same_dadd _ _ _ _ Y1 U2)) (DD _ _)) as Y2.
  assert (I3 : add_inexact p (Num false C2 c2) (Num false A3 a3) = false) by (apply (add_fits p C2 c2 A3 a3 (w0 + w1 + w2) w3 K); assumption). rewrite I3. cbn [negb assert_ bind].
  destruct (add_checked p C2 c2 A3 a3 K2 G3 I3) as (C3 & c3 & -> & K3 & X3). cbn [mpfr_set]. destruct (down_num E F C3 c3 HO K3) as (r & R & _). exists r. exact R.
Qed.
Lemma dmul_bounds E F x y : 1 <= E <= 29 -> 1 <= F <= 128 -> wf (E + F + 3) x -> wf (E + F + 3) y -> pos_normal (decode E F x) -> pos_normal (decode E F y) ->
  0 < fst (dmul (decode E F x) (decode E F y)) < 2 ^ (2 * F + 2) /\ - 2 ^ 29 - 256 < snd (dmul (decode E F x) (decode E F y)) <= 2 ^ 29.
Proof.
  intros HE HF Wx Wy Px Py. destruct (dot_num E F x ltac:(lia) ltac:(lia) Wx Px) as (m & e & -> & M & X). destruct (dot_num E F y ltac:(lia) ltac:(lia) Wy Py) as (n & f & -> & N & Y). cbn [dmul fst snd]. pose proof (prod_bounds F m n ltac:(lia) M N). pose proof (pow2_pos (2 * F) ltac:(lia)).
  unfold emin, emax, bias in *. assert (2 ^ (E - 1) <= 2 ^ 28) by (apply Z.pow_le_mono_r; lia). lia.
Qed.
Lemma ref4_right E F a0 a1 a2 a3 b0 b1 b2 b3 r : 1 <= E <= 11 -> 6 <= F <= 52 ->
  wf (E + F + 3) a0 -> wf (E + F + 3) a1 -> wf (E + F + 3) a2 -> wf (E + F + 3) a3 -> wf (E + F + 3) b0 -> wf (E + F + 3) b1 -> wf (E + F + 3) b2 -> wf (E + F + 3) b3 ->
  pos_normal (decode E F a0) -> pos_normal (decode E F a1) -> pos_normal (decode E F a2) -> pos_normal (decode E F a3) -> pos_normal (decode E F b0) -> pos_normal (decode E F b1) -> pos_normal (decode E F b2) -> pos_normal (decode E F b3) ->
  dot4_ref E F a0 a1 a2 a3 b0 b1 b2 b3 = Some r -> wf (E + F + 3) r /\ decode E F r = dot4_spec E F (decode E F a0) (decode E F a1) (decode E F a2) (decode E F a3) (decode E F b0) (decode E F b1) (decode E F b2) (decode E F b3).
Proof.
  intros HE HF U0 U1 U2 U3 V0 V1 V2 V3 P0 P1 P2 P3 Q0 Q1 Q2 Q3. unfold dot4_ref. replace ((F <=? 52) && (E <=? 11)) with true by lia. cbn [assert_ bind]. replace ((F + 1) * 8 <? 52) with false by lia.
  destruct (large_chain E F a0 a1 a2 a3 b0 b1 b2 b3) as (v0 & v1 & v2 & v3 & -> & R0 & R1 & R2 & R3); try assumption; try lia.
  destruct (dmul_bounds E F a0 b0) as [D0 _]; try assumption; try lia. destruct (dmul_bounds E F a1 b1) as [D1 _]; try assumption; try lia. destruct (dmul_bounds E F a2 b2) as [D2 _]; try assumption; try lia. destruct (dmul_bounds E F a3 b3) as [D3 _]; try assumption; try lia.
  intros H. unfold dot4_spec, dot4_exact. apply (chain_right E F v0 v1 v2 v3); try assumption; try apply D0; try apply D1; try apply D2; try apply D3. split; lia.
Qed.
Lemma ref4_ok E F a0 a1 a2 a3 b0 b1 b2 b3 : 1 <= E <= 11 -> 6 <= F <= 52 ->
  wf (E + F + 3) a0 -> wf (E + F + 3) a1 -> wf (E + F + 3) a2 -> wf (E + F + 3) a3 -> wf (E + F + 3) b0 -> wf (E + F + 3) b1 -> wf (E + F + 3) b2 -> wf (E + F + 3) b3 ->
  pos_normal (decode E F a0) -> pos_normal (decode E F a1) -> pos_normal (decode E F a2) -> pos_normal (decode E F a3) -> pos_normal (decode E F b0) -> pos_normal (decode E F b1) -> pos_normal (decode E F b2) -> pos_normal (decode E F b3) ->
  within (10 * (F + 2)) (dmul (decode E F a0) (decode E F b0) :: dmul (decode E F a1) (decode E F b1) :: dmul (decode E F a2) (decode E F b2) :: dmul (decode E F a3) (decode E F b3) :: nil) ->
  rounds_to E F (dot4_ref E F a0 a1 a2 a3 b0 b1 b2 b3) (dot4_spec E F (decode E F a0) (decode E F a1) (decode E F a2) (decode E F a3) (decode E F b0) (decode E F b1) (decode E F b2) (decode E F b3)).
Proof.
  intros HE HF U0 U1 U2 U3 V0 V1 V2 V3 P0 P1 P2 P3 Q0 Q1 Q2 Q3 SP. unfold dot4_ref. replace ((F <=? 52) && (E <=? 11)) with true by lia. cbn [assert_ bind]. replace ((F + 1) * 8 <? 52) with false by lia.
  destruct (large_chain E F a0 a1 a2 a3 b0 b1 b2 b3) as (v0 & v1 & v2 & v3 & -> & R0 & R1 & R2 & R3); try assumption; try lia.
  destruct (dmul_bounds E F a0 b0) as [D0 G0]; try assumption; try lia. destruct (dmul_bounds E F a1 b1) as [D1 G1]; try assumption; try lia. destruct (dmul_bounds E F a2 b2) as [D2 G2]; try assumption; try lia. destruct (dmul_bounds E F a3 b3) as [D3 G3]; try assumption; try lia.
  unfold dot4_spec, dot4_exact. apply chain_ok; try assumption; [split; lia|lia|]. repeat constructor; (apply G0 || apply G1 || apply G2 || apply G3).
Qed.
Lemma ref4_both E F a0 a1 a2 a3 b0 b1 b2 b3 : 1 <= E <= 11 -> 6 <= F <= 52 ->
  wf (E + F + 3) a0 -> wf (E + F + 3) a1 -> wf (E + F + 3) a2 -> wf (E + F + 3) a3 -> wf (E + F + 3) b0 -> wf (E + F + 3) b1 -> wf (E + F + 3) b2 -> wf (E + F + 3) b3 ->
  pos_normal (decode E F a0) -> pos_normal (decode E F a1) -> pos_normal (decode E F a2) -> pos_normal (decode E F a3) -> pos_normal (decode E F b0) -> pos_normal (decode E F b1) -> pos_normal (decode E F b2) -> pos_normal (decode E F b3) ->
  let spec := dot4_spec E F (decode E F a0) (decode E F a1) (decode E F a2) (decode E F a3) (decode E F b0) (decode E F b1) (decode E F b2) (decode E F b3) in
  (forall r, dot4_ref E F a0 a1 a2 a3 b0 b1 b2 b3 = Some r -> wf (E + F + 3) r /\ decode E F r = spec) /\
  (within (10 * (F + 2)) (dmul (decode E F a0) (decode E F b0) :: dmul (decode E F a1) (decode E F b1) :: dmul (decode E F a2) (decode E F b2) :: dmul (decode E F a3) (decode E F b3) :: nil) ->
   exists r, dot4_ref E F a0 a1 a2 a3 b0 b1 b2 b3 = Some r).
Proof.
  intros HE HF U0 U1 U2 U3 V0 V1 V2 V3 P0 P1 P2 P3 Q0 Q1 Q2 Q3 spec. split.
  - intros r. apply ref4_right; assumption.
  - intros SP. destruct (ref4_ok E F a0 a1 a2 a3 b0 b1 b2 b3) as (r & R & _); try assumption. exists r. exact R.
Qed.
Lemma ref4_aborts : exists a0 a1 a2 a3 b0 b1 b2 b3, Forall (fun x => wf (8 + 6 + 3) x /\ pos_normal (decode 8 6 x)) (a0 :: a1 :: a2 :: a3 :: b0 :: b1 :: b2 :: b3 :: nil) /\
  dot4_ref 8 6 a0 a1 a2 a3 b0 b1 b2 b3 = None.
Proof.
  pose (one := 2 ^ 15 + 127 * 64). pose (tiny := 2 ^ 15 + 67 * 64). exists one, tiny, one, one, one, tiny, one, one. assert (H : wf (8 + 6 + 3) one /\ pos_normal (decode 8 6 one)) by (split; [unfold wf, one; lia|exists 64, (-6); reflexivity]). assert (H' : wf (8 + 6 + 3) tiny /\ pos_normal (decode 8 6 tiny)) by (split; [unfold wf, tiny; lia|exists 64, (-66); reflexivity]).
  split; [repeat (constructor; [assumption|]); constructor|vm_compute; reflexivity].
Qed.
