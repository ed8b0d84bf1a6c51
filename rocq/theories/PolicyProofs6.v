(** make_input: which inputs the test program makes for itself. *)
From Coq Require Import ZArith List Bool Lia.
From Verif Require Import Fw FwLemmas Spec SpecPolicy SpecDbl SpecLemmas MpfrLib MpfrRange MpfrProofs MpfrProofs2 Dbl DblProofs Policy.
Import ListNotations.
Open Scope Z_scope.

(** Rounding a number whose leading bit is at g+k. *)
Lemma mp_round_norm F s n k g : 0 <= F -> 0 < n -> Z.log2 n = g -> mp_emin + 1 <= g + k + 1 -> g + k + 2 <= mp_emax ->
  exists m e, mp_round (F + 1) RNDN s n 1 k = Num s m e /\ 2 ^ F <= m < 2 ^ (F + 1) /\ g + k <= e + F <= g + k + 1.
Proof.
  intros HF Hn Hg L1 L2. rewrite mp_round_n by lia. pose proof (round_pos_range F n 1 HF Hn ltac:(lia)) as R. assert (S : mag n 1 - F <= snd (round_pos F n 1) <= mag n 1 - F + 1) by (unfold round_pos; cbv zeta; destruct (_ =? _); cbn [snd]; lia). rewrite mag_int' in S by lia. destruct (round_pos F n 1) as [m e]. cbn [fst snd] in *.
  replace (mp_emax <? e + k + (F + 1)) with false by lia. replace (e + k + (F + 1) <? mp_emin) with false by lia. exists m, (e + k). split; [reflexivity|]. split; lia.
Qed.
Lemma mp_round_pow2 F s c k : 0 <= F -> 0 <= c -> mp_emin <= c + k + 1 <= mp_emax -> mp_round (F + 1) RNDN s (2 ^ c) 1 k = Num s (2 ^ F) (c + k - F).
Proof.
  intros HF Hc L. rewrite mp_round_n by lia. pose proof (pow2_pos c Hc). rewrite (round_pos_char F (2 ^ c) 1 (c - F) (2 ^ F) 1); try lia.
  - rewrite SpecLemmas.rne_div_1. unfold norm_me. assert (2 ^ F < 2 ^ (F + 1)) by (apply pow2_lt; lia). replace (2 ^ F =? 2 ^ (F + 1)) with false by lia. replace (mp_emax <? _) with false by lia. replace (_ <? mp_emin) with false by lia. f_equal. lia.
  - unfold num2, den2. rewrite Z.mul_1_l, Z.mul_1_r, <- !Z.pow_add_r by lia. f_equal. lia.
  - pose proof (pow2_pos F HF). assert (2 ^ (F + 1) = 2 * 2 ^ F) by (rewrite Z.pow_add_r; lia). lia.
Qed.

Section Inputs.
Variables (P : policy) (F lo hi : Z) (good : Z -> Prop).
Hypothesis HF : 1 <= F <= 128.
Hypothesis HD : digits P = F + 1.
Hypothesis Hlo : - 2 ^ 29 <= lo <= -5.
Hypothesis Hhi : 5 <= hi <= 2 ^ 29.
Hypothesis HN : forall allow s m e, 2 ^ F <= m < 2 ^ (F + 1) -> lo <= e + F <= hi -> exists w, from_mpfr P allow (Num s m e) = Some w /\ good w.
Hypothesis HP : forall s e, - (F + 7) <= e + F <= F + 7 -> exists w, from_mpfr P true (Num s (2 ^ F) e) = Some w /\ good w.
Hypothesis HI : exists w, from_mpfr P false (Inf true) = Some w /\ good w.
Hypothesis HZ : forall s, exists w, from_mpfr P false (Zero s) = Some w /\ good w.
Hypothesis Hmax : to_mpfr P (lmax P) = Some (Num false (2 ^ (F + 1) - 1) (hi - F)) /\ good (lmax P).
Hypothesis Hmin : to_mpfr P (lmin P) = Some (Num false (2 ^ F) (lo - F)) /\ good (lmin P).
Hypothesis Hinf : good (linf P).

Lemma range30 : mp_emax = 2 * 2 ^ 29 - 1 /\ mp_emin = - (2 * 2 ^ 29 - 1) /\ 1000 < 2 ^ 29. Proof. repeat split; reflexivity. Qed.
Lemma powF : 2 <= 2 ^ F /\ 2 ^ (F + 1) = 2 * 2 ^ F.
Proof. split; [change 2 with (2 ^ 1) at 1; apply Z.pow_le_mono_r; lia|rewrite Z.pow_add_r; lia]. Qed.
Lemma neg1_num s m e : 2 ^ F <= m < 2 ^ (F + 1) -> - 2 ^ 29 - 500 <= e + F <= 2 ^ 29 + 500 -> mpfr_mul_neg1 (F + 1) RNDN (Num s m e) = Num (negb s) m e.
Proof.
  intros Hm He. destruct range30 as (R1 & R2 & R3). unfold mpfr_mul_neg1, mpfr_mul. replace (xorb s true) with (negb s) by (destruct s; reflexivity). rewrite Z.mul_1_r, Z.add_0_r. apply mp_round_same; [lia|replace (F + 1 - 1) with F by lia; lia|lia].
Qed.
Lemma push2_ok allow s m e : 2 ^ F <= m < 2 ^ (F + 1) -> - 2 ^ 29 - 500 <= e + F <= 2 ^ 29 + 500 -> lo <= e + F <= hi \/ allow = true /\ m = 2 ^ F /\ - (F + 7) <= e + F <= F + 7 ->
  exists a b, push2 P allow (Num s m e) = Some ([a; b], Num s m e) /\ good a /\ good b.
Proof.
  intros Hm He Hc. assert (G : forall t, exists w, from_mpfr P allow (Num t m e) = Some w /\ good w).
  { intros t. destruct Hc as [Hc|[-> [-> Hc]]]; [apply HN; assumption|apply HP; exact Hc]. }
  destruct (G s) as [a [A1 A2]]. destruct (G (negb s)) as [b [B1 B2]]. exists a, b. split; [|split; assumption].
  unfold push2. rewrite A1. cbn [bind]. cbv zeta. rewrite HD, neg1_num by assumption. rewrite B1. cbn [bind]. rewrite neg1_num by assumption. rewrite negb_involutive. reflexivity.
Qed.
Definition made (o : option (list Z)) (n : nat) : Prop := exists l, o = Some l /\ length l = n /\ Forall good l.
Lemma push_doubles_ok allow ds : (forall d, In d ds -> exists m e, mpfr_set_d (F + 1) d = Num false m e /\ 2 ^ F <= m < 2 ^ (F + 1) /\ - 2 ^ 29 - 500 <= e + F <= 2 ^ 29 + 500 /\ (lo <= e + F <= hi \/ allow = true /\ m = 2 ^ F /\ - (F + 7) <= e + F <= F + 7)) ->
  made (push_doubles P allow ds) (2 * length ds).
Proof.
  induction ds as [|d ds IH]; intros H; [exists []; repeat split; constructor|].
  destruct (H d (or_introl eq_refl)) as [m [e [D1 [D2 [D3 D4]]]]]. destruct (push2_ok allow false m e D2 D3 D4) as [a [b [B1 [B2 B3]]]]. destruct (IH (fun x Hx => H x (or_intror Hx))) as [l [L1 [L2 L3]]].
  cbn [push_doubles]. rewrite HD, D1, B1. cbn [bind]. rewrite L1. cbn [bind fst app]. eexists. split; [reflexivity|]. split; [cbn [length]; lia|]. repeat constructor; assumption.
Qed.
(** The position of a positive number among the p-bit numbers: mpfr_nextabove adds one. *)
Definition idx (m e : Z) : Z := (e + F) * 2 ^ F + (m - 2 ^ F).
Lemma idx_range m e : 2 ^ F <= m < 2 ^ (F + 1) -> lo * 2 ^ F <= idx m e < (hi + 1) * 2 ^ F -> lo <= e + F <= hi.
Proof. intros Hm Hi. destruct powF as [P1 P2]. unfold idx in Hi. nia. Qed.
Lemma next_above m e : 2 ^ F <= m < 2 ^ (F + 1) -> lo <= e + F <= hi ->
  exists m' e', mpfr_nextabove (F + 1) (Num false m e) = Num false m' e' /\ 2 ^ F <= m' < 2 ^ (F + 1) /\ idx m' e' = idx m e + 1.
Proof.
  intros Hm He. destruct powF as [P1 P2]. destruct range30 as (R1 & R2 & R3). cbn [mpfr_nextabove]. unfold mp_up, idx. replace (F + 1 - 1) with F by lia. destruct (m =? 2 ^ (F + 1) - 1) eqn:M.
  - replace (e + (F + 1) =? mp_emax) with false by lia. exists (2 ^ F), (e + 1). split; [reflexivity|]. split; [lia|]. nia.
  - exists (m + 1), e. split; [reflexivity|]. split; lia.
Qed.
Lemma next_below m e : 2 ^ F <= m < 2 ^ (F + 1) -> lo <= e + F <= hi ->
  exists m' e', mpfr_nextbelow (F + 1) (Num false m e) = Num false m' e' /\ 2 ^ F <= m' < 2 ^ (F + 1) /\ idx m' e' = idx m e - 1.
Proof.
  intros Hm He. destruct powF as [P1 P2]. destruct range30 as (R1 & R2 & R3). unfold mpfr_nextbelow. cbn [mpfr_nextabove neg_spec negb]. unfold mp_down, idx. replace (F + 1 - 1) with F by lia. destruct (m =? 2 ^ F) eqn:M.
  - replace (e + (F + 1) =? mp_emin) with false by lia. exists (2 ^ (F + 1) - 1), (e - 1). split; [reflexivity|]. split; [lia|]. nia.
  - exists (m - 1), e. split; [reflexivity|]. split; lia.
Qed.
Lemma steps_above k : forall m e, 2 ^ F <= m < 2 ^ (F + 1) -> lo * 2 ^ F <= idx m e -> idx m e + Z.of_nat k < (hi + 1) * 2 ^ F ->
  made (push_steps P mpfr_nextabove k (Num false m e)) (2 * k).
Proof.
  induction k as [|k IH]; intros m e Hm H1 H2; [exists []; repeat split; constructor|].
  destruct (next_above m e Hm (idx_range m e Hm ltac:(lia))) as [m' [e' [N1 [N2 N3]]]]. assert (R : lo <= e' + F <= hi) by (apply (idx_range m'); [exact N2|lia]).
  destruct (push2_ok false false m' e' N2 ltac:(lia) (or_introl R)) as [a [b [B1 [B2 B3]]]]. destruct (IH m' e' N2 ltac:(lia) ltac:(lia)) as [l [L1 [L2 L3]]].
  cbn [push_steps]. rewrite HD, N1, B1. cbn [bind snd]. rewrite L1. cbn [bind fst app]. eexists. split; [reflexivity|]. split; [cbn [length]; lia|]. repeat constructor; assumption.
Qed.
Lemma steps_below k : forall m e, 2 ^ F <= m < 2 ^ (F + 1) -> lo * 2 ^ F <= idx m e - Z.of_nat k -> idx m e < (hi + 1) * 2 ^ F ->
  made (push_steps P mpfr_nextbelow k (Num false m e)) (2 * k).
Proof.
  induction k as [|k IH]; intros m e Hm H1 H2; [exists []; repeat split; constructor|].
  destruct (next_below m e Hm (idx_range m e Hm ltac:(lia))) as [m' [e' [N1 [N2 N3]]]]. assert (R : lo <= e' + F <= hi) by (apply (idx_range m'); [exact N2|lia]).
  destruct (push2_ok false false m' e' N2 ltac:(lia) (or_introl R)) as [a [b [B1 [B2 B3]]]]. destruct (IH m' e' N2 ltac:(lia) ltac:(lia)) as [l [L1 [L2 L3]]].
  cbn [push_steps]. rewrite HD, N1, B1. cbn [bind snd]. rewrite L1. cbn [bind fst app]. eexists. split; [reflexivity|]. split; [cbn [length]; lia|]. repeat constructor; assumption.
Qed.
Lemma ints_ok : made (push_doubles P false small_integers) 20.
Proof.
  apply (push_doubles_ok false small_integers). intros d Hd. destruct range30 as (R1 & R2 & R3).
  assert (D : exists m k, d = Num false m k /\ 0 < m /\ 0 <= Z.log2 m + k <= 3).
  { unfold small_integers in Hd. apply in_map_iff in Hd. destruct Hd as [a [<- Ha]]. apply in_seq in Ha.
    do 11 (destruct a as [|a]; [first [lia|do 2 eexists; split; [vm_compute; reflexivity|vm_compute; repeat split; discriminate]]|]). lia. }
  destruct D as [m [k [-> [D1 D2]]]]. unfold mpfr_set_d. cbn [mpfr_set]. destruct (mp_round_norm F false m k (Z.log2 m) ltac:(lia) D1 eq_refl ltac:(lia) ltac:(lia)) as [m' [e' [N1 [N2 N3]]]].
  exists m', e'. split; [exact N1|]. split; [exact N2|]. split; [lia|left; lia].
Qed.
Lemma powers_ok : made (push_doubles P true (binary_powers (F + 1))) (Z.to_nat (4 * (F + 1) + 24)).
Proof.
  replace (Z.to_nat (4 * (F + 1) + 24)) with (2 * length (binary_powers (F + 1)))%nat by (unfold binary_powers; rewrite map_length, seq_length; lia).
  apply push_doubles_ok. intros d Hd. destruct range30 as (R1 & R2 & R3). destruct powF as [P1 P2]. unfold binary_powers in Hd. apply in_map_iff in Hd. destruct Hd as [j [<- Hj]]. apply in_seq in Hj.
  remember (- (Z.of_nat j - (F + 1) - 6)) as i. assert (Bi : - (F + 7) <= i <= F + 7) by lia. clear Heqi Hj. unfold dbl_ldexp. pose proof (dbl_exact false (2 ^ 52) (-52 + i)) as X. assert (LG : Z.log2 (2 ^ 52) = 52) by reflexivity. rewrite LG in X. specialize (X ltac:(split; reflexivity) ltac:(lia) ltac:(lia)). cbv zeta in X. destruct X as [_ X].
  replace (-52 + i - Z.max (52 + (-52 + i) - 52) (-1074)) with 0 in X by lia. rewrite X. change (2 ^ 52 * 2 ^ 0) with (2 ^ 52). unfold mpfr_set_d. cbn [mpfr_set]. rewrite mp_round_pow2 by lia.
  exists (2 ^ F), (52 + (-52 + i - 0) - F). split; [reflexivity|]. split; [lia|]. split; [lia|]. right. split; [reflexivity|]. split; [reflexivity|lia].
Qed.
Lemma max_neg : exists w, from_mpfr P false (mpfr_mul_neg1 (F + 1) RNDN (Num false (2 ^ (F + 1) - 1) (hi - F))) = Some w /\ good w.
Proof. destruct powF as [P1 P2]. rewrite neg1_num by lia. apply HN; lia. Qed.
Lemma min_neg : exists w, from_mpfr P false (mpfr_mul_neg1 (F + 1) RNDN (Num false (2 ^ F) (lo - F))) = Some w /\ good w.
Proof. destruct powF as [P1 P2]. rewrite neg1_num by lia. apply HN; lia. Qed.
Theorem make_input_gen : exists l, Forall good l /\ length l = Z.to_nat (136 + 4 * F) /\ forall u n, make_input P u n = push_random P u n 0 n l.
Proof.
  destruct powF as [P1 P2]. destruct range30 as (R1 & R2 & R3).
  destruct ints_ok as [l1 [A1 [A2 A3]]]. destruct powers_ok as [l2 [B1 [B2 B3]]]. destruct HI as [i [I1 I2]]. destruct (HZ true) as [z [Z1 Z2]]. destruct (HZ false) as [y [Y1 Y2]]. destruct max_neg as [a [C1 C2]]. destruct min_neg as [b [D1 D2]]. destruct Hmax as [M1 M2]. destruct Hmin as [N1 N2].
  assert (O : mpfr_set_d (F + 1) (Num false (2 ^ 52) (-52)) = Num false (2 ^ F) (- F)) by (unfold mpfr_set_d; cbn [mpfr_set]; rewrite mp_round_pow2 by lia; f_equal; lia).
  assert (X1 : idx (2 ^ F) (- F) = 0) by (unfold idx; lia). assert (X2 : idx (2 ^ F) (lo - F) = lo * 2 ^ F) by (unfold idx; lia). assert (X3 : idx (2 ^ (F + 1) - 1) (hi - F) = (hi + 1) * 2 ^ F - 1) by (unfold idx; lia).
  assert (B5 : lo * 2 ^ F <= -10) by nia. assert (B6 : 10 <= hi * 2 ^ F) by nia.
  destruct (steps_above 10 (2 ^ F) (- F) ltac:(lia) ltac:(lia) ltac:(lia)) as [l3 [E1 [E2 E3]]]. destruct (steps_below 10 (2 ^ F) (- F) ltac:(lia) ltac:(lia) ltac:(lia)) as [l4 [F1 [F2 F3]]].
  destruct (steps_above 10 (2 ^ F) (lo - F) ltac:(lia) ltac:(lia) ltac:(lia)) as [l5 [G1 [G2 G3]]]. destruct (steps_below 10 (2 ^ (F + 1) - 1) (hi - F) ltac:(lia) ltac:(lia) ltac:(lia)) as [l6 [H1 [H2 H3]]].
  exists (l1 ++ [i; a; b; z; y; lmin P; lmax P; linf P] ++ l3 ++ l4 ++ l5 ++ l6 ++ l2). split; [|split].
  - rewrite !Forall_app. repeat split; try assumption. repeat constructor; assumption.
  - rewrite !app_length. cbn [length]. lia.
  - intros u n. unfold make_input. cbv zeta. rewrite HD, A1, I1, M1, N1. cbn [bind]. rewrite C1, D1, Z1, Y1. cbn [bind]. rewrite O, E1, F1, G1, H1, B1. cbn [bind]. reflexivity.
Qed.
End Inputs.
Lemma random_unused P u fuel n l : (n <= length l)%nat -> push_random P u fuel 0 n l = Some l.
Proof. intros H. destruct fuel; cbn [push_random]; replace (length l <? n)%nat with false by (symmetry; apply Nat.ltb_ge; exact H); reflexivity. Qed.
(** 0/0 among the draws: one pair of NaN. *)
Lemma random_nan P l w : from_mpfr P true NaN = Some w -> push_random P (fun _ => 0) (S (length l)) 0 (S (length l)) l = Some (l ++ [w; w]).
Proof.
  intros H. cbn [push_random]. replace (length l <? S (length l))%nat with true by (symmetry; apply Nat.ltb_lt; lia). cbv zeta. unfold mpfr_urandomb. cbn [Z.eqb mpfr_div]. unfold push2. rewrite H. cbn [bind]. cbv zeta. unfold mpfr_mul_neg1 at 1. cbn [mpfr_mul]. rewrite H. cbn [bind fst].
  generalize (length l) at 1. intros k. destruct k; cbn [push_random]; (replace (length (l ++ [w; w]) <? S (length l))%nat with false by (symmetry; apply Nat.ltb_ge; rewrite app_length; cbn [length]; lia)); reflexivity.
Qed.
