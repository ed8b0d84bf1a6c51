From Coq Require Import ZArith List Bool Lia.
From Verif Require Import Fw FwLemmas Spec SpecLemmas ValueLemmas SpecDot SpecDbl SpecMpfr Flopoco FlopocoLemmas FlopocoProofs CompareProofs MpfrLib Mpfr MpfrProofs MpfrProofs2 Dbl DblProofs DblProofs2 DblProofs3 Dot DotProofs DotProofs2 DotProofs5 RefDot SpecRefDot RefDotProofs RefDotProofs2 RefDotProofs4 RefDotProofs5 RefDotProofs6 RefDotProofs7.
Open Scope Z_scope.

Lemma dbl_mul_veq v w m e n f : 0 < m -> 0 < n -> dbl v -> dbl w -> veq v (Num false m e) -> veq w (Num false n f) -> dbl_mul v w = dbl_round false (m * n) (e + f).
Proof.
  intros Hm Hn Dv Dw Hv Hw. destruct v as [| | |s m' e']; try contradiction. destruct w as [| | |t n' f']; try contradiction. destruct Hv as [-> Cv], Hw as [-> Cw]. cbn [dbl_mul xorb].
  assert (0 < m') by (cbn in Dv; lia). assert (0 < n') by (cbn in Dw; lia). apply dbl_round_veq; [nia|nia|]. split; [reflexivity|].
  rewrite (cmp_num_k m' e' m e (Z.min e' e)) in Cv by lia. rewrite (cmp_num_k n' f' n f (Z.min f' f)) in Cw by lia. rewrite (cmp_num_k _ _ _ _ (Z.min e' e + Z.min f' f)) by lia. apply Z.compare_eq_iff in Cv, Cw. apply Z.compare_eq_iff.
  replace (e' + f' - (Z.min e' e + Z.min f' f)) with ((e' - Z.min e' e) + (f' - Z.min f' f)) by lia. replace (e + f - (Z.min e' e + Z.min f' f)) with ((e - Z.min e' e) + (f - Z.min f' f)) by lia. rewrite !pow2_add by lia.
  transitivity ((m' * 2 ^ (e' - Z.min e' e)) * (n' * 2 ^ (f' - Z.min f' f))); [ring|]. rewrite Cv, Cw. ring.
Qed.

Lemma dsum_down E F P0 x0 P1 x1 P2 x2 P3 x3 : 1 <= E <= 10 -> 1 <= F <= 5 -> 2 ^ (2 * F) <= P0 < 2 ^ (2 * F + 2) -> 2 ^ (2 * F) <= P1 < 2 ^ (2 * F + 2) -> 2 ^ (2 * F) <= P2 < 2 ^ (2 * F + 2) -> 2 ^ (2 * F) <= P3 < 2 ^ (2 * F + 2) ->
  -1074 <= x0 -> -1074 <= x1 -> -1074 <= x2 -> -1074 <= x3 ->
  rounds_to E F (fl_of_mpfr E F (F + 1) true (mpfr_set (F + 1) RNDD (dsum P0 x0 P1 x1 P2 x2 P3 x3)))
    (rndd E F (P0 * 2 ^ (x0 + 1074) + P1 * 2 ^ (x1 + 1074) + P2 * 2 ^ (x2 + 1074) + P3 * 2 ^ (x3 + 1074), -1074)).
Proof.
  intros HE HF H0 H1 H2 H3 X0 X1 X2 X3. assert (HO : ok_ef E F) by (split; lia). destruct (emax_10 E HE) as [Lo Hi]. assert (EM : emin E <= emax E) by (unfold emin, emax, bias; pose proof (pow2_pos (E - 1) ltac:(lia)); lia).
  pose proof (pow2_pos (2 * F) ltac:(lia)) as PF. assert (B12 : 2 ^ (2 * F + 2) <= 2 ^ 12) by (apply Z.pow_le_mono_r; lia).
  assert (PS : forall P x, 2 ^ (2 * F) <= P -> -1074 <= x -> 0 < P * 2 ^ (x + 1074)) by (intros; apply Z.mul_pos_pos; [lia|apply pow2_pos; lia]).
  pose proof (PS P0 x0 (proj1 H0) X0) as S0. pose proof (PS P1 x1 (proj1 H1) X1) as S1. pose proof (PS P2 x2 (proj1 H2) X2) as S2. pose proof (PS P3 x3 (proj1 H3) X3) as S3.
  assert (D : (P0 * 2 ^ (x0 + 1074) < 2 ^ 2094 /\ P1 * 2 ^ (x1 + 1074) < 2 ^ 2094 /\ P2 * 2 ^ (x2 + 1074) < 2 ^ 2094 /\ P3 * 2 ^ (x3 + 1074) < 2 ^ 2094) \/
    (2 ^ 2094 <= P0 * 2 ^ (x0 + 1074) \/ 2 ^ 2094 <= P1 * 2 ^ (x1 + 1074) \/ 2 ^ 2094 <= P2 * 2 ^ (x2 + 1074) \/ 2 ^ 2094 <= P3 * 2 ^ (x3 + 1074))).
  { clear. destruct (Z.lt_ge_cases (P0 * 2 ^ (x0 + 1074)) (2 ^ 2094)); [|auto]. destruct (Z.lt_ge_cases (P1 * 2 ^ (x1 + 1074)) (2 ^ 2094)); [|auto]. destruct (Z.lt_ge_cases (P2 * 2 ^ (x2 + 1074)) (2 ^ 2094)); [|auto]. destruct (Z.lt_ge_cases (P3 * 2 ^ (x3 + 1074)) (2 ^ 2094)); [|auto 6]. left. auto. }
  destruct D as [(M0 & M1 & M2 & M3)|D].
  - destruct (dsum_near F P0 x0 P1 x1 P2 x2 P3 x3 HF H0 H1 H2 H3 X0 X1 X2 X3 M0 M1 M2 M3) as (N & DN & EN). rewrite <- EN. apply down_dnum; assumption.
  - assert (BIG : forall V, 2 ^ 2094 <= V -> rndd E F (V, -1074) = Inf false).
    { intros V HV. assert (PV : 0 < V) by (eapply Z.lt_le_trans; [|exact HV]; apply pow2_pos; discriminate). apply rndd_inf; [lia|exact PV| |exact EM]. apply Z.log2_le_mono in HV. rewrite Z.log2_pow2 in HV by lia. lia. }
    rewrite (BIG (_ + _)). 2:{ clear - D S0 S1 S2 S3. generalize dependent (2 ^ 2094). intros. lia. }
    assert (G0 : 0 < P0 < 2 ^ 12) by lia. assert (G1 : 0 < P1 < 2 ^ 12) by lia. assert (G2 : 0 < P2 < 2 ^ 12) by lia. assert (G3 : 0 < P3 < 2 ^ 12) by lia.
    destruct (dsum_big P0 x0 P1 x1 P2 x2 P3 x3 2094 G0 G1 G2 G3 X0 X1 X2 X3 ltac:(discriminate) D) as [-> |(N & DN & LN)].
    + apply sp_inf. exact HO.
    + rewrite <- (BIG N LN). apply down_dnum; assumption.
Qed.

Lemma ref4_small_ok E F a0 a1 a2 a3 b0 b1 b2 b3 : 1 <= E <= 10 -> 1 <= F <= 5 ->
  wf (E + F + 3) a0 -> wf (E + F + 3) a1 -> wf (E + F + 3) a2 -> wf (E + F + 3) a3 -> wf (E + F + 3) b0 -> wf (E + F + 3) b1 -> wf (E + F + 3) b2 -> wf (E + F + 3) b3 ->
  pos_normal (decode E F a0) -> pos_normal (decode E F a1) -> pos_normal (decode E F a2) -> pos_normal (decode E F a3) -> pos_normal (decode E F b0) -> pos_normal (decode E F b1) -> pos_normal (decode E F b2) -> pos_normal (decode E F b3) ->
  rounds_to E F (dot4_ref E F a0 a1 a2 a3 b0 b1 b2 b3) (dot4_spec E F (decode E F a0) (decode E F a1) (decode E F a2) (decode E F a3) (decode E F b0) (decode E F b1) (decode E F b2) (decode E F b3)).
Proof.
  intros HE HF U0 U1 U2 U3 V0 V1 V2 V3 P0 P1 P2 P3 Q0 Q1 Q2 Q3. destruct (emax_10 E HE) as [Lo Hi]. unfold dot4_ref, dot4_ref_small. replace ((F <=? 52) && (E <=? 11)) with true by lia. replace ((F + 1) * 8 <? 52) with true by lia. replace (52 <=? (F + 1) * 8) with false by lia. cbn [negb assert_ bind].
  assert (G : forall x, wf (E + F + 3) x -> pos_normal (decode E F x) -> exists v m e, to_double E F x = Some v /\ dbl v /\ veq v (Num false m e) /\ decode E F x = Num false m e /\ 2 ^ F <= m < 2 ^ (F + 1) /\ -511 - F <= e).
  { intros x Wx Px. destruct (dot_num E F x ltac:(lia) ltac:(lia) Wx Px) as (m & e & D & M & X). destruct (to_double_right E F x ltac:(lia) ltac:(lia) Wx) as (v & T & Dv & Ev). { intros s m' e' D'. rewrite D in D'. injection D' as <- <- <-. split; [reflexivity|lia]. }
    exists v, m, e. rewrite D in Ev. repeat split; (assumption || lia). }
  destruct (G a0 U0 P0) as (v0 & m0 & e0 & T0 & D0 & E0 & C0 & M0 & X0). destruct (G a1 U1 P1) as (v1 & m1 & e1 & T1 & D1 & E1 & C1 & M1 & X1). destruct (G a2 U2 P2) as (v2 & m2 & e2 & T2 & D2 & E2 & C2 & M2 & X2). destruct (G a3 U3 P3) as (v3 & m3 & e3 & T3 & D3 & E3 & C3 & M3 & X3).
  destruct (G b0 V0 Q0) as (w0 & n0 & f0 & S0 & B0 & F0 & K0 & N0 & Y0). destruct (G b1 V1 Q1) as (w1 & n1 & f1 & S1 & B1 & F1 & K1 & N1 & Y1). destruct (G b2 V2 Q2) as (w2 & n2 & f2 & S2 & B2 & F2 & K2 & N2 & Y2). destruct (G b3 V3 Q3) as (w3 & n3 & f3 & S3 & B3 & F3 & K3 & N3 & Y3). clear G.
  rewrite T0, T1, T2, T3, S0, S1, S2, S3, C0, C1, C2, C3, K0, K1, K2, K3. cbn [bind]. cbv zeta. pose proof (pow2_pos F ltac:(lia)) as PF.
  rewrite (dbl_mul_veq v0 w0 m0 e0 n0 f0), (dbl_mul_veq v1 w1 m1 e1 n1 f1), (dbl_mul_veq v2 w2 m2 e2 n2 f2), (dbl_mul_veq v3 w3 m3 e3 n3 f3) by (assumption || lia).
  clear - HE HF M0 M1 M2 M3 N0 N1 N2 N3 X0 X1 X2 X3 Y0 Y1 Y2 Y3 PF Lo Hi.
  assert (Z0 : 2 ^ (2 * F) <= m0 * n0 < 2 ^ (2 * F + 2)) by (apply prod_bounds; (assumption || lia)). assert (Z1 : 2 ^ (2 * F) <= m1 * n1 < 2 ^ (2 * F + 2)) by (apply prod_bounds; (assumption || lia)).
  assert (Z2 : 2 ^ (2 * F) <= m2 * n2 < 2 ^ (2 * F + 2)) by (apply prod_bounds; (assumption || lia)). assert (Z3 : 2 ^ (2 * F) <= m3 * n3 < 2 ^ (2 * F + 2)) by (apply prod_bounds; (assumption || lia)).
  pose proof (pow2_pos (2 * F) ltac:(lia)) as PFF. unfold dot4_spec, dot4_exact. cbn [dmul].
  assert (H0 : -1074 <= e0 + f0) by lia. assert (H1 : -1074 <= e1 + f1) by lia. assert (H2 : -1074 <= e2 + f2) by lia. assert (H3 : -1074 <= e3 + f3) by lia. revert Z0 Z1 Z2 Z3 H0 H1 H2 H3. generalize (m0 * n0) as A0, (m1 * n1) as A1, (m2 * n2) as A2, (m3 * n3) as A3, (e0 + f0) as z0, (e1 + f1) as z1, (e2 + f2) as z2, (e3 + f3) as z3. clear - HE HF PFF. intros.
  pose proof (dsum_down E F A0 z0 A1 z1 A2 z2 A3 z3 HE HF Z0 Z1 Z2 Z3 H0 H1 H2 H3) as R. unfold dsum in R. erewrite (rndd_eqv E F (dadd _ _)); [exact R|lia| | |].
  - repeat apply dadd_pos; cbn [fst]; lia.
  - cbn [fst]. assert (PS : forall P x, 0 < P -> -1074 <= x -> 0 < P * 2 ^ (x + 1074)) by (intros; apply Z.mul_pos_pos; [lia|apply pow2_pos; lia]). pose proof (PS A0 z0 ltac:(lia) H0). pose proof (PS A1 z1 ltac:(lia) H1). pose proof (PS A2 z2 ltac:(lia) H2). pose proof (PS A3 z3 ltac:(lia) H3). lia.
  - apply (same_at (-1074)); [rewrite !dadd_snd; cbn [snd]; lia|cbn [snd]; lia|]. rewrite !dadd_at; rewrite ?dadd_snd; cbn [fst snd]; try lia. replace (-1074 - -1074) with 0 by lia. rewrite Z.pow_0_r, Z.mul_1_r. assert (SO : forall z, z - -1074 = z + 1074) by (intros; lia). rewrite !SO. lia.
Qed.
(** More than eleven exponent bits or fifty-two fraction bits: to_double does not compile. *)
Lemma ref4_wide E F a0 a1 a2 a3 b0 b1 b2 b3 : 12 <= E \/ 53 <= F -> dot4_ref E F a0 a1 a2 a3 b0 b1 b2 b3 = None.
Proof.
  intros H. unfold dot4_ref. replace ((F <=? 52) && (E <=? 11)) with false by lia. reflexivity.
Qed.
Lemma ref4_eleven F : 1 <= F <= 5 -> exists a0 a1 a2 a3 b0 b1 b2 b3, Forall (fun x => wf (11 + F + 3) x /\ pos_normal (decode 11 F x)) (a0 :: a1 :: a2 :: a3 :: b0 :: b1 :: b2 :: b3 :: nil) /\
  (exists r, dot4_ref 11 F a0 a1 a2 a3 b0 b1 b2 b3 = Some r /\ decode 11 F r = Inf false) /\
  exists m e, dot4_spec 11 F (decode 11 F a0) (decode 11 F a1) (decode 11 F a2) (decode 11 F a3) (decode 11 F b0) (decode 11 F b1) (decode 11 F b2) (decode 11 F b3) = Num false m e.
Proof.
  intros HF. pose (big := 2 ^ (11 + F + 1) + 2047 * 2 ^ F). pose (half := 2 ^ (11 + F + 1) + 1022 * 2 ^ F). pose (one := 2 ^ (11 + F + 1) + 1023 * 2 ^ F).
  assert (F = 1 \/ F = 2 \/ F = 3 \/ F = 4 \/ F = 5) as K by lia. exists big, one, one, one, half, one, one, one.
  assert (W : forall x, wf (11 + F + 3) x -> pos_normal (decode 11 F x) -> wf (11 + F + 3) x /\ pos_normal (decode 11 F x)) by auto.
  destruct K as [-> |[-> |[-> |[-> | ->]]]].
  all: split; [repeat (apply Forall_cons; [split; [vm_compute; split; congruence|eexists _, _; vm_compute; reflexivity]|]); apply Forall_nil|].
  all: split; [eexists; split; [vm_compute; reflexivity|vm_compute; reflexivity]|eexists _, _; vm_compute; reflexivity].
Qed.
Lemma ref4_all E F a0 a1 a2 a3 b0 b1 b2 b3 : 1 <= E <= 11 -> 1 <= F <= 52 -> E <= 10 \/ 6 <= F ->
  wf (E + F + 3) a0 -> wf (E + F + 3) a1 -> wf (E + F + 3) a2 -> wf (E + F + 3) a3 -> wf (E + F + 3) b0 -> wf (E + F + 3) b1 -> wf (E + F + 3) b2 -> wf (E + F + 3) b3 ->
  pos_normal (decode E F a0) -> pos_normal (decode E F a1) -> pos_normal (decode E F a2) -> pos_normal (decode E F a3) -> pos_normal (decode E F b0) -> pos_normal (decode E F b1) -> pos_normal (decode E F b2) -> pos_normal (decode E F b3) ->
  let spec := dot4_spec E F (decode E F a0) (decode E F a1) (decode E F a2) (decode E F a3) (decode E F b0) (decode E F b1) (decode E F b2) (decode E F b3) in
  (forall r, dot4_ref E F a0 a1 a2 a3 b0 b1 b2 b3 = Some r -> wf (E + F + 3) r /\ decode E F r = spec) /\
  (F <= 5 \/ within (10 * (F + 2)) (dmul (decode E F a0) (decode E F b0) :: dmul (decode E F a1) (decode E F b1) :: dmul (decode E F a2) (decode E F b2) :: dmul (decode E F a3) (decode E F b3) :: nil) ->
   exists r, dot4_ref E F a0 a1 a2 a3 b0 b1 b2 b3 = Some r).
Proof.
  intros HE HF HC U0 U1 U2 U3 V0 V1 V2 V3 P0 P1 P2 P3 Q0 Q1 Q2 Q3 spec. destruct (Z_le_gt_dec F 5) as [L|L].
  - destruct (ref4_small_ok E F a0 a1 a2 a3 b0 b1 b2 b3) as (r & R & W & D); try assumption; try lia. split; [|intros _; exists r; exact R]. intros r' R'. rewrite R in R'. apply (f_equal (fun o => match o with Some z => z | None => 0 end)) in R'. subst r'. auto.
  - destruct (ref4_both E F a0 a1 a2 a3 b0 b1 b2 b3) as [A B]; try assumption; try lia. split; [exact A|]. intros [K|K]; [lia|auto].
Qed.
