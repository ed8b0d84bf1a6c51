From Coq Require Import ZArith List Bool Lia.
From Verif Require Import Fw FwLemmas Spec SpecLemmas ValueLemmas SpecDot SpecDbl SpecMpfr Flopoco FlopocoLemmas FlopocoProofs MpfrLib Mpfr MpfrProofs MpfrProofs2 Dbl DblProofs DblProofs2 DblProofs3 Dot DotProofs DotProofs2 DotProofs5 RefDot SpecRefDot RefDotProofs RefDotProofs2 RefDotProofs4 RefDotProofs5 RefDotProofs6.
Open Scope Z_scope.

Lemma term_at b P x v W M : 0 <= b -> 0 < P < 2 ^ 12 -> -1074 <= x -> dnum v (P * 2 ^ (x + 1074)) -> (b <= x + 1074 \/ x + 1074 <= b - 14) -> x + 1074 <= b + W -> 0 <= W -> P * 2 ^ (x + 1074) < M -> 2 ^ b <= M ->
  exists t u, part b v t u /\ 0 <= t < 2 ^ (12 + W) /\ (u = 0 \/ u = 1 /\ 2 <= b) /\ (b <= x + 1074 -> u = 0) /\ (b = x + 1074 -> t = P) /\ t * 2 ^ b < M /\ 0 <= u * 2 ^ (b - 2) < M /\ (u = 1 -> 4 * (u * 2 ^ (b - 2)) = 2 ^ b) /\
    lo b t <= P * 2 ^ (x + 1074) <= hi b t u.
Proof.
  intros Hb HP Hx D K HW HW0 HM HB. pose proof (pow2_pos b Hb) as Pb. pose proof (pow2_pos (x + 1074) ltac:(lia)) as Px. pose proof (pow2_pos (12 + W) ltac:(lia)) as PW.
  destruct (part_term b Hb v P (x + 1074) ltac:(lia) HP D K) as (t & u & Q & Ht & Big & Small & Bd). exists t, u. split; [exact Q|]. destruct K as [K|K].
  - destruct (Big K) as (-> & Et & _). split; [split; [exact Ht|]|]. { rewrite Et, pow2_add by lia. assert (2 ^ (x + 1074 - b) <= 2 ^ W) by (apply Z.pow_le_mono_r; lia). pose proof (pow2_pos (x + 1074 - b) ltac:(lia)). apply (Z.lt_le_trans _ (2 ^ 12 * 2 ^ (x + 1074 - b))); [apply Z.mul_lt_mono_pos_r; lia|apply Z.mul_le_mono_nonneg_l; lia]. }
    split; [auto|]. split; [auto|]. split. { intros E. rewrite Et, <- E, Z.sub_diag, Z.pow_0_r. lia. }
    split. { rewrite Et, <- Z.mul_assoc, <- pow2_add by lia. replace (x + 1074 - b + b) with (x + 1074) by lia. exact HM. }
    split; [lia|]. split; [discriminate|]. exact Bd.
  - destruct (Small K) as (-> & -> & B2). pose proof (pow2_pos (b - 2) ltac:(lia)) as P2. assert (E4 : 4 * (1 * 2 ^ (b - 2)) = 2 ^ b) by (rewrite Z.mul_1_l; change 4 with (2 ^ 2); rewrite <- pow2_add by lia; f_equal; lia).
    split; [lia|]. split; [auto|]. split; [lia|]. split; [lia|]. split; [nia|]. split; [lia|]. split; [auto|exact Bd].
Qed.

Lemma dsum_near F P0 x0 P1 x1 P2 x2 P3 x3 : 1 <= F <= 5 -> 2 ^ (2 * F) <= P0 < 2 ^ (2 * F + 2) -> 2 ^ (2 * F) <= P1 < 2 ^ (2 * F + 2) -> 2 ^ (2 * F) <= P2 < 2 ^ (2 * F + 2) -> 2 ^ (2 * F) <= P3 < 2 ^ (2 * F + 2) ->
  -1074 <= x0 -> -1074 <= x1 -> -1074 <= x2 -> -1074 <= x3 -> P0 * 2 ^ (x0 + 1074) < 2 ^ 2094 -> P1 * 2 ^ (x1 + 1074) < 2 ^ 2094 -> P2 * 2 ^ (x2 + 1074) < 2 ^ 2094 -> P3 * 2 ^ (x3 + 1074) < 2 ^ 2094 ->
  exists N, dnum (dsum P0 x0 P1 x1 P2 x2 P3 x3) N /\ forall E, rndd E F (N, -1074) = rndd E F (P0 * 2 ^ (x0 + 1074) + P1 * 2 ^ (x1 + 1074) + P2 * 2 ^ (x2 + 1074) + P3 * 2 ^ (x3 + 1074), -1074).
Proof.
  intros HF H0 H1 H2 H3 X0 X1 X2 X3 M0 M1 M2 M3. pose proof (pow2_pos (2 * F) ltac:(lia)) as PF. assert (B12 : 2 ^ (2 * F + 2) <= 2 ^ 12) by (apply Z.pow_le_mono_r; lia).
  destruct (split_exists (x0 + 1074) (x1 + 1074) (x2 + 1074) (x3 + 1074)) as (b & Hin & K0 & K1 & K2 & K3 & HS). assert (Hb : 0 <= b) by lia.
  assert (L : forall P x, 2 ^ (2 * F) <= P < 2 ^ (2 * F + 2) -> -1074 <= x -> P * 2 ^ (x + 1074) < 2 ^ 2094 -> dnum (dbl_round false P x) (P * 2 ^ (x + 1074))).
  { intros P x HP Hx HM. apply prod_dnum; [lia|exact Hx|]. assert (x + 1074 + Z.log2 P < 2094); [|lia]. rewrite <- Z.log2_mul_pow2 by lia. apply Z.log2_lt_pow2; [apply Z.mul_pos_pos; [lia|apply pow2_pos; lia]|exact HM]. }
  pose proof (L _ _ H0 X0 M0) as D0. pose proof (L _ _ H1 X1 M1) as D1. pose proof (L _ _ H2 X2 M2) as D2. pose proof (L _ _ H3 X3 M3) as D3. clear L.
  assert (HB : 2 ^ b <= 2 ^ 2094).
  { assert (BL : forall P x, 0 < P -> -1074 <= x -> P * 2 ^ (x + 1074) < 2 ^ 2094 -> 2 ^ (x + 1074) <= 2 ^ 2094) by (intros P x HP Hx HM; apply Z.lt_le_incl; apply (Z.le_lt_trans _ (P * 2 ^ (x + 1074))); [clear HM; pose proof (pow2_pos (x + 1074) ltac:(lia)); rewrite <- (Z.mul_1_l (2 ^ (x + 1074))) at 1; apply Z.mul_le_mono_nonneg_r; lia|exact HM]).
    clear - BL Hin M0 M1 M2 M3 H0 H1 H2 H3 PF X0 X1 X2 X3. destruct Hin as [-> |[-> |[-> | ->]]].
    - apply (BL P0); [lia|lia|exact M0].
    - apply (BL P1); [lia|lia|exact M1].
    - apply (BL P2); [lia|lia|exact M2].
    - apply (BL P3); [lia|lia|exact M3]. }
  assert (ET : 2 ^ 2098 = 16 * 2 ^ 2094) by (change 16 with (2 ^ 4); rewrite <- pow2_add by lia; reflexivity).
  assert (exists M, M = 2 ^ 2094) as [M EM] by eauto. rewrite <- EM in *. assert (EM' : 2 ^ 2098 = 16 * M) by exact ET. clear ET EM. 
  assert (G0 : 0 < P0 < 2 ^ 12) by lia. assert (G1 : 0 < P1 < 2 ^ 12) by lia. assert (G2 : 0 < P2 < 2 ^ 12) by lia. assert (G3 : 0 < P3 < 2 ^ 12) by lia.
  pose (W := if (b <=? x0 + 1074) && (b <=? x1 + 1074) && (b <=? x2 + 1074) && (b <=? x3 + 1074) then 39 else 26).
  assert (HW : W = 39 /\ b <= x0 + 1074 /\ b <= x1 + 1074 /\ b <= x2 + 1074 /\ b <= x3 + 1074 \/ W = 26).
  { unfold W. destruct (Z.leb_spec b (x0 + 1074)), (Z.leb_spec b (x1 + 1074)), (Z.leb_spec b (x2 + 1074)), (Z.leb_spec b (x3 + 1074)); cbn [andb]; lia. }
  assert (XW : x0 + 1074 <= b + W /\ x1 + 1074 <= b + W /\ x2 + 1074 <= b + W /\ x3 + 1074 <= b + W).
  { destruct HW as [(-> & _)|E]; [lia|]. rewrite E. unfold W in E. destruct (Z.leb_spec b (x0 + 1074)), (Z.leb_spec b (x1 + 1074)), (Z.leb_spec b (x2 + 1074)), (Z.leb_spec b (x3 + 1074)); cbn [andb] in E; lia. }
  clearbody W. assert (HW0 : 0 <= W) by lia. destruct XW as (W0 & W1 & W2 & W3).
  destruct (term_at b P0 x0 _ W M Hb G0 X0 D0 K0 W0 HW0 M0 HB) as (t0 & u0 & Q0 & T0 & U0 & V0 & E0 & A0 & C0 & F0 & B0).
  destruct (term_at b P1 x1 _ W M Hb G1 X1 D1 K1 W1 HW0 M1 HB) as (t1 & u1 & Q1 & T1 & U1 & V1 & E1 & A1 & C1 & F1 & B1).
  destruct (term_at b P2 x2 _ W M Hb G2 X2 D2 K2 W2 HW0 M2 HB) as (t2 & u2 & Q2 & T2 & U2 & V2 & E2 & A2 & C2 & F2 & B2).
  destruct (term_at b P3 x3 _ W M Hb G3 X3 D3 K3 W3 HW0 M3 HB) as (t3 & u3 & Q3 & T3 & U3 & V3 & E3 & A3 & C3 & F3 & B3).
  assert (OK : (W = 39 /\ u0 = 0 /\ u1 = 0 /\ u2 = 0 /\ u3 = 0) \/ W = 26) by (destruct HW as [(-> & ? & ? & ? & ?)| ->]; [left; auto 6|right; reflexivity]).
  assert (OT : okt b (t0 + t1) (u0 + u1) /\ okt b (t0 + t1 + t2) (u0 + u1 + u2) /\ okt b (t0 + t1 + t2 + t3) (u0 + u1 + u2 + u3)).
  { clear - OK T0 T1 T2 T3 U0 U1 U2 U3. unfold okt. destruct OK as [(-> & -> & -> & -> & ->)| ->].
    - change (2 ^ (12 + 39)) with (2 ^ 51) in *. repeat split; lia.
    - change (2 ^ (12 + 26)) with (2 ^ 38) in *. repeat split; lia. }
  destruct OT as (O1 & O2 & O3).
  assert (HH : hi b (t0 + t1) (u0 + u1) < 2 ^ 2098 /\ hi b (t0 + t1 + t2) (u0 + u1 + u2) < 2 ^ 2098 /\ hi b (t0 + t1 + t2 + t3) (u0 + u1 + u2 + u3) < 2 ^ 2098).
  { rewrite EM'. clear - A0 A1 A2 A3 C0 C1 C2 C3 T0 T1 T2 T3 Hb. pose proof (pow2_pos b Hb). assert (0 <= t0 * 2 ^ b) by nia. assert (0 <= t1 * 2 ^ b) by nia. assert (0 <= t2 * 2 ^ b) by nia. assert (0 <= t3 * 2 ^ b) by nia. unfold hi. rewrite !Z.mul_add_distr_r. lia. }
  destruct HH as (I1 & I2 & I3). pose proof (part_add b Hb _ _ _ _ _ _ Q0 Q1 O1 I1) as R1. pose proof (part_add b Hb _ _ _ _ _ _ R1 Q2 O2 I2) as R2. pose proof (part_add b Hb _ _ _ _ _ _ R2 Q3 O3 I3) as R3.
  destruct R3 as (N & D & BN). exists N. split; [exact D|]. intros E. clear M0 M1 M2 M3 HB EM' I1 I2 I3 A0 A1 A2 A3 C0 C1 C2 C3 Q0 Q1 Q2 Q3 R1 R2 D D0 D1 D2 D3.
  assert (PF' : 2 ^ F <= 2 ^ (2 * F)) by (apply Z.pow_le_mono_r; lia). pose proof (pow2_pos b Hb) as Pb.
  assert (TB : 2 ^ F <= t0 + t1 + t2 + t3). { assert (t0 = P0 \/ t1 = P1 \/ t2 = P2 \/ t3 = P3) by (destruct Hin as [J|[J|[J|J]]]; auto). assert (S0 : 0 <= t0) by apply T0. assert (S1 : 0 <= t1) by apply T1. assert (S2 : 0 <= t2) by apply T2. assert (S3 : 0 <= t3) by apply T3.
    clear - H S0 S1 S2 S3 PF' H0 H1 H2 H3. lia. }
  assert (UB : 4 * (hi b (t0 + t1 + t2 + t3) (u0 + u1 + u2 + u3) - lo b (t0 + t1 + t2 + t3)) < 4 * 2 ^ b).
  { unfold hi, lo. rewrite !Z.mul_add_distr_r. assert (u0 = 0 \/ u1 = 0 \/ u2 = 0 \/ u3 = 0) as Z1 by (destruct Hin as [J|[J|[J|J]]]; [left; apply V0; lia|right; left; apply V1; lia|right; right; left; apply V2; lia|right; right; right; apply V3; lia]).
    assert (G : forall u, u = 0 \/ u = 1 /\ 2 <= b -> (u = 1 -> 4 * (u * 2 ^ (b - 2)) = 2 ^ b) -> u = 0 /\ u * 2 ^ (b - 2) = 0 \/ 4 * (u * 2 ^ (b - 2)) = 2 ^ b) by (intros u [-> |[-> ?]] Q; auto).
    pose proof (G u0 U0 F0). pose proof (G u1 U1 F1). pose proof (G u2 U2 F2). pose proof (G u3 U3 F3). clear - H H4 H5 H6 Z1 Pb. nia. }
  assert (TS : lo b (t0 + t1 + t2 + t3) <= P0 * 2 ^ (x0 + 1074) + P1 * 2 ^ (x1 + 1074) + P2 * 2 ^ (x2 + 1074) + P3 * 2 ^ (x3 + 1074) <= hi b (t0 + t1 + t2 + t3) (u0 + u1 + u2 + u3)).
  { clear - B0 B1 B2 B3. unfold lo, hi in *. rewrite !Z.mul_add_distr_r in *. lia. }
  clear - HF Hb TB UB TS BN Pb. revert TS. generalize (P0 * 2 ^ (x0 + 1074) + P1 * 2 ^ (x1 + 1074) + P2 * 2 ^ (x2 + 1074) + P3 * 2 ^ (x3 + 1074)) as S. intros S TS.
  assert (EL : lo b (t0 + t1 + t2 + t3) = (t0 + t1 + t2 + t3) * 2 ^ b) by reflexivity. revert TB UB TS BN EL. generalize (t0 + t1 + t2 + t3) as t. generalize (u0 + u1 + u2 + u3) as u. intros u t TB UB TS BN EL.
  rewrite EL in *. assert (E1 : (t + 1) * 2 ^ b = t * 2 ^ b + 2 ^ b) by ring. rewrite (rndd_close E F t b N), (rndd_close E F t b S); [reflexivity|lia..].
Qed.
