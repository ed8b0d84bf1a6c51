From Coq Require Import ZArith Bool Lia.
From Verif Require Import Fw FwLemmas Spec SpecDot Flopoco FlopocoLemmas Dot DotProofs DotProofs2 AddSingleProofs2.
Open Scope Z_scope.

Definition dot4_tail (WE WF bias x0_frac x1_frac x2_frac x3_frac x0_exp x1_exp x2_exp x3_exp : Z) : option Z :=
  let shift1 := fsub (WE + 1) x0_exp x1_exp in
  let shift2 := fsub (WE + 1) x0_exp x2_exp in
  let shift3 := fsub (WE + 1) x0_exp x3_exp in
  let WAB := 2 * WF in
  let PAD_LOW := 2 * WAB - 1 in
  let W := 2 + (2 * WF + 2) + PAD_LOW in
  let full x := cat PAD_LOW (cat (2 * WF + 2) (zg 2) x) (zg PAD_LOW) in
  let x0_frac_shifted := full x0_frac in
  do x1_frac_shifted <- safe_rshift W (full x1_frac) shift1;
  do x2_frac_shifted <- safe_rshift W (full x2_frac) shift2;
  do x3_frac_shifted <- safe_rshift W (full x3_frac) shift3;
  let frac_full := fadd W (fadd W (fadd W x0_frac_shifted x1_frac_shifted) x2_frac_shifted) x3_frac_shifted in
  do top_four <- take_msbs W 4 frac_full;
  do _ <- assert_ (negb (top_four =? 0));
  do frac_pre_norm <- take_msbs W (4 + WF) frac_full;
  do t3 <- get_bits 4 3 3 top_four;
  do t2 <- get_bits 4 2 2 top_four;
  do t1 <- get_bits 4 1 1 top_four;
  do fa <- (if to_bool t3 then do f <- get_bits (4 + WF) (2 + WF) 3 frac_pre_norm; do a <- of_int (WE + 2) 3; Some (f, a)
            else if to_bool t2 then do f <- get_bits (4 + WF) (1 + WF) 2 frac_pre_norm; do a <- of_int (WE + 2) 2; Some (f, a)
            else if to_bool t1 then do f <- get_bits (4 + WF) WF 1 frac_pre_norm; do a <- of_int (WE + 2) 1; Some (f, a)
            else do f <- get_bits (4 + WF) (WF - 1) 0 frac_pre_norm; do a <- of_int (WE + 2) 0; Some (f, a));
  let exp_post_norm := fadd (WE + 2) (zpad_hi 1 (WE + 1) x0_exp) (snd fa) in
  dot_pack WE WF bias exp_post_norm (fst fa).

Lemma safe_rshift_ok W q s : 0 <= s < 2 ^ 31 -> 0 < W -> 0 <= q < 2 ^ W -> safe_rshift W q s = Some (q / 2 ^ s).
Proof.
  intros Hs HW Hq. unfold safe_rshift. rewrite to_int_ok by lia. cbn [bind]. destruct (Z.leb_spec W s).
  - rewrite Z.div_small; [reflexivity|]. split; [lia|]. apply Z.lt_le_trans with (2 ^ W); [lia|]. apply Z.pow_le_mono_r; lia.
  - apply fshr_ok. lia.
Qed.

Lemma shifted_bound p P X Y : 0 <= Y <= X -> 0 <= P -> 0 <= p -> 0 <= p * 2 ^ P * 2 ^ Y / 2 ^ X <= p * 2 ^ P.
Proof.
  intros HY HP Hp. assert (0 < 2 ^ P) by (apply pow2_pos; lia). assert (0 < 2 ^ Y) by (apply pow2_pos; lia). assert (0 < 2 ^ X) by (apply pow2_pos; lia).
  assert (2 ^ Y <= 2 ^ X) by (apply Z.pow_le_mono_r; lia). assert (Q : 0 <= p * 2 ^ P) by nia.
  split; [apply Z.div_pos; nia|]. apply Z.div_le_upper_bound; [lia|]. rewrite (Z.mul_comm (2 ^ X)). apply Z.mul_le_mono_nonneg_l; lia.
Qed.

Lemma dot4_tail_ok E F p0 X p1 Y1 p2 Y2 p3 Y3 V : 1 <= E <= 30 -> 1 <= F ->
  2 ^ (2 * F) <= p0 < 2 ^ (2 * F + 2) -> 2 ^ (2 * F) <= p1 < 2 ^ (2 * F + 2) -> 2 ^ (2 * F) <= p2 < 2 ^ (2 * F + 2) -> 2 ^ (2 * F) <= p3 < 2 ^ (2 * F + 2) ->
  0 <= Y1 <= X -> 0 <= Y2 <= X -> 0 <= Y3 <= X -> X < 2 ^ (E + 1) - 1 ->
  let P := 4 * F - 1 in
  V = p0 * 2 ^ P + p1 * 2 ^ P * 2 ^ Y1 / 2 ^ X + p2 * 2 ^ P * 2 ^ Y2 / 2 ^ X + p3 * 2 ^ P * 2 ^ Y3 / 2 ^ X ->
  exists r, dot4_tail E F (2 ^ (E - 1) - 1) p0 p1 p2 p3 X Y1 Y2 Y3 = Some r /\ wf (E + F + 3) r /\
    decode E F r = rndd E F (V, X - 2 * bias E - 2 * F - P).
Proof.
  intros HE HF H0 H1 H2 H3 B1 B2 B3 HX P HV. unfold dot4_tail.
  assert (P2 : 0 < 2 ^ (2 * F)) by (apply pow2_pos; lia).
  replace (2 * (2 * F) - 1) with P by lia. assert (HP : 3 <= P) by (unfold P; lia). remember P as Q eqn:EQ. subst P. rename Q into P.
  assert (PP : 0 < 2 ^ P) by (apply pow2_pos; lia).
  rewrite !pad_full by lia. rewrite !fsub_eq by lia. rewrite !(Z.mod_small (X - _)) by lia.
  remember (2 + (2 * F + 2) + P) as W eqn:EW.
  assert (Wf : 2 ^ W = 16 * (2 ^ (2 * F) * 2 ^ P)) by (subst W; replace (2 + (2 * F + 2) + P) with (4 + (2 * F + P)) by lia; rewrite !pow2_add by lia; reflexivity).
  assert (W2 : 2 ^ (2 * F + 2) = 4 * 2 ^ (2 * F)) by (rewrite pow2_add by lia; change (2 ^ 2) with 4; lia).
  remember (2 ^ (2 * F) * 2 ^ P) as U eqn:EU.
  assert (PU : 0 < U) by nia.
  assert (SB : forall p, 2 ^ (2 * F) <= p < 2 ^ (2 * F + 2) -> U <= p * 2 ^ P /\ p * 2 ^ P < 4 * U).
  { intros p Hp. split; [subst U; apply Z.mul_le_mono_nonneg_r; lia|]. replace (4 * U) with (2 ^ (2 * F + 2) * 2 ^ P) by (rewrite EU, W2; ring). apply Z.mul_lt_mono_pos_r; lia. }
  pose proof (SB p0 H0) as S0. pose proof (SB p1 H1) as S1. pose proof (SB p2 H2) as S2. pose proof (SB p3 H3) as S3. clear SB.
  assert (E31 : 2 ^ (E + 1) <= 2 ^ 31) by (apply Z.pow_le_mono_r; lia).
  rewrite (safe_rshift_ok W (p1 * 2 ^ P)), (safe_rshift_ok W (p2 * 2 ^ P)), (safe_rshift_ok W (p3 * 2 ^ P)) by lia. cbn [bind].
  rewrite !shift_div by lia.
  pose proof (shifted_bound p1 P X Y1 B1 ltac:(lia) ltac:(lia)) as T1. pose proof (shifted_bound p2 P X Y2 B2 ltac:(lia) ltac:(lia)) as T2. pose proof (shifted_bound p3 P X Y3 B3 ltac:(lia) ltac:(lia)) as T3.
  remember (p1 * 2 ^ P * 2 ^ Y1 / 2 ^ X) as q1. remember (p2 * 2 ^ P * 2 ^ Y2 / 2 ^ X) as q2. remember (p3 * 2 ^ P * 2 ^ Y3 / 2 ^ X) as q3.
  rewrite !fadd_eq by lia. rewrite (Z.mod_small (p0 * 2 ^ P + q1)) by lia. rewrite (Z.mod_small (p0 * 2 ^ P + q1 + q2)) by lia.
  rewrite <- HV. assert (BV : U <= V < 16 * U) by lia. rewrite (Z.mod_small V) by lia.
  assert (W4 : 2 ^ (W - 4) = U) by (subst W U; rewrite <- pow2_add by lia; f_equal; lia).
  rewrite !take_msbs_ok by lia. cbn [bind].
  remember (V / 2 ^ (W - 4)) as t eqn:Et.
  assert (Bt : 1 <= t < 16) by (subst t; rewrite W4; split; [apply Z.div_le_lower_bound; lia|apply Z.div_lt_upper_bound; lia]).
  assert (Vt : t * U <= V < (t + 1) * U).
  { pose proof (div_mod_eq V U ltac:(lia)) as Q. pose proof (Z.mod_pos_bound V U ltac:(lia)). rewrite W4 in Et. rewrite <- Et in Q. lia. }
  replace (negb (t =? 0)) with true by (symmetry; apply negb_true_iff, Z.eqb_neq; lia). cbn [assert_ bind].
  replace (W - (4 + F)) with (F + P) by lia.
  rewrite !get_bits_ok by lia. cbn [bind].
  assert (E2 : 2 ^ (E + 2) = 2 * 2 ^ (E + 1)) by (rewrite <- pow2_S by lia; f_equal; lia).
  assert (E4 : 4 <= 2 ^ (E + 1)) by (change 4 with (2 ^ 2); apply Z.pow_le_mono_r; lia).
  assert (FIN : forall j, 0 <= j <= 3 -> 2 ^ (2 * F + P + j) <= V < 2 ^ (2 * F + P + j + 1) ->
    exists r, dot_pack E F (2 ^ (E - 1) - 1) (X + j) ((V / 2 ^ (F + P + j)) mod 2 ^ F) = Some r /\ wf (E + F + 3) r /\
      decode E F r = rndd E F (V, X - 2 * bias E - 2 * F - P)).
  { intros j Hj HVj.
    destruct (dot_pack_ok E F (X + j) ((V / 2 ^ (F + P + j)) mod 2 ^ F) ltac:(lia) HF ltac:(lia) (mod_pow_bound _ F ltac:(lia))) as (r & R1 & R2 & R3).
    exists r. split; [exact R1|]. split; [exact R2|]. rewrite R3. rewrite norm_mod; [|lia|lia|replace (F + (F + P + j)) with (2 * F + P + j) by (clear; lia); exact HVj].
    unfold rndd. rewrite (trunc_char _ _ F false V _ (2 * F + P + j)) by lia.
    replace (2 * F + P + j - F) with (F + P + j) by lia. f_equal. f_equal. lia. }
  assert (MX : forall j, 0 <= j <= 3 -> fadd (E + 2) (zpad_hi 1 (E + 1) X) j = X + j).
  { intros j Hj. rewrite zpad_hi_eq by lia. rewrite fadd_eq by lia. apply Z.mod_small. lia. }
  assert (OI : forall j, 0 <= j <= 3 -> of_int (E + 2) j = Some j).
  { intros j Hj. apply of_int_ok; [lia|]. lia. }
  assert (G : forall j, 0 <= j -> 2 ^ (2 * F + P + j) = 2 ^ j * U).
  { intros j Hj. rewrite pow2_add by lia. rewrite (pow2_add (2 * F) P) by lia. rewrite <- EU. ring. }
  change (3 - 3 + 1) with 1. change (2 - 2 + 1) with 1. change (1 - 1 + 1) with 1. change (2 ^ 1) with 2. change (2 ^ 2) with 4. change (2 ^ 3) with 8.
  assert (C : (8 <= t < 16 /\ to_bool (t / 8 mod 2) = true) \/
    (4 <= t < 8 /\ to_bool (t / 8 mod 2) = false /\ to_bool (t / 4 mod 2) = true) \/
    (2 <= t < 4 /\ to_bool (t / 8 mod 2) = false /\ to_bool (t / 4 mod 2) = false /\ to_bool (t / 2 mod 2) = true) \/
    (1 <= t < 2 /\ to_bool (t / 8 mod 2) = false /\ to_bool (t / 4 mod 2) = false /\ to_bool (t / 2 mod 2) = false)).
  { assert (t = 1 \/ t = 2 \/ t = 3 \/ t = 4 \/ t = 5 \/ t = 6 \/ t = 7 \/ t = 8 \/ t = 9 \/ t = 10 \/ t = 11 \/ t = 12 \/ t = 13 \/ t = 14 \/ t = 15) as K by lia.
    clear - K. repeat (destruct K as [K|K]; [rewrite K; vm_compute; intuition congruence|]). rewrite K; vm_compute; intuition congruence. }
  destruct C as [(C1 & ->)|[(C1 & -> & ->)|[(C1 & -> & -> & ->)|(C1 & -> & -> & ->)]]]; rewrite OI by lia; cbn [bind fst snd]; rewrite MX by lia.
  - replace (2 + F - 3 + 1) with F by lia. change 8 with (2 ^ 3). rewrite slice_top by lia. apply FIN; [lia|].
    replace (2 * F + P + 3 + 1) with (2 * F + P + 4) by lia. rewrite !G by lia. apply (range_scale t); [lia|exact Vt|exact C1].
  - replace (1 + F - 2 + 1) with F by lia. change 4 with (2 ^ 2). rewrite slice_top by lia. apply FIN; [lia|].
    replace (2 * F + P + 2 + 1) with (2 * F + P + 3) by lia. rewrite !G by lia. apply (range_scale t); [lia|exact Vt|exact C1].
  - replace (F - 1 + 1) with F by lia. rewrite slice_top1 by lia. apply FIN; [lia|].
    replace (2 * F + P + 1 + 1) with (2 * F + P + 2) by lia. rewrite !G by lia. apply (range_scale t); [lia|exact Vt|exact C1].
  - replace (F - 1 - 0 + 1) with F by lia. rewrite slice_top by lia. apply FIN; [lia|].
    replace (2 * F + P + 0 + 1) with (2 * F + P + 1) by lia. rewrite !G by lia. apply (range_scale t); [lia|exact Vt|exact C1].
Qed.

(** Sum of floors against the floor of the sum. *)
Lemma floors3 a b c d D : 0 < D -> a mod D = 0 ->
  let V := a / D + b / D + c / D + d / D in
  V * D <= a + b + c + d < (V + 3) * D /\
  ((b mod D = 0 /\ c mod D = 0) \/ (b mod D = 0 /\ d mod D = 0) \/ (c mod D = 0 /\ d mod D = 0) -> V = (a + b + c + d) / D).
Proof.
  intros HD Ha V. pose proof (div_mod_eq a D HD) as Qa. pose proof (div_mod_eq b D HD) as Qb. pose proof (div_mod_eq c D HD) as Qc. pose proof (div_mod_eq d D HD) as Qd.
  pose proof (Z.mod_pos_bound b D HD) as Mb. pose proof (Z.mod_pos_bound c D HD) as Mc. pose proof (Z.mod_pos_bound d D HD) as Md.
  assert (EV : a + b + c + d = V * D + (b mod D + c mod D + d mod D)) by (unfold V; lia).
  split; [lia|]. intros H. apply Z.div_unique with (b mod D + c mod D + d mod D); [left; lia|lia].
Qed.

Lemma exact_shift p P X Y : 0 <= Y -> 0 <= P -> X - Y <= P -> 0 <= X -> (p * 2 ^ P * 2 ^ Y) mod 2 ^ X = 0.
Proof.
  intros. rewrite <- Z.mul_assoc, <- pow2_add by lia. replace (P + Y) with ((P + Y - X) + X) by lia. rewrite pow2_add by lia.
  rewrite Z.mul_assoc. apply Z.mod_mul. apply Z.pow_nonzero; lia.
Qed.

(** What dot4 computes, in terms of the four products sorted so that the first is largest. *)
Lemma dot4_sorted E F p0 X p1 Y1 p2 Y2 p3 Y3 N : 1 <= E <= 30 -> 1 <= F ->
  2 ^ (2 * F) <= p0 < 2 ^ (2 * F + 2) -> 2 ^ (2 * F) <= p1 < 2 ^ (2 * F + 2) -> 2 ^ (2 * F) <= p2 < 2 ^ (2 * F + 2) -> 2 ^ (2 * F) <= p3 < 2 ^ (2 * F + 2) ->
  0 <= Y1 <= X -> 0 <= Y2 <= X -> 0 <= Y3 <= X -> X < 2 ^ (E + 1) - 1 ->
  N = p0 * 2 ^ X + p1 * 2 ^ Y1 + p2 * 2 ^ Y2 + p3 * 2 ^ Y3 ->
  let P := 4 * F - 1 in
  exists r V, dot4_tail E F (2 ^ (E - 1) - 1) p0 p1 p2 p3 X Y1 Y2 Y3 = Some r /\ wf (E + F + 3) r /\
    decode E F r = rndd E F (V, X - 2 * bias E - 2 * F - P) /\ 2 ^ (6 * F - 1) <= V /\
    V * 2 ^ X <= N * 2 ^ P < (V + 3) * 2 ^ X /\
    (Z.b2z (P <? X - Y1) + Z.b2z (P <? X - Y2) + Z.b2z (P <? X - Y3) <= 1 -> decode E F r = rndd E F (N, - 2 * bias E - 2 * F)).
Proof.
  intros HE HF H0 H1 H2 H3 B1 B2 B3 HX HN P.
  assert (HP : 3 <= P) by (unfold P; lia).
  destruct (dot4_tail_ok E F p0 X p1 Y1 p2 Y2 p3 Y3 _ HE HF H0 H1 H2 H3 B1 B2 B3 HX eq_refl) as (r & R1 & R2 & R3). fold P in R3.
  remember (p0 * 2 ^ P + p1 * 2 ^ P * 2 ^ Y1 / 2 ^ X + p2 * 2 ^ P * 2 ^ Y2 / 2 ^ X + p3 * 2 ^ P * 2 ^ Y3 / 2 ^ X) as V eqn:EV.
  assert (PX : 0 < 2 ^ X) by (apply pow2_pos; lia). assert (PP : 0 < 2 ^ P) by (apply pow2_pos; lia).
  assert (P2 : 0 < 2 ^ (2 * F)) by (apply pow2_pos; lia).
  pose proof (floors3 (p0 * 2 ^ P * 2 ^ X) (p1 * 2 ^ P * 2 ^ Y1) (p2 * 2 ^ P * 2 ^ Y2) (p3 * 2 ^ P * 2 ^ Y3) (2 ^ X) PX ltac:(apply Z.mod_mul; lia)) as FL.
  cbv zeta in FL. rewrite Z.div_mul in FL by lia. rewrite <- EV in FL.
  replace (p0 * 2 ^ P * 2 ^ X + p1 * 2 ^ P * 2 ^ Y1 + p2 * 2 ^ P * 2 ^ Y2 + p3 * 2 ^ P * 2 ^ Y3) with (N * 2 ^ P) in FL by (rewrite HN; ring).
  destruct FL as [FL1 FL2].
  pose proof (shifted_bound p1 P X Y1 B1 ltac:(lia) ltac:(lia)) as T1. pose proof (shifted_bound p2 P X Y2 B2 ltac:(lia) ltac:(lia)) as T2. pose proof (shifted_bound p3 P X Y3 B3 ltac:(lia) ltac:(lia)) as T3.
  assert (L0 : 2 ^ (6 * F - 1) <= p0 * 2 ^ P).
  { replace (6 * F - 1) with (2 * F + P) by (unfold P; lia). rewrite pow2_add by lia. apply Z.mul_le_mono_nonneg_r; lia. }
  exists r, V. split; [exact R1|]. split; [exact R2|]. split; [exact R3|]. split; [lia|]. split; [exact FL1|].
  intros K. rewrite R3. assert (EF : V = N * 2 ^ P / 2 ^ X).
  { apply FL2.
    assert (X1 : P < X - Y1 \/ (p1 * 2 ^ P * 2 ^ Y1) mod 2 ^ X = 0) by (destruct (Z_lt_ge_dec P (X - Y1)); [left; assumption|right; apply exact_shift; lia]).
    assert (X2 : P < X - Y2 \/ (p2 * 2 ^ P * 2 ^ Y2) mod 2 ^ X = 0) by (destruct (Z_lt_ge_dec P (X - Y2)); [left; assumption|right; apply exact_shift; lia]).
    assert (X3 : P < X - Y3 \/ (p3 * 2 ^ P * 2 ^ Y3) mod 2 ^ X = 0) by (destruct (Z_lt_ge_dec P (X - Y3)); [left; assumption|right; apply exact_shift; lia]).
    clear - X1 X2 X3 K. destruct (Z.ltb_spec P (X - Y1)), (Z.ltb_spec P (X - Y2)), (Z.ltb_spec P (X - Y3)); cbn [Z.b2z] in K; try lia; intuition lia. }
  assert (NP : 0 < N).
  { subst N. assert (0 < p0 * 2 ^ X) by (apply Z.mul_pos_pos; lia). assert (0 < p1 * 2 ^ Y1) by (apply Z.mul_pos_pos; [lia|apply pow2_pos; lia]).
    assert (0 < p2 * 2 ^ Y2) by (apply Z.mul_pos_pos; [lia|apply pow2_pos; lia]). assert (0 < p3 * 2 ^ Y3) by (apply Z.mul_pos_pos; [lia|apply pow2_pos; lia]). lia. }
  assert (LV : 2 ^ (6 * F - 1) <= V) by lia. assert (X0 : 0 <= X) by lia. clear - HE HF HP LV NP EF X0.
  assert (PV : 0 < V) by (pose proof (pow2_pos (6 * F - 1) ltac:(lia)); lia).
  pose proof (Z.log2_spec V PV) as LS. rewrite <- Z.add_1_r in LS. set (c := Z.log2 V) in *.
  assert (HC : 6 * F - 1 <= c) by (unfold c; rewrite <- (Z.log2_pow2 (6 * F - 1)) by lia; apply Z.log2_le_mono; lia).
  unfold rndd. rewrite (trunc_char _ _ F false V _ c) by lia.
  rewrite (trunc_floor _ _ F false N _ c P X) by (try lia; rewrite <- EF; exact LS). rewrite <- EF. f_equal. f_equal. lia.
Qed.
