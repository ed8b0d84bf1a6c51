From Coq Require Import ZArith Bool Lia.
From Verif Require Import Fw FwLemmas Spec SpecDot Flopoco FlopocoLemmas Dot DotProofs AddSingleProofs2.
Open Scope Z_scope.

(** The rest of dot2_pos_rndd once the larger product is known. *)
Definition dot2_tail (WE WF bias maj_frac maj_exp min_frac min_exp : Z) : option Z :=
  let shift := fsub (WE + 1) maj_exp min_exp in
  let W := 2 * WF + 4 in
  let maj_frac_full := cat 1 (cat (2 * WF + 2) (zg 1) maj_frac) (zg 1) in
  let min_frac_full := cat 1 (cat (2 * WF + 2) (zg 1) min_frac) (zg 1) in
  let shift_loss := to_bool (fge shift W) in
  do min_frac_shifted <- (if shift_loss then Some (zg W) else do d <- to_int shift; fshr W min_frac_full d);
  let frac_full := fadd W maj_frac_full min_frac_shifted in
  do top_three <- take_msbs W 3 frac_full;
  do _ <- assert_ (negb (top_three =? 0));
  do frac_pre_norm <- take_msbs W (3 + WF) frac_full;
  do t2 <- get_bits 3 2 2 top_three;
  do t1 <- get_bits 3 1 1 top_three;
  do fa <- (if to_bool t2 then do f <- get_bits (3 + WF) (1 + WF) 2 frac_pre_norm; do a <- of_int (WE + 2) 2; Some (f, a)
            else if to_bool t1 then do f <- get_bits (3 + WF) WF 1 frac_pre_norm; do a <- of_int (WE + 2) 1; Some (f, a)
            else do f <- get_bits (3 + WF) (WF - 1) 0 frac_pre_norm; do a <- of_int (WE + 2) 0; Some (f, a));
  let exp_post_norm := fadd (WE + 2) (zpad_hi 1 (WE + 1) maj_exp) (snd fa) in
  dot_pack WE WF bias exp_post_norm (fst fa).

Lemma pad_full (L P F x : Z) : 0 <= F -> 0 <= P -> 0 <= x < 2 ^ (2 * F + 2) -> cat P (cat (2 * F + 2) (zg L) x) (zg P) = x * 2 ^ P.
Proof.
  intros HF HP Hx. unfold zg. rewrite (cat_eq (2 * F + 2)) by lia. rewrite cat_eq by (pose proof (pow2_pos P HP); lia). rewrite Z.mul_0_l. lia.
Qed.

Lemma dot_shift W q s : 0 <= s -> 0 < W < 2 ^ 31 -> 0 <= q < 2 ^ W ->
  (if to_bool (fge s W) then Some (zg W) else do d <- to_int s; fshr W q d) = Some (q / 2 ^ s).
Proof.
  intros Hs HW Hq. unfold fge. rewrite to_bool_b2z. destruct (Z.leb_spec W s).
  - rewrite Z.div_small; [reflexivity|]. split; [lia|]. apply Z.lt_le_trans with (2 ^ W); [lia|]. apply Z.pow_le_mono_r; lia.
  - rewrite to_int_ok by lia. cbn [bind]. apply fshr_ok. lia.
Qed.

(** Slices of the truncated sum. *)
Lemma slice_top F D V j : 0 <= F -> 0 <= D -> 0 <= j -> (V / 2 ^ D / 2 ^ j) mod 2 ^ F = (V / 2 ^ (D + j)) mod 2 ^ F.
Proof. intros. rewrite Z.div_div by (try apply Z.pow_nonzero; try apply pow2_pos; lia). rewrite <- pow2_add by lia. reflexivity. Qed.

Lemma slice_top1 F D V : 0 <= F -> 0 <= D -> (V / 2 ^ D / 2) mod 2 ^ F = (V / 2 ^ (D + 1)) mod 2 ^ F.
Proof. intros. exact (slice_top F D V 1 ltac:(lia) ltac:(lia) ltac:(lia)). Qed.

Lemma range_scale t V w lo hi : 0 < w -> t * w <= V < (t + 1) * w -> lo <= t < hi -> lo * w <= V < hi * w.
Proof.
  intros Hw HV Ht. pose proof (Z.mul_le_mono_nonneg_r lo t w ltac:(lia) ltac:(lia)). pose proof (Z.mul_le_mono_nonneg_r (t + 1) hi w ltac:(lia) ltac:(lia)). lia.
Qed.

Lemma dot2_tail_ok E F p X q Y N : 1 <= E -> 1 <= F -> 2 * F + 4 < 2 ^ 31 ->
  2 ^ (2 * F) <= p < 2 ^ (2 * F + 2) -> 2 ^ (2 * F) <= q < 2 ^ (2 * F + 2) -> 0 <= Y <= X -> X < 2 ^ (E + 1) - 1 ->
  N = p * 2 ^ X + q * 2 ^ Y ->
  exists r, dot2_tail E F (2 ^ (E - 1) - 1) p X q Y = Some r /\ wf (E + F + 3) r /\
    decode E F r = rndd E F (N, - 2 * bias E - 2 * F).
Proof.
  intros HE HF HW Hp Hq HXY HX HN. unfold dot2_tail.
  assert (P2 : 0 < 2 ^ (2 * F)) by (apply pow2_pos; lia).
  rewrite !pad_full by lia. rewrite fsub_eq by lia. rewrite (Z.mod_small (X - Y)) by lia.
  remember (2 * F + 4) as W eqn:EW.
  assert (Wf : 2 ^ W = 16 * 2 ^ (2 * F)) by (subst W; rewrite pow2_add by lia; change (2 ^ 4) with 16; lia).
  assert (W2 : 2 ^ (2 * F + 2) = 4 * 2 ^ (2 * F)) by (rewrite pow2_add by lia; change (2 ^ 2) with 4; lia).
  rewrite dot_shift; [|lia|lia|change (2 ^ 1) with 2; lia]. cbn [bind]. rewrite shift_div by lia.
  rewrite fadd_eq by lia.
  assert (PX : 0 < 2 ^ X) by (apply pow2_pos; lia). assert (PY : 0 < 2 ^ Y) by (apply pow2_pos; lia). assert (LXY : 2 ^ Y <= 2 ^ X) by (apply Z.pow_le_mono_r; lia).
  assert (B2 : 0 <= q * 2 ^ 1 * 2 ^ Y / 2 ^ X <= q * 2).
  { split; [apply Z.div_pos; nia|]. apply Z.div_le_upper_bound; [lia|]. change (2 ^ 1) with 2. nia. }
  assert (EV : p * 2 ^ 1 + q * 2 ^ 1 * 2 ^ Y / 2 ^ X = N * 2 ^ 1 / 2 ^ X).
  { subst N. rewrite Z.mul_add_distr_r. replace (p * 2 ^ X * 2 ^ 1) with (p * 2 ^ 1 * 2 ^ X) by ring. rewrite Z.div_add_l by lia. f_equal. f_equal. ring. }
  rewrite Z.mod_small by (change (2 ^ 1) with 2; change (2 ^ 1) with 2 in B2; lia).
  rewrite EV. remember (N * 2 ^ 1 / 2 ^ X) as V eqn:HV. change (2 ^ 1) with 2 in EV, B2.
  assert (BV : 2 * 2 ^ (2 * F) <= V < 16 * 2 ^ (2 * F)) by lia. clear EV B2.
  assert (W3 : 2 ^ (W - 3) = 2 * 2 ^ (2 * F)) by (replace (W - 3) with (2 * F + 1) by lia; apply pow2_S; lia).
  rewrite !take_msbs_ok by lia. cbn [bind].
  remember (V / 2 ^ (W - 3)) as t eqn:Et.
  assert (Bt : 1 <= t < 8) by (subst t; rewrite W3; split; [apply Z.div_le_lower_bound; lia|apply Z.div_lt_upper_bound; lia]).
  assert (Vt : t * 2 ^ (W - 3) <= V < (t + 1) * 2 ^ (W - 3)).
  { pose proof (div_mod_eq V (2 ^ (W - 3)) ltac:(lia)) as Q. pose proof (Z.mod_pos_bound V (2 ^ (W - 3)) ltac:(lia)). rewrite <- Et in Q. nia. }
  replace (negb (t =? 0)) with true by (symmetry; apply negb_true_iff, Z.eqb_neq; lia). cbn [assert_ bind].
  replace (W - (3 + F)) with (F + 1) by lia.
  rewrite !get_bits_ok by lia. cbn [bind].
  assert (NP : 0 < N) by (subst N; nia).
  (* the common end of the three branches *)
  assert (FIN : forall j, 0 <= j <= 2 -> 2 ^ (2 * F + 1 + j) <= V < 2 ^ (2 * F + 1 + j + 1) ->
    exists r, dot_pack E F (2 ^ (E - 1) - 1) (X + j) ((V / 2 ^ (F + 1 + j)) mod 2 ^ F) = Some r /\ wf (E + F + 3) r /\
      decode E F r = rndd E F (N, - 2 * bias E - 2 * F)).
  { intros j Hj HVj. assert (E2 : 2 ^ (E + 2) = 2 * 2 ^ (E + 1)) by (rewrite <- pow2_S by lia; f_equal; lia).
    assert (E4 : 4 <= 2 ^ (E + 1)) by (change 4 with (2 ^ 2); apply Z.pow_le_mono_r; lia).
    destruct (dot_pack_ok E F (X + j) ((V / 2 ^ (F + 1 + j)) mod 2 ^ F) HE HF ltac:(lia) (mod_pow_bound _ F ltac:(lia))) as (r & R1 & R2 & R3).
    exists r. split; [exact R1|]. split; [exact R2|]. rewrite R3. rewrite norm_mod by (try lia; replace (F + (F + 1 + j)) with (2 * F + 1 + j) by lia; lia).
    unfold rndd. rewrite (trunc_floor _ _ F false N (- 2 * bias E - 2 * F) (2 * F + 1 + j) 1 X) by (try lia; rewrite <- HV; exact HVj).
    rewrite <- HV. replace (2 * F + 1 + j - F) with (F + 1 + j) by lia. f_equal. f_equal. lia. }
  assert (MX : forall j, 0 <= j <= 2 -> fadd (E + 2) (zpad_hi 1 (E + 1) X) j = X + j).
  { intros j Hj. assert (E2 : 2 ^ (E + 2) = 2 * 2 ^ (E + 1)) by (rewrite <- pow2_S by lia; f_equal; lia).
    assert (E4 : 4 <= 2 ^ (E + 1)) by (change 4 with (2 ^ 2); apply Z.pow_le_mono_r; lia).
    rewrite zpad_hi_eq by lia. rewrite fadd_eq by lia. apply Z.mod_small. lia. }
  assert (OI : forall j, 0 <= j <= 2 -> of_int (E + 2) j = Some j).
  { intros j Hj. apply of_int_ok; [lia|]. assert (8 <= 2 ^ (E + 2)) by (change 8 with (2 ^ 3); apply Z.pow_le_mono_r; lia). lia. }
  assert (S2 : 2 ^ (2 * F + 1 + 0) = 2 ^ (W - 3)) by (f_equal; lia).
  assert (S3 : 2 ^ (2 * F + 1 + 1) = 2 * 2 ^ (W - 3)) by (rewrite <- pow2_S by lia; f_equal; lia).
  assert (S4 : 2 ^ (2 * F + 1 + 2) = 4 * 2 ^ (W - 3)) by (change 4 with (2 ^ 2); rewrite <- pow2_add by lia; f_equal; lia).
  assert (S5 : 2 ^ (2 * F + 1 + 3) = 8 * 2 ^ (W - 3)) by (change 8 with (2 ^ 3); rewrite <- pow2_add by lia; f_equal; lia).
  change (2 - 2 + 1) with 1. change (1 - 1 + 1) with 1. change (2 ^ 1) with 2. change (2 ^ 2) with 4.
  assert (C : (4 <= t /\ to_bool (t / 4 mod 2) = true) \/ (2 <= t < 4 /\ to_bool (t / 4 mod 2) = false /\ to_bool (t / 2 mod 2) = true) \/
    (t = 1 /\ to_bool (t / 4 mod 2) = false /\ to_bool (t / 2 mod 2) = false)).
  { assert (t = 1 \/ t = 2 \/ t = 3 \/ t = 4 \/ t = 5 \/ t = 6 \/ t = 7) as K by lia.
    repeat (destruct K as [K|K]; [rewrite K; vm_compute; intuition congruence|]). rewrite K; vm_compute; intuition congruence. }
  destruct C as [(C1 & ->)|[(C1 & -> & ->)|(C1 & -> & ->)]].
  - rewrite OI by lia. cbn [bind fst snd]. rewrite MX by lia. replace (1 + F - 2 + 1) with F by lia.
    change 4 with (2 ^ 2). rewrite slice_top by lia. apply FIN; [lia|]. replace (2 * F + 1 + 2 + 1) with (2 * F + 1 + 3) by lia. rewrite S4, S5. apply (range_scale t); lia.
  - rewrite OI by lia. cbn [bind fst snd]. rewrite MX by lia. replace (F - 1 + 1) with F by lia.
    rewrite slice_top1 by lia. apply FIN; [lia|]. replace (2 * F + 1 + 1 + 1) with (2 * F + 1 + 2) by lia. rewrite S3, S4. apply (range_scale t); lia.
  - rewrite OI by lia. cbn [bind fst snd]. rewrite MX by lia. replace (F - 1 - 0 + 1) with F by lia. rewrite slice_top by lia.
    apply FIN; [lia|]. replace (2 * F + 1 + 0 + 1) with (2 * F + 1 + 1) by lia. rewrite S2, S3. pose proof (range_scale t V (2 ^ (W - 3)) 1 2 ltac:(lia) Vt ltac:(lia)). lia.
Qed.

Lemma dmul_val E F x y e f e' f' : decode E F x = Num false (2 ^ F + f) (e - bias E - F) -> decode E F y = Num false (2 ^ F + f') (e' - bias E - F) ->
  dmul (decode E F x) (decode E F y) = ((2 ^ F + f) * (2 ^ F + f'), e + e' - 2 * bias E - 2 * F).
Proof. intros -> ->. cbn [dmul]. f_equal. lia. Qed.

Theorem dot2_ok E F a0 a1 b0 b1 : 1 <= E <= 30 -> 1 <= F -> 2 * F + 4 < 2 ^ 31 ->
  wf (E + F + 3) a0 -> wf (E + F + 3) a1 -> wf (E + F + 3) b0 -> wf (E + F + 3) b1 ->
  pos_normal (decode E F a0) -> pos_normal (decode E F a1) -> pos_normal (decode E F b0) -> pos_normal (decode E F b1) ->
  exists r, dot2_pos_rndd E F a0 a1 b0 b1 = Some r /\ wf (E + F + 3) r /\
    decode E F r = dot2_spec E F (decode E F a0) (decode E F a1) (decode E F b0) (decode E F b1).
Proof.
  intros HE HF HW Wa0 Wa1 Wb0 Wb1 Pa0 Pa1 Pb0 Pb1.
  destruct (pos_view E F a0 ltac:(lia) HF Wa0 Pa0) as (ea0 & fa0 & Oa0 & Ea0 & Da0). destruct (pos_view E F a1 ltac:(lia) HF Wa1 Pa1) as (ea1 & fa1 & Oa1 & Ea1 & Da1).
  destruct (pos_view E F b0 ltac:(lia) HF Wb0 Pb0) as (eb0 & fb0 & Ob0 & Eb0 & Db0). destruct (pos_view E F b1 ltac:(lia) HF Wb1 Pb1) as (eb1 & fb1 & Ob1 & Eb1 & Db1).
  unfold dot2_spec. rewrite (dmul_val E F a0 b0 ea0 fa0 eb0 fb0 Da0 Db0), (dmul_val E F a1 b1 ea1 fa1 eb1 fb1 Da1 Db1). subst a0 a1 b0 b1.
  unfold dot2_pos_rndd. rewrite !dot_check_pack by assumption. cbn [bind]. unfold dot_bias.
  destruct (Z.leb_spec E 30); [|lia]. cbn [assert_ bind]. rewrite !dot_frac_pack, !dot_exp_pack by assumption.
  destruct Oa0 as (_ & _ & _ & A1 & A2), Oa1 as (_ & _ & _ & A3 & A4), Ob0 as (_ & _ & _ & B1 & B2), Ob1 as (_ & _ & _ & B3 & B4).
  pose proof (prod_bound F fa0 fb0 ltac:(lia) A2 B2) as Q0. pose proof (prod_bound F fa1 fb1 ltac:(lia) A4 B4) as Q1.
  remember ((2 ^ F + fa0) * (2 ^ F + fb0)) as p0. remember ((2 ^ F + fa1) * (2 ^ F + fb1)) as p1.
  remember (ea0 + eb0) as X0. remember (ea1 + eb1) as X1.
  assert (BX : 0 <= X0 < 2 ^ (E + 1) - 1 /\ 0 <= X1 < 2 ^ (E + 1) - 1) by (rewrite pow2_S by lia; lia).
  assert (P2 : 0 < 2 ^ (2 * F)) by (apply pow2_pos; lia).
  destruct (dadd_scale p0 (X0 - 2 * bias E - 2 * F) p1 (X1 - 2 * bias E - 2 * F) (- 2 * bias E - 2 * F) ltac:(lia) ltac:(lia)) as (m & e & -> & De & Dm).
  replace (X0 - 2 * bias E - 2 * F - (-2 * bias E - 2 * F)) with X0 in Dm by lia. replace (X1 - 2 * bias E - 2 * F - (-2 * bias E - 2 * F)) with X1 in Dm by lia.
  assert (PX0 : 0 < 2 ^ X0) by (apply pow2_pos; lia). assert (PX1 : 0 < 2 ^ X1) by (apply pow2_pos; lia).
  assert (Pe : 0 < 2 ^ (e - (-2 * bias E - 2 * F))) by (apply pow2_pos; lia).
  assert (Pm : 0 < m) by nia.
  assert (SP : rndd E F (m, e) = rndd E F (p0 * 2 ^ X0 + p1 * 2 ^ X1, - 2 * bias E - 2 * F)).
  { rewrite <- Dm. rewrite rndd_scale by lia. f_equal. f_equal. lia. }
  rewrite SP. unfold fgt. rewrite !select_b2z.
  change (exists r, dot2_tail E F (2 ^ (E - 1) - 1) (if X0 <? X1 then p1 else p0) (if X0 <? X1 then X1 else X0) (if X0 <? X1 then p0 else p1) (if X0 <? X1 then X0 else X1) = Some r /\ wf (E + F + 3) r /\
    decode E F r = rndd E F (p0 * 2 ^ X0 + p1 * 2 ^ X1, - 2 * bias E - 2 * F)).
  destruct (Z.ltb_spec X0 X1).
  - apply dot2_tail_ok; lia.
  - apply dot2_tail_ok; lia.
Qed.
