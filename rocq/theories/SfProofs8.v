(** SoftFloat: division, given a significand on the right side of every rounding boundary; the reciprocal estimate. *)
From Coq Require Import ZArith Bool Lia.
From Verif Require Import Spec Spec754 Fw FwLemmas SpecLemmas ValueLemmas Sf754Lemmas SoftFloat SfProofs1 SfProofs2 SfProofs3 SfProofs4 SfProofs6.
Open Scope Z_scope.

Section Div.
Context (E F U C W : Z).
Context (HW : W = E + F + 1) (HE : 4 <= E <= 15) (HF : 1 <= F) (HU : W <= U) (HC : 16 <= C) (H64 : W <= 64).
Context (Hpow : exists w, 0 <= w /\ W = 2 ^ w) (HE14 : E <= 14).
Context (divsig : Z -> Z -> option Z).

(** The quotient a/b scaled to W-1 bits: n/b with n = a*2^(W-2) or a*2^(W-1). *)
Definition div_num (a b : Z) : Z := a * 2 ^ (if a <? b then W - 1 else W - 2).

Context (Hds : forall a b, 2 ^ F <= a < 2 ^ (F + 1) -> 2 ^ F <= b < 2 ^ (F + 1) ->
  exists r, divsig a b = Some r /\ 2 ^ (W - 2) <= r < 2 ^ (W - 1) /\
    jam (2 * r) (2 ^ (E - 2)) = jam (2 * div_num a b) (b * 2 ^ (E - 2))).

Theorem sf_div_ok a b : 0 <= a < 2 ^ W -> 0 <= b < 2 ^ W ->
  okr E F W (sf_div E F U C divsig a b) (div754 E F (decode754 E F a) (decode754 E F b)).
Proof.
  intros Ha Hb. rewrite HW in Ha, Hb.
  destruct (word_split E F ltac:(lia) HF a Ha) as (s & e & f & -> & He & Hf).
  destruct (word_split E F ltac:(lia) HF b Hb) as (t & e' & g & -> & He' & Hg).
  rewrite <- HW in Ha, Hb.
  unfold sf_div. cbv zeta. rewrite !expUI_word, !fracUI_word, !signUI_word by lia.
  pose proof (pow2_pos F ltac:(lia)) as PF. destruct (sf_EB E ltac:(lia)) as [EB B3].
  assert (HE15 : 2 ^ E <= 2 ^ 14) by (apply pow2_le; lia). change (2 ^ 14) with 16384 in HE15.
  destruct (Z.eqb_spec e (2 ^ E - 1)) as [EX|EX].
  - subst e. rewrite (decode_special E F HE HF s f Hf). destruct (Z.eqb_spec f 0) as [F0|F0]; cbn [negb].
    + destruct (Z.eqb_spec e' (2 ^ E - 1)) as [EY|EY].
      * subst e'. rewrite (decode_special E F HE HF t g Hg). destruct (Z.eqb_spec g 0) as [G0|G0]; cbn [negb].
        -- apply okr_default; assumption.
        -- apply okr_nan; try assumption. right. apply decode_nan_word; lia.
      * destruct ((e' =? 0) && (g =? 0)) eqn:Z0.
        -- rewrite (decode_fin_zero E F U W HW HE HF HU H64 Hpow t) by (assumption || lia). apply okr_inf; assumption.
        -- destruct (decode_fin_num E F U W HW HE HF HU t e' g ltac:(lia) Hg Z0) as (m & q & ->). apply okr_inf; assumption.
    + apply okr_nan; try assumption. left. apply decode_nan_word; lia.
  - destruct (Z.eqb_spec e' (2 ^ E - 1)) as [EY|EY].
    + subst e'. rewrite (decode_special E F HE HF t g Hg). destruct (Z.eqb_spec g 0) as [G0|G0]; cbn [negb].
      * destruct ((e =? 0) && (f =? 0)) eqn:Z0.
        -- rewrite (decode_fin_zero E F U W HW HE HF HU H64 Hpow s) by (assumption || lia). apply okr_zero; assumption.
        -- destruct (decode_fin_num E F U W HW HE HF HU s e f ltac:(lia) Hf Z0) as (m & q & ->). apply okr_zero; assumption.
      * replace (div754 E F (decode754 E F (word E F s e f)) NaN) with NaN by (now destruct (decode754 E F (word E F s e f))).
        apply okr_nan; try assumption. right. apply decode_nan_word; lia.
    + destruct ((e' =? 0) && (g =? 0)) eqn:Z1.
      { rewrite (decode_fin_zero E F U W HW HE HF HU H64 Hpow t) by (assumption || lia). rewrite lor_zero by lia.
        destruct ((e =? 0) && (f =? 0)) eqn:Z0.
        - rewrite (decode_fin_zero E F U W HW HE HF HU H64 Hpow s) by (assumption || lia). apply okr_default; assumption.
        - destruct (decode_fin_num E F U W HW HE HF HU s e f ltac:(lia) Hf Z0) as (m & q & ->). apply okr_inf; assumption. }
      destruct (norm_operand E F U W HW HE HF HU t e' g ltac:(lia) Hg Z1) as (xb & yb & Nb & Bb & Xb & mb & qb & Db & Pb & Qb & Vb).
      rewrite Nb. cbn [bind].
      destruct ((e =? 0) && (f =? 0)) eqn:Z0.
      { rewrite (decode_fin_zero E F U W HW HE HF HU H64 Hpow s) by (assumption || lia). rewrite Db. apply okr_zero; assumption. }
      destruct (norm_operand E F U W HW HE HF HU s e f ltac:(lia) Hf Z0) as (xa & ya & Na & Ba & Xa & ma & qa & Da & Pa & Qa & Va).
      rewrite Na. cbn [bind fst snd]. rewrite Da, Db. unfold div754. cbn [div_gen].
      replace (2 ^ (E - 1) - 2) with (bias E - 1) by (unfold bias; lia).
      rewrite i16_ok by (change (2 ^ 15) with 32768; lia). cbn [bind].
      remember (Z.lor ya (2 ^ F)) as A eqn:EA. remember (Z.lor yb (2 ^ F)) as B eqn:EBB.
      destruct (Hds A B Ba Bb) as (r & Dr & Br & Jr). rewrite Dr. cbn [bind].
      remember (if A <? B then xa - xb + (bias E - 1) - 1 else xa - xb + (bias E - 1)) as exp eqn:Eexp.
      assert (Hexp : - 2 ^ 15 <= exp < 2 ^ 15) by (change (2 ^ 15) with 32768; rewrite Eexp; destruct (A <? B); lia).
      assert (Pn : 0 < div_num A B).
      { unfold div_num. apply Z.mul_pos_pos; [lia|]. apply pow2_pos. destruct (A <? B); lia. }
      destruct (roundPack_gen E F U C W HW ltac:(lia) HF HU HC Hpow (xorb s t) exp r (div_num A B) B Pn ltac:(lia) Hexp Jr Br) as (x & R1 & R2 & R3).
      exists x. split; [exact R1|]. split; [exact R2|]. rewrite R3. symmetry. apply round754_same; try lia.
      pose proof (pow2_pos (qa - (xa - bias E - F)) ltac:(lia)) as P1. pose proof (pow2_pos (qb - (xb - bias E - F)) ltac:(lia)) as P2.
      apply (samev_trans _ _ _ (ma * 2 ^ (qa - (xa - bias E - F))) mb (qa - qb - (qa - (xa - bias E - F)))); [lia|apply samev_num; lia|].
      rewrite <- Va.
      apply (samev_trans _ _ _ A (mb * 2 ^ (qb - (xb - bias E - F))) (qa - qb - (qa - (xa - bias E - F)) + (qb - (xb - bias E - F)))); [apply Z.mul_pos_pos; lia|apply samev_den; lia|].
      rewrite <- Vb. unfold div_num.
      replace (exp + 1 - bias E - (W - 2)) with (qa - qb - (qa - (xa - bias E - F)) + (qb - (xb - bias E - F)) - (if A <? B then W - 1 else W - 2))
        by (rewrite Eexp; destruct (A <? B); lia).
      apply samev_num. destruct (A <? B); lia.
Qed.
End Div.

Lemma jam_two N d k : 0 < d -> 0 <= k -> k * d < N < (k + 1) * d -> jam (2 * N) d = 2 * k + 1.
Proof.
  intros Hd Hk H. rewrite jam_val by nia.
  pose proof (Z.div_mod (2 * N) d ltac:(lia)) as DM. pose proof (Z.mod_pos_bound (2 * N) d Hd) as B.
  assert (Hq : 2 * N / d = 2 * k \/ 2 * N / d = 2 * k + 1).
  { assert (2 * k <= 2 * N / d) by (apply Z.div_le_lower_bound; lia).
    assert (2 * N / d < 2 * k + 2) by (apply Z.div_lt_upper_bound; lia). lia. }
  destruct Hq as [Hq|Hq]; rewrite Hq in *.
  - replace (2 * N mod d =? 0) with false by (symmetry; apply Z.eqb_neq; lia). rewrite Z.even_mul. reflexivity.
  - rewrite Z.even_add, Z.even_mul. cbn [Z.even orb Bool.eqb]. destruct (2 * N mod d =? 0); reflexivity.
Qed.

Lemma jam_two_exact N d k : 0 < d -> 0 <= k -> N = k * d -> jam (2 * N) d = 2 * k.
Proof.
  intros Hd Hk ->. replace (2 * (k * d)) with (2 * k * d) by ring. rewrite jam_exact; [apply Z.div_mul; lia|nia|lia|apply Z.mod_mul; lia].
Qed.

Fixpoint all_below (n : nat) (f : Z -> bool) (x : Z) : bool :=
  match n with
  | O => f x
  | S n => all_below n f (2 * x) && all_below n f (2 * x + 1)
  end.

Lemma all_below_spec n f x : all_below n f x = true -> forall y, x * 2 ^ Z.of_nat n <= y < (x + 1) * 2 ^ Z.of_nat n -> f y = true.
Proof.
  revert x. induction n as [|n IH]; intros x H y Hy.
  - cbn in H. change (Z.of_nat 0) with 0 in Hy. rewrite Z.pow_0_r in Hy. replace y with x by lia. exact H.
  - cbn in H. apply andb_prop in H. destruct H as [H1 H2].
    rewrite Nat2Z.inj_succ, <- Z.add_1_r, pow2_S in Hy by lia.
    specialize (IH (2 * x)) as IH1. specialize (IH (2 * x + 1)) as IH2. remember (2 ^ Z.of_nat n) as P eqn:EP. clear EP IH.
    destruct (Z_lt_ge_dec y ((2 * x + 1) * P)).
    + apply (IH1 H1). split; [|lia]. destruct Hy as [Hy _]. replace (2 * x * P) with (x * (2 * P)) by ring. exact Hy.
    + apply (IH2 H2). split; [lia|]. destruct Hy as [_ Hy]. replace ((2 * x + 1 + 1) * P) with ((x + 1) * (2 * P)) by ring. exact Hy.
Qed.

(** The reciprocal: the linear estimate takes few values, and on the run of operands where it is r0 the error is small. *)
Definition run_ok (k0 k1 base v : Z) : bool :=
  if Z.shiftr (k1 * 65535) 20 <? v then true
  else
    let r0 := k0 - v in
    let lo := v * 1048576 / k1 in
    let hi := Z.min 65535 (((v + 1) * 1048576 - 1) / k1) in
    (0 <=? r0) && (r0 <? 65536) && (r0 * (base + hi * 2048 + 2047) <? 140737488355328)
    && (140737488355328 - r0 * (base + lo * 2048) <=? 137438953472).

Lemma runs_ok : all_below 4 (fun i => all_below 12 (run_ok (recip_k0s i) (recip_k1s i) (2147483648 + i * 134217728)) 0) 0 = true.
Proof. vm_compute. reflexivity. Qed.

Lemma recip_k1s_bound i : 16384 < recip_k1s i < 65536.
Proof. unfold recip_k1s. destruct i as [|[[[[]|[]|]|[[]|[]|]|]|[[[]|[]|]|[[]|[]|]|]|]|]; lia. Qed.

Lemma recip_r0_ok i eps c : 0 <= i < 16 -> 0 <= eps < 65536 -> 0 <= c < 2048 ->
  let r0 := recip_k0s i - Z.shiftr (recip_k1s i * eps) 20 in
  let a := 2 ^ 31 + i * 2 ^ 27 + eps * 2 ^ 11 + c in
  0 <= r0 < 2 ^ 16 /\ 0 < 2 ^ 47 - r0 * a <= 2 ^ 37.
Proof.
  intros Hi He Hc. cbv zeta. pose proof (recip_k1s_bound i) as K. rewrite Z.shiftr_div_pow2 by lia.
  remember (recip_k1s i * eps / 2 ^ 20) as v eqn:Ev.
  assert (V1 : 1048576 * v <= recip_k1s i * eps) by (subst v; apply Z.mul_div_le; lia).
  assert (V2 : recip_k1s i * eps < 1048576 * (v + 1)).
  { subst v. pose proof (Z.div_mod (recip_k1s i * eps) (2 ^ 20) ltac:(lia)). pose proof (Z.mod_pos_bound (recip_k1s i * eps) (2 ^ 20) ltac:(lia)). lia. }
  assert (V0 : 0 <= v) by (subst v; apply Z.div_pos; nia).
  pose proof (all_below_spec _ _ _ (all_below_spec _ _ _ runs_ok i ltac:(cbn; lia)) v) as R. cbv beta in R.
  specialize (R ltac:(cbn; nia)). unfold run_ok in R.
  assert (K2 : recip_k1s i * eps <= recip_k1s i * 65535) by nia.
  destruct (Z.ltb_spec (Z.shiftr (recip_k1s i * 65535) 20) v) as [L|_].
  { exfalso. rewrite Z.shiftr_div_pow2 in L by lia. pose proof (Z.div_le_mono _ _ (2 ^ 20) ltac:(lia) K2). lia. }
  cbv zeta in R. apply andb_prop in R. destruct R as [R R4]. apply andb_prop in R. destruct R as [R R3]. apply andb_prop in R. destruct R as [R1 R2].
  apply Z.leb_le in R1, R4. apply Z.ltb_lt in R2, R3.
  assert (LO : v * 1048576 / recip_k1s i <= eps) by (apply Z.div_le_upper_bound; lia).
  assert (HI : eps <= Z.min 65535 (((v + 1) * 1048576 - 1) / recip_k1s i)).
  { apply Z.min_glb; [lia|]. apply Z.div_le_lower_bound; lia. }
  remember (recip_k0s i - v) as r0 eqn:Er. remember (v * 1048576 / recip_k1s i) as lo eqn:El.
  remember (Z.min 65535 (((v + 1) * 1048576 - 1) / recip_k1s i)) as hi eqn:Eh.
  change (2 ^ 31) with 2147483648. change (2 ^ 27) with 134217728. change (2 ^ 11) with 2048. change (2 ^ 16) with 65536.
  change (2 ^ 47) with 140737488355328. change (2 ^ 37) with 137438953472.
  clear - R1 R2 R3 R4 LO HI Hc. split; [lia|].
  assert (r0 * (2147483648 + i * 134217728 + eps * 2048 + c) <= r0 * (2147483648 + i * 134217728 + hi * 2048 + 2047)) by (apply Z.mul_le_mono_nonneg_l; lia).
  assert (r0 * (2147483648 + i * 134217728 + lo * 2048) <= r0 * (2147483648 + i * 134217728 + eps * 2048 + c)) by (apply Z.mul_le_mono_nonneg_l; lia).
  lia.
Qed.

(** One step of Newton's iteration (a quadratic one) on an estimate with error D0/2^47. *)
Lemma recip_newton a r0 sg t1 sq t2 D0 :
  2 ^ 31 <= a < 2 ^ 32 -> 0 <= r0 -> D0 = 2 ^ 47 - r0 * a -> 0 < D0 <= 2 ^ 37 ->
  D0 - 128 <= 128 * sg <= D0 - 1 -> 0 <= sg ->
  2 ^ 24 * t1 <= r0 * sg < 2 ^ 24 * (t1 + 1) -> 0 <= t1 ->
  2 ^ 32 * sq <= sg * sg < 2 ^ 32 * (sq + 1) -> 0 <= sq ->
  2 ^ 48 * t2 <= (2 ^ 16 * r0 + t1) * sq < 2 ^ 48 * (t2 + 1) ->
  0 < 2 ^ 63 - (2 ^ 16 * r0 + t1 + t2) * a <= 2 * a + (2 ^ 24 + 2 ^ 17) /\ (2 ^ 16 * r0 + t1) * a < 2 ^ 63.
Proof.
  intros Ha Hr0 ED HD HS S0 HT1 T0 HQ Q0 HT2.
  remember (2 ^ 16 * r0 + t1) as r1 eqn:Er1.
  assert (R1p : 0 <= r1) by lia.
  remember (r0 * a) as p eqn:Ep. assert (Pp : 0 <= p) by (subst p; apply Z.mul_nonneg_nonneg; lia).
  assert (A1 : 2 ^ 31 * (r1 * a) <= 2 ^ 94 - D0 * D0).
  { assert (2 ^ 31 * (t1 * a) <= p * (128 * sg)) by (subst p; clear - HT1 Ha; nia).
    assert (p * (128 * sg) <= p * D0) by (apply Z.mul_le_mono_nonneg_l; lia).
    replace (2 ^ 31 * (r1 * a)) with (2 ^ 47 * p + 2 ^ 31 * (t1 * a)) by (subst r1 p; ring).
    assert (2 ^ 47 * p + p * D0 = 2 ^ 94 - D0 * D0) by (replace p with (2 ^ 47 - D0) by lia; ring). lia. }
  assert (A2 : 2 ^ 94 - D0 * D0 - 2 ^ 54 - 2 ^ 31 * a <= 2 ^ 31 * (r1 * a)).
  { assert (p * (128 * sg) - 2 ^ 31 * a <= 2 ^ 31 * (t1 * a)) by (subst p; clear - HT1 Ha; nia).
    assert (p * (D0 - 128) <= p * (128 * sg)) by (apply Z.mul_le_mono_nonneg_l; lia).
    replace (2 ^ 31 * (r1 * a)) with (2 ^ 47 * p + 2 ^ 31 * (t1 * a)) by (subst r1 p; ring).
    assert (2 ^ 47 * p + p * (D0 - 128) = 2 ^ 94 - D0 * D0 - 128 * p) by (replace p with (2 ^ 47 - D0) by lia; ring). lia. }
  assert (B1 : 2 ^ 46 * sq <= D0 * D0).
  { assert (128 * sg * (128 * sg) <= D0 * D0) by (apply Z.mul_le_mono_nonneg; lia). lia. }
  assert (B2 : D0 * D0 - 3 * 2 ^ 45 <= 2 ^ 46 * sq).
  { assert (D0 * D0 - 256 * D0 <= 128 * sg * (128 * sg)).
    { destruct (Z_le_gt_dec 128 D0) as [G|G].
      - assert ((D0 - 128) * (D0 - 128) <= 128 * sg * (128 * sg)) by (apply Z.mul_le_mono_nonneg; lia). lia.
      - clear - G HD S0. nia. }
    lia. }
  remember (r1 * a) as y eqn:Ey. assert (Yp : 0 <= y) by (subst y; apply Z.mul_nonneg_nonneg; lia).
  assert (DD : 0 < D0 * D0 <= 2 ^ 74).
  { split; [apply Z.mul_pos_pos; lia|]. change (2 ^ 74) with (2 ^ 37 * 2 ^ 37). apply Z.mul_le_mono_nonneg; lia. }
  remember (D0 * D0) as d2 eqn:Ed2.
  assert (C1 : 2 ^ 94 * (t2 * a) <= y * d2).
  { assert (2 ^ 94 * (t2 * a) <= 2 ^ 46 * (r1 * sq) * a) by (clear - HT2 Ha; nia).
    replace (2 ^ 46 * (r1 * sq) * a) with (y * (2 ^ 46 * sq)) in H by (subst y; ring).
    assert (y * (2 ^ 46 * sq) <= y * d2) by (apply Z.mul_le_mono_nonneg_l; lia). lia. }
  assert (C2 : y * (d2 - 3 * 2 ^ 45) - 2 ^ 94 * a <= 2 ^ 94 * (t2 * a)).
  { assert (2 ^ 46 * (r1 * sq) * a - 2 ^ 94 * a <= 2 ^ 94 * (t2 * a)) by (clear - HT2 Ha; nia).
    replace (2 ^ 46 * (r1 * sq) * a) with (y * (2 ^ 46 * sq)) in H by (subst y; ring).
    assert (y * (d2 - 3 * 2 ^ 45) <= y * (2 ^ 46 * sq)) by (apply Z.mul_le_mono_nonneg_l; lia). lia. }
  replace ((r1 + t2) * a) with (y + t2 * a) by (subst y; ring).
  remember (t2 * a) as z eqn:Ez.
  assert (D4 : 0 < d2 * d2 <= 2 ^ 148).
  { split; [subst d2; apply Z.mul_pos_pos; apply Z.mul_pos_pos; lia|]. change (2 ^ 148) with (2 ^ 74 * 2 ^ 74). apply Z.mul_le_mono_nonneg; lia. }
  assert (X1 : 2 ^ 31 * y * (2 ^ 94 + d2) <= (2 ^ 94 - d2) * (2 ^ 94 + d2)) by (apply Z.mul_le_mono_nonneg_r; lia).
  assert (X2 : (2 ^ 94 - d2 - 2 ^ 54 - 2 ^ 31 * a) * (2 ^ 94 + d2) <= 2 ^ 31 * y * (2 ^ 94 + d2)) by (apply Z.mul_le_mono_nonneg_r; lia).
  assert (X3 : a * d2 <= 2 ^ 32 * 2 ^ 74) by (apply Z.mul_le_mono_nonneg; lia).
  assert (X4 : 0 <= a * d2) by (apply Z.mul_nonneg_nonneg; lia).
  clear - A1 C1 C2 D4 X1 X2 X3 X4 Ha DD.
  remember (d2 * d2) as d4 eqn:E4. remember (a * d2) as ad eqn:Ead.
  assert (Y1 : (2 ^ 94 - d2) * (2 ^ 94 + d2) = 2 ^ 188 - d4) by (subst d4; ring).
  assert (Y2 : (2 ^ 94 - d2 - 2 ^ 54 - 2 ^ 31 * a) * (2 ^ 94 + d2) = 2 ^ 188 - d4 - 2 ^ 148 - 2 ^ 125 * a - 2 ^ 54 * d2 - 2 ^ 31 * ad) by (subst d4 ad; ring).
  rewrite Y1 in X1. rewrite Y2 in X2. clear E4 Ead Y1 Y2.
  replace (2 ^ 31 * y * (2 ^ 94 + d2)) with (2 ^ 125 * y + 2 ^ 31 * (y * d2)) in X1, X2 by ring.
  replace (y * (d2 - 3 * 2 ^ 45)) with (y * d2 - 3 * 2 ^ 45 * y) in C2 by ring.
  remember (y * d2) as yd eqn:Eyd. clear Eyd. split; lia.
Qed.

(** The reciprocal without reductions. *)
Definition recip_plain (a : Z) : Z :=
  let i := (a / 2 ^ 27) mod 2 ^ 4 in
  let eps := (a / 2 ^ 11) mod 2 ^ 16 in
  let r0 := recip_k0s i - Z.shiftr (recip_k1s i * eps) 20 in
  let sg := 2 ^ 40 - 1 - r0 * a / 2 ^ 7 in
  let r1 := 2 ^ 16 * r0 + r0 * sg / 2 ^ 24 in
  r1 + r1 * (sg * sg / 2 ^ 32) / 2 ^ 48.

Lemma approxRecip_ok U a : 32 <= U -> 2 ^ 31 <= a < 2 ^ 32 ->
  0 < 2 ^ 63 - approxRecip32_1 U a * a <= 2 * a + (2 ^ 24 + 2 ^ 17) /\ 0 <= approxRecip32_1 U a < 2 ^ 32 /\
  approxRecip32_1 U a = recip_plain a.
Proof.
  intros HU Ha. unfold approxRecip32_1, recip_plain. cbv zeta.
  assert (UP : 2 ^ 32 <= 2 ^ U) by (apply pow2_le; lia).
  change 15 with (Z.ones 4). rewrite Z.land_ones by lia. rewrite !Z.shiftr_div_pow2 by lia. rewrite !Z.shiftl_mul_pow2 by lia. unfold uw.
  remember ((a / 2 ^ 27) mod 2 ^ 4) as i eqn:Ei. remember ((a / 2 ^ 11) mod 2 ^ 16) as eps eqn:Ee.
  assert (Hi : 0 <= i < 16) by (subst i; apply Z.mod_pos_bound; lia).
  assert (He : 0 <= eps < 65536) by (subst eps; apply Z.mod_pos_bound; lia).
  assert (Hc : 0 <= a mod 2 ^ 11 < 2048) by (apply Z.mod_pos_bound; lia).
  assert (Ea : 2 ^ 31 + i * 2 ^ 27 + eps * 2 ^ 11 + a mod 2 ^ 11 = a).
  { subst i eps. clear - Ha. Z.to_euclidean_division_equations. lia. }
  pose proof (recip_k1s_bound i) as K.
  destruct (recip_r0_ok i eps (a mod 2 ^ 11) Hi He Hc) as [B0 BD]. rewrite Ea in BD.
  rewrite (Z.mod_small (recip_k1s i * eps)) by (clear - K He UP; nia).
  rewrite <- Z.shiftr_div_pow2 by lia.
  rewrite (Z.mod_small (recip_k0s i - _)) by lia.
  remember (recip_k0s i - Z.shiftr (recip_k1s i * eps) 20) as r0 eqn:Er0.
  clear - HU UP Ha B0 BD.
  remember (r0 * a) as p eqn:Ep. remember (2 ^ 47 - p) as D0 eqn:ED.
  rewrite (Z.mod_small p) by lia.
  assert (ES : Z.lnot ((p / 2 ^ 7) mod 2 ^ U) mod 2 ^ 32 = 2 ^ 40 - 1 - p / 2 ^ 7).
  { unfold Z.lnot. rewrite <- Z.sub_1_r.
    assert (M : (p / 2 ^ 7) mod 2 ^ U mod 2 ^ 32 = (p / 2 ^ 7) mod 2 ^ 32).
    { replace U with (32 + (U - 32)) by lia. rewrite pow2_add by lia. rewrite Z.rem_mul_r by lia.
      rewrite (Z.mul_comm (2 ^ 32)), Z.mod_add by lia. rewrite Z.mod_mod by lia. reflexivity. }
    replace (- ((p / 2 ^ 7) mod 2 ^ U) - 1) with (- 1 - (p / 2 ^ 7) mod 2 ^ U) by lia.
    rewrite Zminus_mod, M, <- Zminus_mod.
    replace (-1 - p / 2 ^ 7) with (2 ^ 40 - 1 - p / 2 ^ 7 + (- 2 ^ 8) * 2 ^ 32) by lia. rewrite Z.mod_add by lia.
    apply Z.mod_small. clear - BD ED. Z.to_euclidean_division_equations. lia. }
  rewrite ES. remember (2 ^ 40 - 1 - p / 2 ^ 7) as sg eqn:Es.
  assert (S1 : D0 - 128 <= 128 * sg <= D0 - 1) by (clear - Es ED; Z.to_euclidean_division_equations; lia).
  assert (S0 : 0 <= sg <= 2 ^ 30) by lia. clear ES Es.
  assert (RS : 0 <= r0 * sg < 2 ^ 62) by (clear - S0 B0; nia).
  assert (SS : 0 <= sg * sg <= 2 ^ 60) by (clear - S0; nia).
  rewrite (Z.mod_small (r0 * sg)) by lia. rewrite (Z.mod_small (sg * sg)) by lia.
  assert (SQ : 0 <= sg * sg / 2 ^ 32 <= 2 ^ 28) by (split; [apply Z.div_pos; lia|apply Z.div_le_upper_bound; lia]).
  rewrite (Z.mod_small (sg * sg / 2 ^ 32)) by lia.
  remember (r0 * sg / 2 ^ 24) as t1 eqn:Et1. remember (sg * sg / 2 ^ 32) as sq eqn:Esq.
  assert (T1 : 2 ^ 24 * t1 <= r0 * sg < 2 ^ 24 * (t1 + 1)) by (clear - Et1; Z.to_euclidean_division_equations; lia).
  assert (T0 : 0 <= t1) by (subst t1; apply Z.div_pos; lia).
  assert (Q1 : 2 ^ 32 * sq <= sg * sg < 2 ^ 32 * (sq + 1)) by (clear - Esq; Z.to_euclidean_division_equations; lia).
  remember ((2 ^ 16 * r0 + t1) * sq / 2 ^ 48) as t2 eqn:Et2.
  assert (T2 : 2 ^ 48 * t2 <= (2 ^ 16 * r0 + t1) * sq < 2 ^ 48 * (t2 + 1)) by (clear - Et2; Z.to_euclidean_division_equations; lia).
  assert (T20 : 0 <= t2) by (subst t2; apply Z.div_pos; [apply Z.mul_nonneg_nonneg; lia|lia]).
  rewrite Ep in ED.
  destruct (recip_newton a r0 sg t1 sq t2 D0 Ha ltac:(lia) ED BD S1 ltac:(lia) T1 T0 Q1 ltac:(lia) T2) as [N1 N2].
  assert (R1 : 0 <= 2 ^ 16 * r0 + t1 < 2 ^ 32) by (clear - N2 Ha B0 T0; nia).
  assert (R2 : 0 <= 2 ^ 16 * r0 + t1 + t2 < 2 ^ 32) by (clear - N1 Ha B0 T0 T20; nia).
  rewrite (Z.mul_comm r0). rewrite (Z.mod_small (2 ^ 16 * r0 + t1) (2 ^ U)) by lia.
  rewrite (Z.mod_small (2 ^ 16 * r0 + t1) (2 ^ 32)) by lia.
  rewrite (Z.mod_small ((2 ^ 16 * r0 + t1) * sq)) by (clear - R1 SQ; nia).
  rewrite <- Et2. rewrite Z.mod_small by lia. split; [assumption|]. split; [assumption|reflexivity].
Qed.
