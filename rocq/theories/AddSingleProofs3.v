From Coq Require Import ZArith Bool Lia.
From Verif Require Import Fw FwLemmas Spec SpecLemmas Flopoco FlopocoLemmas FlopocoProofs CompareProofs MulProofs AddSingle AddLemmas ValueLemmas AddSingleProofs AddSingleProofs2.
Open Scope Z_scope.

Lemma add_num_spec wE wF s t M N x y : y <= x -> 0 <= M -> 0 <= N ->
  let V := if xorb s t then M * 2 ^ (x - y) - N else M * 2 ^ (x - y) + N in 0 <= V ->
  add_spec wE wF (Num s M x) (Num t N y) = if V =? 0 then Zero false else round_to wE wF s V 1 y.
Proof.
  intros Hxy HM HN V HV. unfold add_spec, add_gen. rewrite Z.min_r by lia. rewrite Z.sub_diag, Z.pow_0_r, Z.mul_1_r.
  assert (HS : sgn s (M * 2 ^ (x - y)) + sgn t N = sgn s V) by (unfold V; destruct s, t; cbn [sgn xorb]; lia).
  rewrite HS. destruct (Z.eqb_spec V 0) as [->|Hn].
  - destruct s; reflexivity.
  - destruct s; cbn [sgn].
    + destruct (Z.eqb_spec (- V) 0); [lia|]. destruct (Z.ltb_spec (- V) 0); [|lia]. rewrite Z.abs_opp, Z.abs_eq by lia. reflexivity.
    + destruct (Z.eqb_spec V 0); [lia|]. destruct (Z.ltb_spec V 0); [lia|]. rewrite Z.abs_eq by lia. reflexivity.
Qed.

Lemma clamp_q wF N k : 1 <= wF -> 2 ^ wF <= N < 2 * 2 ^ wF -> wF + 3 <= k ->
  4 * N / 2 ^ k = 0 /\ ((4 * N) mod 2 ^ k =? 0) = false.
Proof.
  intros HF HN Hk. pose proof (pow2_le (wF + 3) k ltac:(lia)) as H. 
  assert (E3 : 2 ^ (wF + 3) = 8 * 2 ^ wF) by (apply (pow2_shift 3); [reflexivity|lia|lia]).
  pose proof (pow2_pos wF ltac:(lia)). rewrite Z.div_small, Z.mod_small by lia. split; [reflexivity|]. apply Z.eqb_neq. lia.
Qed.

(** Exponent difference exactly wF+2, with the shift clamped at wF+3. *)
Lemma tail_clamped wE wF s t e M N d :
  1 <= wE -> 1 <= wF -> wF + 3 < 2 ^ wE -> 0 <= e < 2 ^ wE -> d = wF + 2 ->
  2 ^ wF <= M < 2 * 2 ^ wF -> 2 ^ wF <= N < 2 * 2 ^ wF ->
  let V := if xorb s t then M * 2 ^ d - N else M * 2 ^ d + N in
  exists r, add_tail wE wF 1 (Z.b2z s) 1 (Z.b2z t) e (if xorb s t then 8 * M - 1 else 8 * M + 1) = Some r /\
    wf (wE + wF + 3) r /\
    (~ (xorb s t = true /\ M = 2 ^ wF /\ N <> 2 ^ wF) -> decode wE wF r = round_to wE wF s V 1 (e - d - bias wE - wF)) /\
    (xorb s t = true /\ M = 2 ^ wF /\ N <> 2 ^ wF -> decode wE wF r = Num s M (e - bias wE - wF)).
Proof.
  intros HE HF HEF He Hd HM HN V. pose proof (pow2_pos wF ltac:(lia)) as PF.
  assert (E1 : 2 ^ (wF + 1) = 2 * 2 ^ wF) by (apply pow2_S; lia).
  assert (E2 : 2 ^ d = 4 * 2 ^ wF) by (apply (pow2_shift 2); [reflexivity|lia|lia]).
  assert (E4 : 2 ^ (wF + 4) = 16 * 2 ^ wF) by (apply (pow2_shift 4); [reflexivity|lia|lia]).
  assert (E5 : 2 ^ (wF + 5) = 32 * 2 ^ wF) by (apply (pow2_shift 5); [reflexivity|lia|lia]).
  destruct (tail_num wE wF s 1 t e (if xorb s t then 8 * M - 1 else 8 * M + 1) HE HF HEF He ltac:(auto)) as (r & c & T1 & T2 & T3 & T4 & T5).
  { destruct (xorb s t); lia. }
  exists r. split; [exact T1|]. split; [exact T2|]. rewrite T5. clear T5 T1 T2.
  assert (Hc : forall G n, 0 <= n -> 16 * 2 ^ wF <= G * 2 ^ n < 32 * 2 ^ wF -> 16 * 2 ^ wF <= G * 2 ^ c < 32 * 2 ^ wF -> c = n).
  { clear - T3 PF. intros G n Hn A B. destruct (Z.lt_trichotomy c n) as [H|[H|H]]; [exfalso|exact H|exfalso].
    - replace n with (n - c - 1 + 1 + c) in A by lia. rewrite (pow2_add (n - c - 1 + 1)), pow2_S in A by lia. pose proof (pow2_pos (n - c - 1) ltac:(lia)). nia.
    - replace c with (c - n - 1 + 1 + n) in B by lia. rewrite (pow2_add (c - n - 1 + 1)), pow2_S in B by lia. pose proof (pow2_pos (c - n - 1) ltac:(lia)). nia. }
  rewrite E4, E5 in T4.
  destruct (Z.eq_dec M (2 ^ wF)) as [HM2|HM2]; destruct (xorb s t) eqn:Hx.
  - assert (c = 2) by (apply (Hc (8 * M - 1)); [lia|change (2 ^ 2) with 4; lia|exact T4]). subst c.
    change (2 ^ 2) with 4. rewrite (rne_div_near ((8 * M - 1) * 4) 16 (2 * M)) by lia. split; intros Hbad.
    + assert (HN2 : N = 2 ^ wF) by (destruct (Z.eq_dec N (2 ^ wF)); [assumption|exfalso; apply Hbad; auto]).
      symmetry. replace (e + 1 - 2 - bias wE - wF) with (e - d - bias wE - wF + d + 1 - 2) by ring.
      unfold V. apply round_to_norm; try lia.
      * rewrite E2. nia.
      * rewrite E1, E2, HM2, HN2. change (2 ^ 2) with 4. clear - PF. remember (2 ^ wF) as P. nia.
      * rewrite E2, HM2, HN2. change (2 ^ 2) with 4.
        replace (8 * (2 ^ wF * (4 * 2 ^ wF) - 2 ^ wF) * 4) with ((4 * 2 ^ wF - 1) * (32 * 2 ^ wF)) by ring.
        replace (16 * (4 * 2 ^ wF)) with (2 * (32 * 2 ^ wF)) by ring.
        rewrite rne_div_scale by lia. remember (2 ^ wF) as P. clear.
        unfold rne_div. replace (4 * P - 1) with (1 + (2 * P - 1) * 2) by ring. rewrite Z.div_add, Z.mod_add by lia.
        change (1 / 2) with 0. change (1 mod 2) with 1. change (2 * 1 <? 2) with false. change (2 <? 2 * 1) with false. cbv iota.
        rewrite Z.add_0_l. replace (Z.even (2 * P - 1)) with false; [lia|].
        replace (2 * P - 1) with (1 + 2 * (P - 1)) by ring. rewrite Z.even_add_mul_2. reflexivity.
    + replace (norm_me wF (2 * M) (e + 1 - 2 - bias wE - wF)) with (M, e - bias wE - wF).
      * unfold finish, emin, emax, bias. pose proof (pow_EX wE HE). destruct (Z.ltb_spec (e - (2 ^ (wE - 1) - 1) - wF + wF) (- (2 ^ (wE - 1) - 1))); [lia|].
        destruct (Z.ltb_spec (2 ^ (wE - 1) - 1 + 1) (e - (2 ^ (wE - 1) - 1) - wF + wF)); [lia|]. reflexivity.
      * unfold norm_me. rewrite E1, HM2, Z.eqb_refl. f_equal; ring.
  - assert (c = 1) by (apply (Hc (8 * M + 1)); [lia|change (2 ^ 1) with 2; lia|exact T4]). subst c. split; [intros _|intros [HF0 _]; discriminate].
    change (2 ^ 1) with 2. rewrite (rne_div_near ((8 * M + 1) * 2) 16 M) by lia.
    symmetry. replace (e + 1 - 1 - bias wE - wF) with (e - d - bias wE - wF + d + 1 - 1) by ring.
    unfold V. clear - HF HM HM2 HN E1 E2 Hd PF. remember (2 ^ wF) as P. rewrite E2. apply round_to_norm; rewrite ?E1, ?E2, <- ?HeqP; change (2 ^ 1) with 2; try lia; try nia.
    symmetry. apply rne_div_near; lia.
  - assert (c = 1) by (apply (Hc (8 * M - 1)); [lia|change (2 ^ 1) with 2; lia|exact T4]). subst c. split; [intros _|intros (_ & HF0 & _); contradiction].
    change (2 ^ 1) with 2. rewrite (rne_div_near ((8 * M - 1) * 2) 16 M) by lia.
    symmetry. replace (e + 1 - 1 - bias wE - wF) with (e - d - bias wE - wF + d + 1 - 1) by ring.
    unfold V. clear - HF HM HM2 HN E1 E2 Hd PF. remember (2 ^ wF) as P. rewrite E2. apply round_to_norm; rewrite ?E1, ?E2, <- ?HeqP; change (2 ^ 1) with 2; try lia; try nia.
    symmetry. apply rne_div_near; lia.
  - assert (c = 1) by (apply (Hc (8 * M + 1)); [lia|change (2 ^ 1) with 2; lia|exact T4]). subst c. split; [intros _|intros [HF0 _]; discriminate].
    change (2 ^ 1) with 2. rewrite (rne_div_near ((8 * M + 1) * 2) 16 M) by lia.
    symmetry. replace (e + 1 - 1 - bias wE - wF) with (e - d - bias wE - wF + d + 1 - 1) by ring.
    unfold V. clear - HF HM HM2 HN E1 E2 Hd PF. remember (2 ^ wF) as P. rewrite E2. apply round_to_norm; rewrite ?E1, ?E2, <- ?HeqP; change (2 ^ 1) with 2; try lia; try nia.
    symmetry. apply rne_div_near; lia.
Qed.

Definition swallow (wE wF a : Z) (s : bool) (e f b : Z) (t : bool) (g h : Z) : Prop :=
  2 * (wF + 3) < 2 ^ wE /\ a = 1 /\ b = 1 /\ xorb s t = true /\ f = 0 /\ h <> 0 /\ e - g = wF + 2.

Lemma core_correct wE wF a s e f b t g h :
  okf wE wF a e f -> okf wE wF b g h -> wF + 3 < 2 ^ wE -> 2 ^ wE <> 2 * (wF + 3) -> 2 * wF + 4 < 2 ^ 31 ->
  b * 2 ^ (wE + wF) + (g * 2 ^ wF + h) <= a * 2 ^ (wE + wF) + (e * 2 ^ wF + f) ->
  let X := pack wE wF a s e f in let Y := pack wE wF b t g h in
  exists r, core_of wE wF X Y = Some r /\ wf (wE + wF + 3) r /\
    (~ swallow wE wF a s e f b t g h -> decode wE wF r = add_spec wE wF (decode wE wF X) (decode wE wF Y)) /\
    (swallow wE wF a s e f b t g h -> decode wE wF r = decode wE wF X).
Proof.
  intros HX HY H1 H2 H31 Hord X Y. unfold X, Y. clear X Y. rewrite !decode_pack by assumption.
  destruct (core_tail wE wF a s e f b t g h HX HY H1 H2 H31) as (k & K1 & K2 & K3). cbv zeta in K3. rewrite K3. clear K3.
  destruct HX as (HE & HF & Ha & He & Hf). destruct HY as (_ & _ & Hb & Hg & Hh).
  pose proof (body_bound wE wF e f ltac:(lia) ltac:(lia) He Hf) as Be.
  pose proof (body_bound wE wF g h ltac:(lia) ltac:(lia) Hg Hh) as Bg.
  assert (Hba : b <= a) by (remember (2 ^ (wE + wF)) as P; clear - Hord Be Bg; nia). assert (Heg : a = b -> g * 2 ^ wF + h <= e * 2 ^ wF + f) by (intros ->; lia). clear Hord.
  pose proof (pow2_pos wF ltac:(lia)) as PF. pose proof (pow2_pos k ltac:(lia)) as PK.
  assert (E4 : 2 ^ (wF + 4) = 16 * 2 ^ wF) by (apply (pow2_shift 4); [reflexivity|lia|lia]).
  assert (E5 : 2 ^ (wF + 5) = 32 * 2 ^ wF) by (apply (pow2_shift 5); [reflexivity|lia|lia]).
  remember (2 ^ wF + f) as M eqn:EM. remember (if b =? 0 then 0 else 2 ^ wF + h) as N eqn:EN.
  assert (HN : 0 <= N < 2 * 2 ^ wF) by (rewrite EN; destruct (b =? 0); lia).
  assert (Hq : 0 <= 4 * N / 2 ^ k <= 4 * N).
  { split; [apply Z.div_pos; lia|]. apply Z.div_le_upper_bound; [lia|]. nia. }
  destruct (Z.eq_dec a 1) as [->|Ha1].
  - cbn [Z.eqb Pos.eqb]. assert (Hb01 : b = 0 \/ b = 1) by lia. destruct Hb01 as [-> | ->]; cbn [Z.eqb Pos.eqb] in *.
    + (* Y zero *)
      subst N. rewrite Z.mul_0_r, Z.div_0_l, Z.mod_0_l by lia. cbn [Z.eqb negb Z.b2z].
      destruct (tail_rounds wE wF s 0 t e M 0 HE HF H1 He ltac:(auto) ltac:(lia)) as (r & T1 & T2 & T3).
      { rewrite Z.pow_0_r. lia. } { rewrite Z.pow_0_r, Z.mod_1_r. lia. }
      exists r. split; [|split; [exact T2|split]].
      * rewrite <- T1. f_equal. unfold sticky_form. rewrite Z.pow_0_r, Z.div_1_r, Z.mod_1_r. cbn [Z.eqb negb Z.b2z].
        rewrite !Z.sub_0_r, !Z.add_0_r. rewrite Z.mod_small by lia. destruct (xorb s t); reflexivity.
      * intros _. rewrite T3. rewrite Z.sub_0_r. reflexivity.
      * intros (_ & _ & Hbad & _). discriminate.
    + specialize (Heg eq_refl). assert (Hge : g <= e) by (remember (2 ^ wF) as P; clear - Heg Hf Hh PF; nia). specialize (K2 Hge).
      assert (HM2 : 2 ^ wF <= M < 2 * 2 ^ wF) by lia. assert (HN2 : 2 ^ wF <= N < 2 * 2 ^ wF) by lia.
      assert (HNM : e - g = 0 -> N <= M) by (intros; assert (e = g) by lia; subst; lia).
      assert (HV : 0 <= if xorb s t then M * 2 ^ (e - g) - N else M * 2 ^ (e - g) + N).
      { destruct (Z.eq_dec (e - g) 0) as [Hn|Hn].
        - specialize (HNM Hn). rewrite Hn, Z.pow_0_r. destruct (xorb s t); lia.
        - pose proof (pow2_le 1 (e - g) ltac:(lia)) as H. change (2 ^ 1) with 2 in H. remember (2 ^ (e - g)) as D. clear - H HM2 HN2 PF. destruct (xorb s t); nia. }
      pose proof (tail_sum wE wF s t e M N (e - g) HE HF H1 He ltac:(lia) HM2 HN2 HNM) as HT. cbv zeta in HT.
      rewrite <- grs_sticky in HT by lia.
      assert (Hspec : add_spec wE wF (Num s M (e - bias wE - wF)) (Num t N (g - bias wE - wF)) =
        if (if xorb s t then M * 2 ^ (e - g) - N else M * 2 ^ (e - g) + N) =? 0 then Zero false
        else round_to wE wF s (if xorb s t then M * 2 ^ (e - g) - N else M * 2 ^ (e - g) + N) 1 (g - bias wE - wF)).
      { rewrite add_num_spec; replace (e - bias wE - wF - (g - bias wE - wF)) with (e - g) by ring; try reflexivity; try assumption; lia. }
      rewrite <- EN, Hspec. clear Hspec.
      destruct K2 as [(Hk & Hlim)|(Hk & Hd & Hbig)].
      * subst k. destruct HT as (r & T1 & T2 & T3). exists r. split; [|split; [exact T2|split]].
        -- rewrite <- T1. f_equal. f_equal. f_equal. destruct (xorb s t); [|reflexivity]. apply Z.mod_small.
           assert (0 <= sticky_form (4 * (M * 2 ^ (e - g) - N)) (2 ^ (e - g))).
           { unfold sticky_form. pose proof (Z.div_pos (4 * (M * 2 ^ (e - g) - N)) (2 ^ (e - g)) ltac:(lia) PK). b01 (negb ((4 * (M * 2 ^ (e - g) - N)) mod 2 ^ (e - g) =? 0)). lia. }
           rewrite <- (grs_sticky M N (e - g) true) in H by lia. b01 (negb ((4 * N) mod 2 ^ (e - g) =? 0)). lia.
        -- intros _. rewrite T3. replace (e - (e - g) - bias wE - wF) with (g - bias wE - wF) by ring. reflexivity.
        -- intros (B1 & _ & _ & B4 & B5 & B6 & B7). lia.
      * destruct (clamp_q wF N k HF HN2 ltac:(lia)) as (C1 & C2). rewrite C1, C2. cbn [negb Z.b2z].
        assert (EG : 2 * (if xorb s t then (4 * M - 0 - 1) mod 2 ^ (wF + 4) else 4 * M + 0) + 1 = if xorb s t then 8 * M - 1 else 8 * M + 1).
        { destruct (xorb s t); [rewrite Z.mod_small by lia|]; ring. }
        rewrite EG. destruct (Z.eq_dec (e - g) (wF + 2)) as [Hd2|Hd2].
        -- destruct (tail_clamped wE wF s t e M N (e - g) HE HF H1 He Hd2 HM2 HN2) as (r & T1 & T2 & T3 & T4).
           cbv zeta in T3. exists r. split; [exact T1|]. split; [exact T2|]. split.
           ++ intros Hns. rewrite T3.
              ** replace (e - (e - g) - bias wE - wF) with (g - bias wE - wF) by ring.
                 destruct (Z.eqb_spec (if xorb s t then M * 2 ^ (e - g) - N else M * 2 ^ (e - g) + N) 0) as [H0|H0]; [|reflexivity].
                 exfalso. rewrite Hd2 in H0. assert (E2 : 2 ^ (wF + 2) = 4 * 2 ^ wF) by (apply (pow2_shift 2); [reflexivity|lia|lia]).
                 rewrite E2 in H0. clear - H0 HM2 HN2 PF. destruct (xorb s t); nia.
              ** intros (B1 & B2 & B3). apply Hns. unfold swallow. repeat split; try assumption; lia.
           ++ intros (B1 & _ & _ & B4 & B5 & B6 & B7). apply T4. repeat split; [assumption|lia|lia].
        -- destruct (clamp_q wF N (e - g) HF HN2 ltac:(lia)) as (D1 & D2). rewrite D1, D2 in HT. cbn [negb Z.b2z] in HT.
           assert (EG2 : 2 * (if xorb s t then 4 * M - 0 - 1 else 4 * M + 0) + 1 = if xorb s t then 8 * M - 1 else 8 * M + 1).
           { destruct (xorb s t); ring. }
           rewrite EG2 in HT. destruct HT as (r & T1 & T2 & T3). exists r. split; [exact T1|]. split; [exact T2|]. split.
           ++ intros _. rewrite T3. replace (e - (e - g) - bias wE - wF) with (g - bias wE - wF) by ring. reflexivity.
           ++ intros (B1 & _ & _ & B4 & B5 & B6 & B7). lia.
  - match goal with |- context [add_tail _ _ _ _ _ _ _ ?G] => assert (HG : 0 <= G < 2 ^ (wF + 5)) end.
    { b01 (negb ((4 * N) mod 2 ^ k =? 0)). destruct (xorb s t); [|lia].
      pose proof (mod_pow_bound (4 * M - 4 * N / 2 ^ k - Z.b2z (negb ((4 * N) mod 2 ^ k =? 0))) (wF + 4) ltac:(lia)). lia. }
    destruct (tail_special wE wF a s b t e _ HE HF He HG ltac:(lia) ltac:(lia) Ha1 M (e - bias wE - wF) (2 ^ wF + h) (g - bias wE - wF)) as (r & T1 & T2 & T3).
    exists r. split; [exact T1|]. split; [exact T2|]. split; [intros _; exact T3|]. intros (_ & B2 & _). contradiction.
Qed.

(** ** add_single *)
Lemma body_correct wE wF a s e f b t g h :
  okf wE wF a e f -> okf wE wF b g h -> wF + 3 < 2 ^ wE -> 2 ^ wE <> 2 * (wF + 3) -> 2 * wF + 4 < 2 ^ 31 ->
  let X := pack wE wF a s e f in let Y := pack wE wF b t g h in
  exists r, add_single_body wE wF X Y = Some r /\ wf (wE + wF + 3) r /\
    (~ swallow wE wF a s e f b t g h -> ~ swallow wE wF b t g h a s e f -> decode wE wF r = add_spec wE wF (decode wE wF X) (decode wE wF Y)) /\
    (swallow wE wF a s e f b t g h -> decode wE wF r = decode wE wF X) /\
    (swallow wE wF b t g h a s e f -> decode wE wF r = decode wE wF Y).
Proof.
  intros HX HY H1 H2 H31 X Y. unfold X, Y. rewrite body_core. rewrite !get_flags_exp_frac_pack by assumption.
  assert (Hno : forall a s e f b t g h, okf wE wF a e f -> okf wE wF b g h -> a * 2 ^ (wE + wF) + (e * 2 ^ wF + f) <= b * 2 ^ (wE + wF) + (g * 2 ^ wF + h) -> ~ swallow wE wF a s e f b t g h).
  { clear. intros a s e f b t g h (HE & HF & _ & He & Hf) (_ & _ & _ & Hg & Hh) Hle (_ & -> & -> & _ & _ & _ & Hd).
    pose proof (pow2_pos wF ltac:(lia)). nia. }
  destruct (Z.ltb_spec (a * 2 ^ (wE + wF) + (e * 2 ^ wF + f)) (b * 2 ^ (wE + wF) + (g * 2 ^ wF + h))) as [Hlt|Hge].
  - destruct (core_correct wE wF b t g h a s e f HY HX H1 H2 H31 ltac:(lia)) as (r & R1 & R2 & R3 & R4). cbv zeta in *.
    exists r. split; [exact R1|]. split; [exact R2|]. split; [|split].
    + intros _ Hn. rewrite R3 by assumption. apply add_gen_comm.
    + intros Hs. exfalso. revert Hs. apply Hno; (assumption || lia).
    + exact R4.
  - destruct (core_correct wE wF a s e f b t g h HX HY H1 H2 H31 ltac:(lia)) as (r & R1 & R2 & R3 & R4). cbv zeta in *.
    exists r. split; [exact R1|]. split; [exact R2|]. split; [|split].
    + intros Hn _. apply R3. assumption.
    + exact R4.
    + intros Hs. exfalso. revert Hs. apply Hno; (assumption || lia).
Qed.

Lemma add_spec_promoted wE wF wEX wFX wEY wFY a s e f b t g h :
  wFX <= wF -> wFY <= wF -> okf wEX wFX a e f -> okf wEY wFY b g h ->
  okf wE wF a (e + (bias wE - bias wEX)) (f * 2 ^ (wF - wFX)) -> okf wE wF b (g + (bias wE - bias wEY)) (h * 2 ^ (wF - wFY)) ->
  add_spec wE wF (decode wE wF (pack wE wF a s (e + (bias wE - bias wEX)) (f * 2 ^ (wF - wFX))))
    (decode wE wF (pack wE wF b t (g + (bias wE - bias wEY)) (h * 2 ^ (wF - wFY)))) =
  add_spec wE wF (decode wEX wFX (pack wEX wFX a s e f)) (decode wEY wFY (pack wEY wFY b t g h)).
Proof.
  intros H1 H2 Ha Hb Oa Ob. rewrite !decode_promoted by (assumption || lia).
  apply add_gen_scale2; try lia.
  - apply round_to_val. destruct Oa as (_ & ? & _). lia.
  - apply decode_pos. destruct Ha as (_ & ? & _). lia.
  - apply decode_pos. destruct Hb as (_ & ? & _). lia.
Qed.

Lemma cmp_num_pow m e F f p : 0 <= F -> e = p - F -> m = 2 ^ F + f -> 0 <= f < 2 ^ F ->
  (cmp_num m e 1 p = Eq <-> f = 0) /\ (cmp_num m e 1 p = Gt <-> f <> 0) /\ cmp_num m e 1 (p + 1) = Lt.
Proof.
  intros HF -> -> Hf. rewrite (cmp_num_k _ _ _ _ (p - F)), (cmp_num_k _ _ _ (p + 1) (p - F)) by lia.
  rewrite Z.sub_diag, Z.pow_0_r, Z.mul_1_r. replace (p - (p - F)) with F by lia. replace (p + 1 - (p - F)) with (F + 1) by lia.
  rewrite pow2_S, !Z.mul_1_l by lia. split; [|split].
  - rewrite Z.compare_eq_iff. lia.
  - rewrite Z.compare_gt_iff. lia.
  - apply Z.compare_lt_iff. lia.
Qed.

Lemma absorbed_scale F d d' x y : 0 <= d -> 0 <= d' -> (absorbed F (scale_v d x) (scale_v d' y) <-> absorbed F x y).
Proof.
  intros Hd Hd'. split; intros (s & m & e & n & f & p & Hx & Hy & C1 & C2 & C3).
  - destruct x as [| | |s0 m0 e0]; try discriminate Hx. destruct y as [| | |t0 n0 f0]; try discriminate Hy.
    cbn in Hx, Hy. injection Hx as -> <- <-. injection Hy as -> <- <-.
    rewrite cmp_num_scale in C1, C2, C3 by assumption. exists s, m0, e0, n0, f0, p. auto.
  - subst x y. exists s, (m * 2 ^ d), (e - d), (n * 2 ^ d'), (f - d'), p. cbn. rewrite !cmp_num_scale by assumption. auto.
Qed.

Lemma swallow_absorbed wE wF a s e f b t g h : okf wE wF a e f -> okf wE wF b g h -> 2 * (wF + 3) < 2 ^ wE ->
  (swallow wE wF a s e f b t g h <->
   absorbed wF (decode wE wF (pack wE wF a s e f)) (decode wE wF (pack wE wF b t g h))).
Proof.
  intros Ha Hb HS. rewrite !decode_pack by assumption. pose proof Ha as (HE & HF & Hfa & He & Hf). pose proof Hb as (_ & _ & Hfb & Hg & Hh).
  destruct (cmp_num_pow (2 ^ wF + f) (e - bias wE - wF) wF f (e - bias wE) ltac:(lia) ltac:(lia) eq_refl Hf) as (X1 & X2 & X3).
  destruct (cmp_num_pow (2 ^ wF + h) (g - bias wE - wF) wF h (g - bias wE) ltac:(lia) ltac:(lia) eq_refl Hh) as (Y1 & Y2 & Y3).
  pose proof (pow2_pos wF ltac:(lia)) as PF. split.
  - intros (_ & -> & -> & Hx & -> & Hh0 & Hd). cbn [Z.eqb Pos.eqb].
    exists s, (2 ^ wF + 0), (e - bias wE - wF), (2 ^ wF + h), (g - bias wE - wF), (e - bias wE).
    split; [reflexivity|]. split; [destruct s, t; try discriminate Hx; reflexivity|]. split; [apply X1; reflexivity|].
    replace (e - bias wE - wF - 2) with (g - bias wE) by lia. replace (e - bias wE - wF - 1) with (g - bias wE + 1) by lia.
    split; [apply Y2; assumption|exact Y3].
  - intros (s0 & m & e0 & n & f0 & p & Hx & Hy & C1 & C2 & C3).
    destruct (Z.eqb_spec a 0); [discriminate|]. destruct (Z.eqb_spec a 1) as [->|]; [|destruct (a =? 2); discriminate].
    destruct (Z.eqb_spec b 0); [discriminate|]. destruct (Z.eqb_spec b 1) as [->|]; [|destruct (b =? 2); discriminate].
    injection Hx as -> <- <-. injection Hy as -> <- <-. unfold swallow. split; [assumption|]. do 2 (split; [reflexivity|]).
    split; [destruct s0; reflexivity|].
    assert (Hp : p = e - bias wE /\ f = 0).
    { rewrite (cmp_num_k _ _ _ _ (Z.min (e - bias wE - wF) p)) in C1 by lia. apply Z.compare_eq in C1.
      set (k := Z.min (e - bias wE - wF) p) in *. rewrite Z.mul_1_l in C1.
      assert (Hp : p = e - bias wE).
      { pose proof (pow2_pos (e - bias wE - wF - k) ltac:(lia)) as PK. remember (e - bias wE - wF - k) as u.
        assert (EA : 2 ^ (wF + u) = 2 ^ wF * 2 ^ u) by (apply pow2_add; lia).
        assert (B1 : 2 ^ (wF + u) <= 2 ^ (p - k) < 2 ^ (wF + u + 1)) by (rewrite pow2_S by lia; rewrite EA; nia).
        destruct (Z.lt_trichotomy (p - k) (wF + u)) as [L|[L|L]]; [|lia|].
        - pose proof (Z.pow_lt_mono_r 2 (p - k) (wF + u) ltac:(lia) ltac:(lia) L). lia.
        - pose proof (pow2_le (wF + u + 1) (p - k) ltac:(lia)). lia. }
      split; [exact Hp|]. apply X1. rewrite <- Hp. rewrite (cmp_num_k _ _ _ _ k) by lia. apply Z.compare_eq_iff. rewrite Z.mul_1_l. rewrite Hp at 1. exact C1. }
    destruct Hp as (-> & ->).
    assert (Hd : e - g = wF + 2).
    { set (k := g - bias wE - wF) in *. destruct (Z.lt_trichotomy (e - bias wE - wF - 2) (g - bias wE)) as [L|[L|L]]; [|lia|].
      - exfalso. rewrite (cmp_num_k _ _ _ _ (Z.min k (e - bias wE - wF - 1))) in C3 by lia. apply Z.compare_lt_iff in C3. rewrite Z.mul_1_l in C3.
        remember (Z.min k (e - bias wE - wF - 1)) as j. pose proof (pow2_pos (k - j) ltac:(lia)) as PJ.
        assert (HQ : 2 ^ (e - bias wE - wF - 1 - j) <= 2 ^ wF * 2 ^ (k - j)) by (rewrite <- pow2_add by lia; apply pow2_le; lia).
        assert (HQ2 : 2 ^ wF * 2 ^ (k - j) <= (2 ^ wF + h) * 2 ^ (k - j)) by (apply Z.mul_le_mono_nonneg_r; lia).
        exact (Z.lt_irrefl _ (Z.lt_le_trans _ _ _ C3 (Z.le_trans _ _ _ HQ HQ2))).
      - exfalso. rewrite (cmp_num_k _ _ _ _ k) in C2 by lia. apply Z.compare_gt_iff in C2. rewrite Z.mul_1_l, Z.sub_diag, Z.pow_0_r in C2.
        assert (2 ^ (wF + 1) <= 2 ^ (e - bias wE - wF - 2 - k)) by (apply pow2_le; lia). rewrite pow2_S in H by lia. lia. }
    split; [reflexivity|]. split; [|exact Hd].
    apply Y2. replace (e - bias wE - wF - 2) with (g - bias wE) in C2 by lia. exact C2.
Qed.

Theorem add_single_char wEX wFX wEY wFY x y :
  let E := Z.max wEX wEY in let F := Z.max wFX wFY in
  1 <= wEX -> 1 <= wFX -> 1 <= wEY -> 1 <= wFY -> F + 3 < 2 ^ E -> 2 ^ E <> 2 * (F + 3) -> 2 * F + 4 < 2 ^ 31 ->
  wf (wEX + wFX + 3) x -> wf (wEY + wFY + 3) y ->
  exists r, add_single E F wEX wFX wEY wFY x y = Some r /\ wf (E + F + 3) r /\
    let vx := decode wEX wFX x in let vy := decode wEY wFY y in
    ((2 ^ E < 2 * (F + 3) \/ ~ absorbed F vx vy /\ ~ absorbed F vy vx) -> decode E F r = add_spec E F vx vy) /\
    (2 * (F + 3) < 2 ^ E -> absorbed F vx vy -> veq (decode E F r) vx) /\
    (2 * (F + 3) < 2 ^ E -> absorbed F vy vx -> veq (decode E F r) vy).
Proof.
  intros E F H1 H2 H3 H4 HEF HEF2 H31 Wx Wy.
  destruct (pack_view wEX wFX x H1 H2 Wx) as (a & s & e & f & Ha & ->).
  destruct (pack_view wEY wFY y H3 H4 Wy) as (b & t & g & h & Hb & ->).
  assert (EC : forall p q, ctMax p q = Z.max p q) by (intros; unfold ctMax; destruct (Z.ltb_spec q p); lia).
  unfold add_single. rewrite !EC. fold E F.
  destruct (promote_pack E F wEX wFX a s e f ltac:(lia) ltac:(lia) Ha) as [Pa Oa].
  destruct (promote_pack E F wEY wFY b t g h ltac:(lia) ltac:(lia) Hb) as [Pb Ob].
  cbv zeta in Pa, Oa, Pb, Ob. rewrite Pa, Pb. cbn [bind]. rewrite !Z.eqb_refl. cbn [andb assert_ bind].
  destruct (body_correct E F a s _ _ b t _ _ Oa Ob HEF HEF2 H31) as (r & R1 & R2 & R3 & R4 & R5). cbv zeta in R1, R3, R4, R5.
  exists r. split; [exact R1|]. split; [exact R2|]. cbv zeta.
  rewrite add_spec_promoted in R3 by (assumption || lia).
  rewrite (decode_promoted E F wEX wFX) in R4 by (assumption || lia).
  rewrite (decode_promoted E F wEY wFY) in R5 by (assumption || lia).
  assert (S1 : 2 * (F + 3) < 2 ^ E -> (swallow E F a s (e + (bias E - bias wEX)) (f * 2 ^ (F - wFX)) b t (g + (bias E - bias wEY)) (h * 2 ^ (F - wFY)) <->
    absorbed F (decode wEX wFX (pack wEX wFX a s e f)) (decode wEY wFY (pack wEY wFY b t g h)))).
  { intros HS. rewrite swallow_absorbed by assumption. rewrite !decode_promoted by (assumption || lia). apply absorbed_scale; lia. }
  assert (S2 : 2 * (F + 3) < 2 ^ E -> (swallow E F b t (g + (bias E - bias wEY)) (h * 2 ^ (F - wFY)) a s (e + (bias E - bias wEX)) (f * 2 ^ (F - wFX)) <->
    absorbed F (decode wEY wFY (pack wEY wFY b t g h)) (decode wEX wFX (pack wEX wFX a s e f)))).
  { intros HS. rewrite swallow_absorbed by assumption. rewrite !decode_promoted by (assumption || lia). apply absorbed_scale; lia. }
  split; [|split].
  - intros [Hs|(Hn1 & Hn2)].
    + apply R3; intros (Hc & _); lia.
    + apply R3; intros Hc; pose proof Hc as (Hc1 & _); [apply Hn1, S1|apply Hn2, S2]; assumption.
  - intros HS Hab. rewrite R4 by (apply S1; assumption). apply veq_scale. lia.
  - intros HS Hab. rewrite R5 by (apply S2; assumption). apply veq_scale. lia.
Qed.
