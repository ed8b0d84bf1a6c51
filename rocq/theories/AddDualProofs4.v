From Coq Require Import ZArith Bool Lia.
From Verif Require Import Fw FwLemmas Spec SpecLemmas Flopoco FlopocoLemmas FlopocoProofs CompareProofs MulProofs AddSingle AddLemmas ValueLemmas AddSingleProofs AddSingleProofs2 AddSingleProofs3 AddDual AddDualProofs AddDualProofs2 AddDualProofs3.
Open Scope Z_scope.

Lemma round_to_exact E F s M k : 0 <= F -> 2 ^ F <= M < 2 * 2 ^ F ->
  round_to E F s M 1 k = finish (emin E) (emax E) F s (norm_me F M k).
Proof.
  intros HF HM. unfold round_to. pose proof (pow2_S F HF) as ES.
  rewrite (round_range_char _ _ F s M 1 k k M 1); try lia.
  - rewrite rne_div_1. reflexivity.
  - rewrite Z.sub_diag. unfold num2, den2. cbn. lia.
Qed.

Lemma finish_code E F neg M e : 1 <= F -> 1 <= E -> 2 ^ F <= M < 2 * 2 ^ F -> 0 <= e < 2 ^ E ->
  finish (emin E) (emax E) F neg (norm_me F M (e - bias E - F)) = Num neg M (e - bias E - F).
Proof.
  intros HF HE HM He. pose proof (pow2_S F ltac:(lia)) as ES. unfold norm_me. destruct (Z.eqb_spec M (2 ^ (F + 1))); [lia|].
  unfold finish, emin, emax, bias. pose proof (pow2_S (E - 1) ltac:(lia)) as EE. replace (E - 1 + 1) with E in EE by lia.
  destruct (Z.ltb_spec (e - (2 ^ (E - 1) - 1) - F + F) (- (2 ^ (E - 1) - 1))); [lia|].
  destruct (Z.ltb_spec (2 ^ (E - 1) - 1 + 1) (e - (2 ^ (E - 1) - 1) - F + F)); [lia|reflexivity].
Qed.

(** A much smaller second operand does not change the result. *)
Lemma round_to_far E F s (sub : bool) M N d k : 1 <= F -> 2 ^ F <= M < 2 * 2 ^ F -> 2 ^ F <= N < 2 * 2 ^ F -> F + 3 <= d ->
  round_to E F s (if sub then M * 2 ^ d - N else M * 2 ^ d + N) 1 k = finish (emin E) (emax E) F s (norm_me F M (k + d)).
Proof.
  intros HF HM HN Hd. pose proof (pow2_le (F + 3) d ltac:(lia)) as HD.
  assert (E3 : 2 ^ (F + 3) = 8 * 2 ^ F) by (apply (pow2_shift 3); [reflexivity|lia|lia]).
  assert (E1 : 2 ^ (F + 1) = 2 * 2 ^ F) by (apply pow2_S; lia). pose proof (pow2_pos F ltac:(lia)) as PF.
  destruct (sub && (M =? 2 ^ F)) eqn:C.
  - apply andb_prop in C as [-> C]. apply Z.eqb_eq in C. subst M.
    rewrite (round_to_norm E F s _ d k 2 (2 * 2 ^ F)); try lia.
    + unfold norm_me. rewrite E1, Z.eqb_refl. destruct (Z.eqb_spec (2 ^ F) (2 * 2 ^ F)); [lia|]. do 2 f_equal. lia.
    + remember (2 ^ d) as DD. nia.
    + change (2 ^ 2) with 4. rewrite E1. remember (2 ^ d) as DD. nia.
    + change (2 ^ 2) with 4. symmetry. apply rne_div_near; [lia|]. remember (2 ^ d) as DD. nia.
  - rewrite (round_to_norm E F s _ d k 1 M); try lia.
    + do 2 f_equal. lia.
    + remember (2 ^ d) as DD. destruct sub; nia.
    + change (2 ^ 1) with 2. rewrite E1. remember (2 ^ d) as DD. destruct sub; cbn [andb] in C; [apply Z.eqb_neq in C|]; nia.
    + change (2 ^ 1) with 2. symmetry. apply rne_div_near; [lia|]. remember (2 ^ d) as DD. destruct sub; nia.
Qed.

(** Numbers: the sum computed by the far path. *)
Lemma far_sum wF M N (sub : bool) k d :
  1 <= wF -> 2 ^ wF <= M < 2 * 2 ^ wF -> 2 ^ wF <= N < 2 * 2 ^ wF ->
  0 <= k -> 0 <= d -> (k = d \/ k = wF + 3 /\ wF + 3 < d) -> (sub = true -> 2 <= d) ->
  let P := N * 2 ^ (wF + 3) / 2 ^ k in let V := if sub then M * 2 ^ d - N else M * 2 ^ d + N in
  exists A (st : bool), fne (bits wF 0 P) 0 = Z.b2z st /\ dual_sum wF M (Z.b2z sub) P = A /\ 2 ^ (wF + 1) <= A < 2 ^ (wF + 4) /\ 0 < V /\
    (2 * A + Z.b2z st = sticky_form (4 * V) (2 ^ d) \/ A = 4 * M /\ st = false /\ wF + 3 <= d).
Proof.
  intros HF HM HN Hk Hd Hkd Hs P V. pose proof (pow2_pos wF ltac:(lia)) as PF.
  assert (E1 : 2 ^ (wF + 1) = 2 * 2 ^ wF) by (apply pow2_S; lia).
  assert (E4 : 2 ^ (wF + 4) = 16 * 2 ^ wF) by (apply (pow2_shift 4); [reflexivity|lia|lia]).
  assert (HV : 0 < V).
  { unfold V. destruct sub.
    - specialize (Hs eq_refl). pose proof (pow2_le 2 d ltac:(lia)) as H4. change (2 ^ 2) with 4 in H4. nia.
    - pose proof (pow2_pos d Hd). nia. }
  destruct (Z_le_gt_dec k (2 * wF + 3)) as [Hk2|Hk2].
  - destruct (shift_far wF N k HF ltac:(lia) ltac:(lia) ltac:(lia)) as (P1 & P2 & P3). fold P in P1, P2, P3.
    destruct (dual_sum_ok wF M sub P HF HM P1) as (S1 & S2 & S3). rewrite P2, P3 in *.
    remember (4 * N / 2 ^ k) as q eqn:Eq. remember (negb ((4 * N) mod 2 ^ k =? 0)) as st eqn:Est. clear P2.
    assert (Hq : sub = true -> q <= N).
    { intros Hsub. specialize (Hs Hsub). pose proof (pow2_le 2 k ltac:(lia)) as H4. change (2 ^ 2) with 4 in H4.
      subst q. apply Z.div_le_upper_bound; [lia|]. nia. }
    exists (if sub then 4 * M - q - Z.b2z st else 4 * M + q), st. split; [exact S1|]. split; [|split; [|split; [exact HV|]]].
    + rewrite S3. destruct sub; [|reflexivity]. apply Z.mod_small. specialize (Hq eq_refl). b01 st. lia.
    + b01 st. destruct sub; [specialize (Hq eq_refl)|]; lia.
    + left. destruct Hkd as [-> | [-> Hd3]].
      * unfold V. rewrite <- grs_sticky by lia. subst q st. reflexivity.
      * unfold V. rewrite <- grs_sticky by lia. destruct (clamp_q wF N (wF + 3) HF HN ltac:(lia)) as (C1 & C2).
        destruct (clamp_q wF N d HF HN ltac:(lia)) as (C3 & C4). rewrite C3, C4. subst q st. rewrite C1, C2. reflexivity.
  - assert (EP : P = 0).
    { unfold P. apply Z.div_small. pose proof (pow2_le (2 * wF + 4) k ltac:(lia)) as HK.
      assert (EW : 2 ^ (2 * wF + 4) = 2 * 2 ^ wF * 2 ^ (wF + 3)) by (rewrite <- Z.pow_succ_r, <- pow2_add by lia; f_equal; lia).
      pose proof (pow2_pos (wF + 3) ltac:(lia)). nia. }
    rewrite EP. destruct (dual_sum_ok wF M sub 0 HF HM) as (S1 & S2 & S3). { pose proof (pow2_pos (2 * wF + 4) ltac:(lia)). lia. }
    rewrite Z.mod_0_l, Z.div_0_l in * by (pose proof (pow2_pos (wF + 1) ltac:(lia)); lia). cbn [Z.eqb negb Z.b2z] in *.
    exists (4 * M), false. split; [exact S1|]. split; [|split; [lia|split; [exact HV|right; lia]]].
    rewrite S3. destruct sub; [|lia]. rewrite !Z.sub_0_r. apply Z.mod_small. lia.
Qed.

Lemma dual_far_num wE wF s e f t g h k c1 c2 cz :
  okf wE wF 1 e f -> okf wE wF 1 g h -> g <= e -> 0 <= k < 2 * wF + 4 + dual_pad wF -> k < 2 ^ 31 ->
  (k = e - g \/ k = wF + 3 /\ wF + 3 < e - g) -> (xorb s t = true -> 2 <= e - g) ->
  let M := 2 ^ wF + f in let N := 2 ^ wF + h in let d := e - g in
  let V := if xorb s t then M * 2 ^ d - N else M * 2 ^ d + N in
  exists far, dual_far wE wF (pack wE wF 1 s e f) (pack wE wF 1 t g h) (Z.b2z (xorb s t)) k = Some far /\
  0 < V /\
  let r := dual_final wE wF (pack wE wF 1 s e f) (pack wE wF 1 t g h) (fxor 1 (Z.b2z s) (Z.b2z t)) (Z.b2z false)
    (c1, c2, Z.b2z cz, Z.b2z s) far in
  wf (wE + wF + 3) r /\ decode wE wF r = round_to wE wF s V 1 (e - d - bias wE - wF).
Proof.
  intros HX HY Hge Hk Hk31 Hkd Hs M N d V. pose proof HX as (HE & HF & _ & He & Hf). pose proof HY as (_ & _ & _ & Hg & Hh).
  pose proof (dual_far_eq wE wF 1 s e f 1 t g h (xorb s t) k HX HY Hk Hk31) as HD. cbv zeta in HD. rewrite HD. clear HD.
  destruct (far_sum wF M N (xorb s t) k d HF) as (A & st & F1 & F2 & F3 & F4 & F5); try (unfold M, N, d; lia).
  { exact Hs. }
  fold M N in F1 |- *. cbv zeta in F2. fold M N. rewrite F1, F2. fold V in F4, F5.
  destruct (dual_norm_ok wE wF e A st HE HF He F3) as (c & rd & R0 & D1 & D2 & D3 & D4).
  rewrite D3. eexists. split; [reflexivity|]. split; [exact F4|].
  assert (E4 : 2 ^ (wF + 4) = 2 ^ wF * 16) by (rewrite pow2_add by lia; reflexivity).
  assert (E5 : 2 ^ (wF + 5) = 2 ^ (wF + 1) * 16) by (replace (wF + 5) with (wF + 1 + 4) by lia; rewrite pow2_add by lia; reflexivity).
  pose proof (pow2_pos wE ltac:(lia)) as PE. pose proof (pow2_le 1 wE ltac:(lia)) as PE2. change (2 ^ 1) with 2 in PE2.
  pose proof (dual_final_num wE wF s e f t g h false cz s rd c1 R0 c2 (Z.b2z rd) (e + 1 - c) (rne_div ((2 * A + Z.b2z st) * 2 ^ c) 16) HX HY eq_refl eq_refl) as HR.
  cbv zeta in HR. destruct HR as (R1 & R2).
  { split; [apply rne_div_lower; lia|apply rne_div_upper; lia]. }
  { exact D4. } { lia. }
  split; [exact R1|]. rewrite R2. destruct F5 as [F5|(-> & -> & Hd3)].
  - assert (PD : 0 < 2 ^ d) by (apply pow2_pos; unfold d; lia).
    destruct (norm_round wF V (2 ^ d) (2 * A + Z.b2z st) c HF PD F5 ltac:(lia) D2 ltac:(lia)) as (N1 & N2).
    rewrite N1. symmetry. replace (e + 1 - c - bias wE - wF) with (e - d - bias wE - wF + d + 1 - c) by ring.
    apply round_to_norm; unfold d in *; try lia.
  - unfold V. rewrite round_to_far by (unfold M, N; lia). replace (e - d - bias wE - wF + d) with (e - bias wE - wF) by ring.
    cbn [Z.b2z] in *. assert (Hc : c = 1).
    { pose proof (pow2_S wF ltac:(lia)) as ES. assert (Hc : c = 0 \/ c = 1 \/ c = 2) by lia. unfold M in D2.
      destruct Hc as [->|[->| ->]]; [change (2 ^ 0) with 1 in D2; lia|reflexivity|change (2 ^ 2) with 4 in D2; lia]. }
    subst c. change (2 ^ 1) with 2. replace ((2 * (4 * M) + 0) * 2) with (M * 16) by ring. rewrite rne_div_exact by lia.
    do 3 f_equal. ring.
Qed.
