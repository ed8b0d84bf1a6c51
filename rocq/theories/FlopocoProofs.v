(** Proofs about equality, neighbours, limits, promotion, conversion and comparison. *)
From Coq Require Import ZArith Bool Lia.
From Verif Require Import Fw FwLemmas Spec SpecLemmas Flopoco FlopocoLemmas.
Open Scope Z_scope.

Ltac kill := try discriminate; try reflexivity; try (intuition congruence); try lia.

(** ** equals *)
Theorem equals_correct E F x y :
  1 <= E -> 1 <= F -> wf (E + F + 3) x -> wf (E + F + 3) y ->
  equals E F x y = 1 /\ decode E F x = decode E F y \/
  equals E F x y = 0 /\ decode E F x <> decode E F y.
Proof.
  intros HE HF Hx Hy.
  destruct (pack_view E F x HE HF Hx) as (a & s & e & f & Ha & ->).
  destruct (pack_view E F y HE HF Hy) as (b & t & g & h & Hb & ->).
  rewrite !decode_pack by assumption. unfold equals. fields. unfold zg.
  split_flags Ha; split_flags Hb; cbn [Z.eqb Pos.eqb negb];
    try (right; split; [reflexivity|discriminate]);
    try (left; split; reflexivity);
    destruct s, t; cbn [Bool.eqb negb];
    try (right; split; [reflexivity|discriminate]);
    try (left; split; reflexivity);
    destruct (Z.eqb_spec e g) as [He|He], (Z.eqb_spec f h) as [Hf|Hf]; cbn [andb Z.b2z];
    try (left; split; [reflexivity|subst; reflexivity]);
    right; (split; [reflexivity|]); intros Hc; injection Hc; intros; lia.
Qed.

(** ** Ranks: position on the line of representable values *)
Definition arank (E F fl e f : Z) : Z :=
  if fl =? 0 then 0 else if fl =? 1 then 1 + (e * 2 ^ F + f) else 1 + 2 ^ (E + F).
(** zeros identified *)
Definition rank (E F fl : Z) (s : bool) (e f : Z) : Z := sgn s (arank E F fl e f).
(** zeros distinguished *)
Definition rank2 (E F fl : Z) (s : bool) (e f : Z) : Z :=
  if s then -1 - arank E F fl e f else arank E F fl e f.

Lemma okf_body E F fl e f : okf E F fl e f -> 0 <= e * 2 ^ F + f < 2 ^ (E + F).
Proof. intros (HE & HF & _ & He & Hf). apply body_bound; lia. Qed.

Lemma vcmp_rank E F a s e f b t g h :
  okf E F a e f -> okf E F b g h -> a <> 3 -> b <> 3 ->
  vcmp (decode E F (pack E F a s e f)) (decode E F (pack E F b t g h)) =
  Some (Z.compare (rank E F a s e f) (rank E F b t g h)).
Proof.
  intros Ha Hb Ha3 Hb3. rewrite !decode_pack by assumption.
  pose proof (okf_body _ _ _ _ _ Ha) as Ba. pose proof (okf_body _ _ _ _ _ Hb) as Bb.
  assert (HF : 0 <= F /\ 0 <= f < 2 ^ F /\ 0 <= h < 2 ^ F).
  { destruct Ha as (? & ? & ? & ? & ?), Hb as (? & ? & ? & ? & ?). lia. }
  unfold rank, arank.
  split_flags Ha; split_flags Hb; try congruence; cbn [Z.eqb Pos.eqb vcmp];
    try (rewrite cmp_signed by lia); f_equal;
    destruct s, t; cbn [sgn]; symmetry;
    try (apply Z.compare_eq_iff; lia); try (apply Z.compare_lt_iff; lia); try (apply Z.compare_gt_iff; lia).
  - rewrite Z.compare_opp. rewrite Z.add_compare_mono_l. reflexivity.
  - rewrite Z.add_compare_mono_l. reflexivity.
Qed.

Lemma below_rank2 E F a s e f b t g h :
  okf E F a e f -> okf E F b g h -> a <> 3 -> b <> 3 ->
  (below (decode E F (pack E F a s e f)) (decode E F (pack E F b t g h)) <->
   rank2 E F a s e f < rank2 E F b t g h).
Proof.
  intros Ha Hb Ha3 Hb3. unfold below. rewrite vcmp_rank by assumption.
  rewrite !decode_pack by assumption.
  pose proof (okf_body _ _ _ _ _ Ha) as Ba. pose proof (okf_body _ _ _ _ _ Hb) as Bb.
  assert (Hc : forall x y, Some (x ?= y) = Some Lt <-> x < y).
  { intros. rewrite <- Z.compare_lt_iff. split; congruence. }
  rewrite Hc. unfold rank, rank2, arank.
  split_flags Ha; split_flags Hb; try congruence; cbn [Z.eqb Pos.eqb];
  destruct s, t; cbn [sgn]; (split; [intros [H|[H1 H2]]; try discriminate; lia|intros; try lia; auto; left; lia]).
Qed.

Lemma rank2_surj E F r : 1 <= E -> 1 <= F -> - 2 - 2 ^ (E + F) <= r <= 1 + 2 ^ (E + F) ->
  exists a s e f, okf E F a e f /\ a <> 3 /\ rank2 E F a s e f = r.
Proof.
  intros HE HF Hr. pose proof (pow2_pos F ltac:(lia)). pose proof (pow2_pos E ltac:(lia)).
  assert (Hpos : forall k, 0 <= k <= 1 + 2 ^ (E + F) -> exists a e f, okf E F a e f /\ a <> 3 /\ arank E F a e f = k).
  { intros k Hk. unfold arank. destruct (Z.eq_dec k 0) as [->|Hk0].
    - exists 0, 0, 0. unfold okf. repeat split; lia.
    - destruct (Z.eq_dec k (1 + 2 ^ (E + F))) as [->|Hk1].
      + exists 2, 0, 0. unfold okf. repeat split; try lia.
      + exists 1, ((k - 1) / 2 ^ F), ((k - 1) mod 2 ^ F). unfold okf.
        pose proof (div_pow_lt (k - 1) F E ltac:(lia) ltac:(lia)) as Hd.
        replace (F + E) with (E + F) in Hd by lia. specialize (Hd ltac:(lia)).
        pose proof (mod_pow_bound (k - 1) F ltac:(lia)).
        repeat split; try lia. cbn [Z.eqb Pos.eqb].
        pose proof (div_mod_eq (k - 1) (2 ^ F) ltac:(lia)). lia. }
  destruct (Z_lt_ge_dec r 0).
  - destruct (Hpos (-1 - r) ltac:(lia)) as (a & e & f & H1 & H2 & H3).
    exists a, true, e, f. unfold rank2. rewrite H3. split; [assumption|]. split; [assumption|lia].
  - destruct (Hpos r ltac:(lia)) as (a & e & f & H1 & H2 & H3).
    exists a, false, e, f. unfold rank2. rewrite H3. auto.
Qed.

Lemma lim_wf_pack E F fl s e f : 0 <= fl < 4 -> 1 <= E -> 1 <= F -> 0 <= e < 2 ^ E -> 0 <= f < 2 ^ F ->
  okf E F fl e f /\ lim E F (fl * 2 + Z.b2z s) e f = pack E F fl s e f.
Proof. intros. split; [unfold okf; repeat split; lia|apply lim_pack; lia]. Qed.

Lemma below_nan_r x : ~ below x NaN.
Proof. intros [H|[_ H]]; [destruct x; discriminate|discriminate]. Qed.

(** ** nextup *)
Lemma og_bound W : 0 <= W -> 0 <= og W < 2 ^ W.
Proof. intros. rewrite og_eq by lia. pose proof (pow2_pos W ltac:(lia)). lia. Qed.

Definition is_pack E F r a s e f := okf E F a e f /\ r = pack E F a s e f.

Lemma lim_is_pack E F k fl s e f : k = fl * 2 + Z.b2z s ->
  0 <= fl < 4 -> 1 <= E -> 1 <= F -> 0 <= e < 2 ^ E -> 0 <= f < 2 ^ F ->
  is_pack E F (lim E F k e f) fl s e f.
Proof. intros -> ? ? ? ? ?. apply lim_wf_pack; assumption. Qed.

Lemma nextup_rank E F a s e f :
  okf E F a e f -> a <> 3 -> ~ (a = 2 /\ s = false) ->
  exists b t g h, is_pack E F (nextup E F (pack E F a s e f)) b t g h /\ b <> 3 /\
    rank2 E F b t g h = rank2 E F a s e f + 1.
Proof.
  intros Ha Ha3 Hni. pose proof (okf_body _ _ _ _ _ Ha) as Ba. unfold nextup. fields.
  pose proof Ha as (HE & HF & _ & He & Hf). rewrite (pow2_add E F) in Ba by lia.
  pose proof (pow2_pos F ltac:(lia)) as PF. pose proof (pow2_pos E ltac:(lia)) as PE.
  unfold lim_infinity, lim_min, lim_pos_zero, lim_neg_zero, lim_lowest, lim_quiet_NaN, zg.
  rewrite !og_eq by lia.
  split_flags Ha; try congruence; destruct s; cbn [Z.eqb Pos.eqb andb negb]; try (exfalso; apply Hni; split; reflexivity).
  - exists 0, false, 0, 0. split; [apply lim_is_pack; [reflexivity|lia..]|]. split; [lia|]. reflexivity.
  - exists 1, false, 0, 0. split; [apply lim_is_pack; [reflexivity|lia..]|]. split; [lia|].
    unfold rank2, arank. cbn [Z.eqb Pos.eqb]. lia.
  - destruct (Z.eqb_spec f 0) as [H|H].
    + destruct (Z.eqb_spec e 0) as [H1|H1].
      * exists 0, true, 0, 0. split; [apply lim_is_pack; [reflexivity|lia..]|]. split; [lia|].
        unfold rank2, arank. cbn [Z.eqb Pos.eqb]. nia.
      * rewrite fsub_eq, Z.mod_small by lia.
        exists 1, true, (e - 1), (2 ^ F - 1). split; [apply lim_is_pack; [reflexivity|lia..]|]. split; [lia|].
        unfold rank2, arank. cbn [Z.eqb Pos.eqb]. nia.
    + rewrite fsub_eq, Z.mod_small by lia.
      exists 1, true, e, (f - 1). split; [apply lim_is_pack; [reflexivity|lia..]|]. split; [lia|].
      unfold rank2, arank. cbn [Z.eqb Pos.eqb]. nia.
  - destruct (Z.eqb_spec f (2 ^ F - 1)) as [H|H].
    + destruct (Z.eqb_spec e (2 ^ E - 1)) as [H1|H1].
      * exists 2, false, 0, 0. split; [apply lim_is_pack; [reflexivity|lia..]|]. split; [lia|].
        unfold rank2, arank. cbn [Z.eqb Pos.eqb]. rewrite pow2_add by lia. subst. nia.
      * rewrite fadd_eq, Z.mod_small by lia.
        exists 1, false, (e + 1), 0. split; [apply lim_is_pack; [reflexivity|lia..]|]. split; [lia|].
        unfold rank2, arank. cbn [Z.eqb Pos.eqb]. nia.
    + rewrite fadd_eq, Z.mod_small by lia.
      exists 1, false, e, (f + 1). split; [apply lim_is_pack; [reflexivity|lia..]|]. split; [lia|].
      unfold rank2, arank. cbn [Z.eqb Pos.eqb]. nia.
  - exists 1, true, (2 ^ E - 1), (2 ^ F - 1). split; [apply lim_is_pack; [reflexivity|lia..]|]. split; [lia|].
    unfold rank2, arank. cbn [Z.eqb Pos.eqb]. rewrite pow2_add by lia. nia.
Qed.

Lemma decode_nan E F a s e f : okf E F a e f -> (decode E F (pack E F a s e f) = NaN <-> a = 3).
Proof.
  intros H. rewrite decode_pack by assumption. split_flags H; cbn [Z.eqb Pos.eqb]; split; intros; congruence.
Qed.
Lemma decode_inf E F a s e f t : okf E F a e f ->
  (decode E F (pack E F a s e f) = Inf t <-> a = 2 /\ s = t).
Proof.
  intros H. rewrite decode_pack by assumption. split_flags H; cbn [Z.eqb Pos.eqb]; intuition congruence.
Qed.

(** successor of x among the values of the format *)
Theorem nextup_correct E F x :
  1 <= E -> 1 <= F -> wf (E + F + 3) x ->
  wf (E + F + 3) (nextup E F x) /\
  (decode E F x = NaN -> decode E F (nextup E F x) = NaN) /\
  (decode E F x = Inf false -> decode E F (nextup E F x) = Inf false) /\
  (decode E F x <> NaN -> decode E F x <> Inf false ->
     below (decode E F x) (decode E F (nextup E F x)) /\
     forall z, wf (E + F + 3) z ->
       ~ (below (decode E F x) (decode E F z) /\ below (decode E F z) (decode E F (nextup E F x)))).
Proof.
  intros HE HF Hx. destruct (pack_view E F x HE HF Hx) as (a & s & e & f & Ha & ->).
  pose proof (pow2_pos F ltac:(lia)) as PF. pose proof (pow2_pos E ltac:(lia)) as PE.
  destruct (Z.eq_dec a 3) as [->|Ha3].
  { assert (En : nextup E F (pack E F 3 s e f) = lim_quiet_NaN E F).
    { unfold nextup. fields. cbn [Z.eqb Pos.eqb]. destruct s; reflexivity. }
    destruct (lim_is_pack E F 6 3 false 0 0) as [H1 H2]; try lia; [reflexivity|].
    rewrite En. unfold lim_quiet_NaN, zg. rewrite H2. split; [apply pack_wf; assumption|].
    rewrite !decode_pack by assumption. cbn [Z.eqb Pos.eqb]. intuition discriminate. }
  destruct (Z.eq_dec a 2) as [->|Ha2].
  2: destruct (nextup_rank E F a s e f Ha Ha3) as (b & t & g & h & [Hb ->] & Hb3 & Hr); [lia|].
  1: destruct s.
  2:{ assert (En : nextup E F (pack E F 2 false e f) = pack E F 2 false e f).
      { unfold nextup. fields. cbn [Z.eqb Pos.eqb]. reflexivity. }
      rewrite En. split; [assumption|]. rewrite !decode_pack by assumption. cbn [Z.eqb Pos.eqb]. intuition discriminate. }
  1: destruct (nextup_rank E F 2 true e f Ha Ha3) as (b & t & g & h & [Hb ->] & Hb3 & Hr); [intuition discriminate|].
  all: split; [apply pack_wf; assumption|]; split; [rewrite decode_nan by assumption; lia|];
    split; [rewrite (decode_inf _ _ _ _ _ _ _ Ha); intros [? ?]; (discriminate || lia)|]; intros _ _;
    (split; [apply below_rank2; try assumption; lia|]);
    intros z Hz [Hz1 Hz2]; destruct (pack_view E F z HE HF Hz) as (c & u & i & j & Hc & ->);
    destruct (Z.eq_dec c 3) as [->|Hc3].
  all: try (rewrite (decode_pack E F 3) in Hz1 by assumption; exact (below_nan_r _ Hz1)).
  all: apply below_rank2 in Hz1; try assumption; apply below_rank2 in Hz2; try assumption; lia.
Qed.

(** ** nextdown *)

(** The two families of operands for which the code is wrong (see the Props file):
    a positive power of two above the smallest, and a negative number with an all-ones
    fraction below the largest exponent. *)
Definition nextdown_bad (E F : Z) (v : fval) : Prop :=
  (exists e, v = Num false (2 ^ F) e /\ e <> emin E - F) \/
  (exists e, v = Num true (2 ^ (F + 1) - 1) e /\ e <> emax E - F).

Lemma emin_code E e F : (e - bias E - F <> emin E - F) <-> e <> 0.
Proof. unfold emin. lia. Qed.
Lemma emax_code E e F : 1 <= E -> (e - bias E - F <> emax E - F) <-> e <> 2 ^ E - 1.
Proof.
  intros. unfold emax, bias. replace (2 ^ E) with (2 * 2 ^ (E - 1)); [lia|].
  rewrite <- pow2_S by lia. f_equal; lia.
Qed.

Lemma nextdown_rank E F a s e f :
  okf E F a e f -> a <> 3 -> ~ (a = 2 /\ s = true) ->
  ~ (a = 1 /\ s = false /\ f = 0 /\ e <> 0) ->
  ~ (a = 1 /\ s = true /\ f = 2 ^ F - 1 /\ e <> 2 ^ E - 1) ->
  exists b t g h, is_pack E F (nextdown E F (pack E F a s e f)) b t g h /\ b <> 3 /\
    rank2 E F b t g h = rank2 E F a s e f - 1.
Proof.
  intros Ha Ha3 Hni Hb1 Hb2. pose proof (okf_body _ _ _ _ _ Ha) as Ba. unfold nextdown. fields.
  pose proof Ha as (HE & HF & _ & He & Hf). rewrite (pow2_add E F) in Ba by lia.
  pose proof (pow2_pos F ltac:(lia)) as PF. pose proof (pow2_pos E ltac:(lia)) as PE.
  unfold lim_neg_infinity, lim_neg_min, lim_max, lim_pos_zero, lim_neg_zero, lim_lowest, lim_quiet_NaN, zg.
  rewrite !og_eq by lia.
  split_flags Ha; try congruence; destruct s; cbn [Z.eqb Pos.eqb andb negb]; try (exfalso; apply Hni; split; reflexivity).
  - exists 1, true, 0, 0. split; [apply lim_is_pack; [reflexivity|lia..]|]. split; [lia|].
    unfold rank2, arank. cbn [Z.eqb Pos.eqb]. lia.
  - exists 0, true, 0, 0. split; [apply lim_is_pack; [reflexivity|lia..]|]. split; [lia|]. reflexivity.
  - destruct (Z.eqb_spec f (2 ^ F - 1)) as [H|H].
    + destruct (Z.eqb_spec e (2 ^ E - 1)) as [H1|H1].
      * exists 2, true, 0, 0. split; [apply lim_is_pack; [reflexivity|lia..]|]. split; [lia|].
        unfold rank2, arank. cbn [Z.eqb Pos.eqb]. rewrite pow2_add by lia. subst. nia.
      * exfalso. apply Hb2. auto.
    + rewrite fadd_eq, Z.mod_small by lia.
      exists 1, true, e, (f + 1). split; [apply lim_is_pack; [reflexivity|lia..]|]. split; [lia|].
      unfold rank2, arank. cbn [Z.eqb Pos.eqb]. nia.
  - destruct (Z.eqb_spec f 0) as [H|H].
    + destruct (Z.eqb_spec e 0) as [H1|H1].
      * exists 0, false, 0, 0. split; [apply lim_is_pack; [reflexivity|lia..]|]. split; [lia|].
        unfold rank2, arank. cbn [Z.eqb Pos.eqb]. nia.
      * exfalso. apply Hb1. auto.
    + rewrite fsub_eq, Z.mod_small by lia.
      exists 1, false, e, (f - 1). split; [apply lim_is_pack; [reflexivity|lia..]|]. split; [lia|].
      unfold rank2, arank. cbn [Z.eqb Pos.eqb]. nia.
  - exists 1, false, (2 ^ E - 1), (2 ^ F - 1). split; [apply lim_is_pack; [reflexivity|lia..]|]. split; [lia|].
    unfold rank2, arank. cbn [Z.eqb Pos.eqb]. rewrite pow2_add by lia. nia.
Qed.

Lemma nextdown_bad_pack E F s e f : okf E F 1 e f ->
  ~ nextdown_bad E F (decode E F (pack E F 1 s e f)) ->
  ~ (s = false /\ f = 0 /\ e <> 0) /\ ~ (s = true /\ f = 2 ^ F - 1 /\ e <> 2 ^ E - 1).
Proof.
  intros Ha Hn. rewrite decode_pack in Hn by assumption. cbn [Z.eqb Pos.eqb] in Hn.
  pose proof Ha as (HE & HF & _ & He & Hf).
  split; intros (-> & -> & Hc); apply Hn; [left|right]; eexists; split.
  - rewrite Z.add_0_r. reflexivity.
  - apply emin_code. assumption.
  - rewrite pow2_S by lia. replace (2 ^ F + (2 ^ F - 1)) with (2 * 2 ^ F - 1) by lia. reflexivity.
  - apply emax_code; lia.
Qed.

Theorem nextdown_good E F x :
  1 <= E -> 1 <= F -> wf (E + F + 3) x -> ~ nextdown_bad E F (decode E F x) ->
  wf (E + F + 3) (nextdown E F x) /\
  (decode E F x = NaN -> decode E F (nextdown E F x) = NaN) /\
  (decode E F x = Inf true -> decode E F (nextdown E F x) = Inf true) /\
  (decode E F x <> NaN -> decode E F x <> Inf true ->
     below (decode E F (nextdown E F x)) (decode E F x) /\
     forall z, wf (E + F + 3) z ->
       ~ (below (decode E F (nextdown E F x)) (decode E F z) /\ below (decode E F z) (decode E F x))).
Proof.
  intros HE HF Hx Hbad. destruct (pack_view E F x HE HF Hx) as (a & s & e & f & Ha & ->).
  pose proof (pow2_pos F ltac:(lia)) as PF. pose proof (pow2_pos E ltac:(lia)) as PE.
  destruct (Z.eq_dec a 3) as [->|Ha3].
  { assert (En : nextdown E F (pack E F 3 s e f) = lim_quiet_NaN E F).
    { unfold nextdown. fields. cbn [Z.eqb Pos.eqb]. destruct s; reflexivity. }
    destruct (lim_is_pack E F 6 3 false 0 0) as [H1 H2]; try lia; [reflexivity|].
    rewrite En. unfold lim_quiet_NaN, zg. rewrite H2. split; [apply pack_wf; assumption|].
    rewrite !decode_pack by assumption. cbn [Z.eqb Pos.eqb]. intuition discriminate. }
  assert (Hok : ~ (a = 1 /\ s = false /\ f = 0 /\ e <> 0) /\ ~ (a = 1 /\ s = true /\ f = 2 ^ F - 1 /\ e <> 2 ^ E - 1)).
  { destruct (Z.eq_dec a 1) as [->|]; [|lia].
    destruct (nextdown_bad_pack E F s e f Ha Hbad) as [H1 H2].
    split; intros [_ H]; [apply H1|apply H2]; assumption. }
  destruct Hok as [Hok1 Hok2].
  destruct (Z.eq_dec a 2) as [->|Ha2].
  2: destruct (nextdown_rank E F a s e f Ha Ha3) as (b & t & g & h & [Hb ->] & Hb3 & Hr); [lia|assumption|assumption|].
  1: destruct s.
  1:{ assert (En : nextdown E F (pack E F 2 true e f) = pack E F 2 true e f).
      { unfold nextdown. fields. cbn [Z.eqb Pos.eqb]. reflexivity. }
      rewrite En. split; [assumption|]. rewrite !decode_pack by assumption. cbn [Z.eqb Pos.eqb]. intuition discriminate. }
  1: destruct (nextdown_rank E F 2 false e f Ha Ha3) as (b & t & g & h & [Hb ->] & Hb3 & Hr);
      [intuition discriminate|assumption|assumption|].
  all: split; [apply pack_wf; assumption|]; split; [rewrite decode_nan by assumption; lia|];
    split; [rewrite (decode_inf _ _ _ _ _ _ _ Ha); intros [? ?]; (discriminate || lia)|]; intros _ _;
    (split; [apply below_rank2; try assumption; lia|]);
    intros z Hz [Hz1 Hz2]; destruct (pack_view E F z HE HF Hz) as (c & u & i & j & Hc & ->);
    destruct (Z.eq_dec c 3) as [->|Hc3].
  all: try (rewrite (decode_pack E F 3) in Hz1 by assumption; exact (below_nan_r _ Hz1)).
  all: apply below_rank2 in Hz1; try assumption; apply below_rank2 in Hz2; try assumption; lia.
Qed.

(** nextdown undoes nextup on the operands it handles. *)
Lemma rank2_inj E F a s e f b t g h :
  okf E F a e f -> okf E F b g h -> a <> 3 -> b <> 3 ->
  rank2 E F a s e f = rank2 E F b t g h -> decode E F (pack E F a s e f) = decode E F (pack E F b t g h).
Proof.
  intros Ha Hb Ha3 Hb3 H. rewrite !decode_pack by assumption.
  pose proof (okf_body _ _ _ _ _ Ha) as Ba. pose proof (okf_body _ _ _ _ _ Hb) as Bb.
  assert (Hj : e * 2 ^ F + f = g * 2 ^ F + h -> e = g /\ f = h).
  { intros Heq. destruct Ha as (HE & HF & _ & _ & Hf), Hb as (_ & _ & _ & _ & Hh).
    pose proof (join_div e f F Hf ltac:(lia)) as D1. pose proof (join_mod e f F Hf ltac:(lia)) as M1.
    rewrite Heq in D1, M1. rewrite join_div in D1 by lia. rewrite join_mod in M1 by lia. split; congruence. }
  unfold rank2, arank in H.
  split_flags Ha; split_flags Hb; try congruence; cbn [Z.eqb Pos.eqb] in *; destruct s, t; try lia; try reflexivity;
  (destruct Hj as [-> ->]; [lia|reflexivity]).
Qed.

(** ** within_1ulp *)
Lemma b2z_iff (B : bool) P : (B = true <-> P) -> (Z.b2z B = 0 \/ Z.b2z B = 1) /\ (Z.b2z B = 1 <-> P).
Proof. intros H. destruct B; cbn; intuition congruence. Qed.

Lemma within_rank E F a s e f b t g h :
  okf E F a e f -> okf E F b g h -> a <> 3 -> b <> 3 ->
  within_1ulp E F (pack E F a s e f) (pack E F b t g h) =
  Z.b2z (Z.abs (rank E F a s e f - rank E F b t g h) <=? 1).
Proof.
  intros Ha Hb Ha3 Hb3. unfold within_1ulp. fields.
  pose proof (okf_body _ _ _ _ _ Ha) as Ra. pose proof (okf_body _ _ _ _ _ Hb) as Rb.
  pose proof Ha as (HE & HF & _ & He & Hf). pose proof Hb as (_ & _ & _ & Hg & Hh).
  pose proof (pow2_pos F ltac:(lia)) as PF. pose proof (pow2_pos E ltac:(lia)) as PE.
  assert (Hz : forall e f, 0 <= e -> 0 <= f -> (e =? 0) && (f =? 0) = (e * 2 ^ F + f =? 0)).
  { intros e0 f0 H1 H2. apply eq_true_iff_eq. rewrite andb_true_iff, !Z.eqb_eq. clear - PF H1 H2. nia. }
  assert (Ho : forall e f, 0 <= e < 2 ^ E -> 0 <= f < 2 ^ F ->
             (e =? og E) && (f =? og F) = (e * 2 ^ F + f =? 2 ^ (E + F) - 1)).
  { intros e0 f0 H1 H2. apply eq_true_iff_eq. rewrite andb_true_iff, !Z.eqb_eq, !og_eq, pow2_add by lia.
    clear - PF PE H1 H2. nia. }
  rewrite !cat_eq by lia. rewrite <- !andb_assoc. rewrite !Hz, !Ho by lia. clear Hz Ho.
  unfold rank, arank. remember (e * 2 ^ F + f) as x. remember (g * 2 ^ F + h) as y.
  destruct (Z.eqb_spec b 3) as [|_]; [contradiction|]. destruct (Z.eqb_spec a 3) as [|_]; [contradiction|].
  assert (PEF : 2 <= 2 ^ (E + F)) by (change 2 with (2 ^ 1) at 1; apply pow2_le; lia).
  assert (Hmod : x <> 2 ^ (E + F) - 1 -> fadd (E + F) x 1 = x + 1) by (intros; rewrite fadd_eq, Z.mod_small by lia; lia).
  assert (Hmod' : y <> 2 ^ (E + F) - 1 -> fadd (E + F) y 1 = y + 1) by (intros; rewrite fadd_eq, Z.mod_small by lia; lia).
  assert (Hbb : forall A B : bool, (A = true <-> B = true) -> Z.b2z A = Z.b2z B).
  { intros [] [] H; try reflexivity; exfalso; intuition congruence. }
  split_flags Ha; split_flags Hb; try contradiction; cbn [Z.eqb Pos.eqb andb negb orb];
    destruct s, t; cbn [sgn Bool.eqb negb]; try reflexivity;
    try (apply Hbb; rewrite ?Z.eqb_eq, ?Z.leb_le; lia);
    try (change 0 with (Z.b2z false) at 1; apply Hbb; rewrite ?Z.leb_le; split; [discriminate|lia]).
  all: destruct (Z.ltb_spec y x); rewrite for_b2z; apply Hbb; rewrite orb_true_iff, !Z.eqb_eq, Z.leb_le.
  all: destruct (Z.eq_dec x (2 ^ (E + F) - 1)), (Z.eq_dec y (2 ^ (E + F) - 1)); rewrite ?Hmod, ?Hmod' by assumption; lia.
Qed.

Lemma between_rank E F a s e f b t g h :
  okf E F a e f -> okf E F b g h -> a <> 3 -> b <> 3 ->
  ((forall z, wf (E + F + 3) z ->
      ~ (vcmp (decode E F (pack E F a s e f)) (decode E F z) = Some Lt /\ vcmp (decode E F z) (decode E F (pack E F b t g h)) = Some Lt) /\
      ~ (vcmp (decode E F (pack E F b t g h)) (decode E F z) = Some Lt /\ vcmp (decode E F z) (decode E F (pack E F a s e f)) = Some Lt)) <->
   Z.abs (rank E F a s e f - rank E F b t g h) <= 1).
Proof.
  intros Ha Hb Ha3 Hb3. pose proof Ha as (HE & HF & _).
  pose proof (pow2_pos (E + F) ltac:(lia)) as PEF.
  assert (Hc : forall x y, Some (x ?= y) = Some Lt <-> x < y).
  { intros. rewrite <- Z.compare_lt_iff. split; congruence. }
  assert (Hrk : forall c u i j, okf E F c i j -> c <> 3 -> - (1 + 2 ^ (E + F)) <= rank E F c u i j <= 1 + 2 ^ (E + F)).
  { intros c u i j Hok Hc3. pose proof (okf_body _ _ _ _ _ Hok). unfold rank, arank.
    destruct u; cbn [sgn]; destruct (c =? 0), (c =? 1); lia. }
  assert (Hsurj : forall r, - (1 + 2 ^ (E + F)) <= r <= 1 + 2 ^ (E + F) ->
            exists c u i j, okf E F c i j /\ c <> 3 /\ rank E F c u i j = r).
  { intros r Hr. destruct (Z_lt_ge_dec r 0).
    - destruct (rank2_surj E F (r - 1) HE HF ltac:(lia)) as (c & u & i & j & H1 & H2 & H3).
      exists c, u, i, j. split; [assumption|]. split; [assumption|].
      pose proof (okf_body _ _ _ _ _ H1). revert H3. unfold rank, rank2.
      assert (0 <= arank E F c i j) by (unfold arank; destruct (c =? 0), (c =? 1); lia).
      destruct u; cbn [sgn]; lia.
    - destruct (rank2_surj E F r HE HF ltac:(lia)) as (c & u & i & j & H1 & H2 & H3).
      exists c, u, i, j. split; [assumption|]. split; [assumption|].
      pose proof (okf_body _ _ _ _ _ H1). revert H3. unfold rank, rank2.
      assert (0 <= arank E F c i j) by (unfold arank; destruct (c =? 0), (c =? 1); lia).
      destruct u; cbn [sgn]; lia. }
  split.
  - intros H. destruct (Z_le_gt_dec (Z.abs (rank E F a s e f - rank E F b t g h)) 1) as [|Hgt]; [assumption|exfalso].
    pose proof (Hrk _ s _ _ Ha Ha3). pose proof (Hrk _ t _ _ Hb Hb3).
    destruct (Z_lt_ge_dec (rank E F a s e f) (rank E F b t g h)).
    + destruct (Hsurj (rank E F a s e f + 1) ltac:(lia)) as (c & u & i & j & K1 & K2 & K3).
      destruct (H _ (pack_wf _ _ _ u _ _ K1)) as [Hn _]. apply Hn. rewrite !vcmp_rank by assumption. rewrite !Hc. lia.
    + destruct (Hsurj (rank E F b t g h + 1) ltac:(lia)) as (c & u & i & j & K1 & K2 & K3).
      destruct (H _ (pack_wf _ _ _ u _ _ K1)) as [_ Hn]. apply Hn. rewrite !vcmp_rank by assumption. rewrite !Hc. lia.
  - intros H z Hz. destruct (pack_view E F z HE HF Hz) as (c & u & i & j & Hz1 & ->).
    destruct (Z.eq_dec c 3) as [->|Hc3].
    + rewrite (decode_pack E F 3) by assumption. cbn [Z.eqb Pos.eqb].
      split; intros [_ Hk]; destruct (decode E F _); discriminate Hk.
    + rewrite !vcmp_rank by assumption. rewrite !Hc. lia.
Qed.

Theorem within_1ulp_correct E F x y :
  1 <= E -> 1 <= F -> wf (E + F + 3) x -> wf (E + F + 3) y ->
  (within_1ulp E F x y = 0 \/ within_1ulp E F x y = 1) /\
  (within_1ulp E F x y = 1 <->
   (decode E F x = NaN /\ decode E F y = NaN) \/
   (decode E F x <> NaN /\ decode E F y <> NaN /\
    forall z, wf (E + F + 3) z ->
      ~ (vcmp (decode E F x) (decode E F z) = Some Lt /\ vcmp (decode E F z) (decode E F y) = Some Lt) /\
      ~ (vcmp (decode E F y) (decode E F z) = Some Lt /\ vcmp (decode E F z) (decode E F x) = Some Lt))).
Proof.
  intros HE HF Hx Hy.
  destruct (pack_view E F x HE HF Hx) as (a & s & e & f & Ha & ->).
  destruct (pack_view E F y HE HF Hy) as (b & t & g & h & Hb & ->).
  rewrite !decode_nan by assumption.
  destruct (Z.eq_dec a 3) as [->|Ha3]; [|destruct (Z.eq_dec b 3) as [->|Hb3]].
  - unfold within_1ulp. fields. cbn [Z.eqb Pos.eqb Z.b2z]. clear.
    destruct (Z.eqb_spec b 3) as [->|H]; cbn [Z.b2z]; intuition (try discriminate; try lia).
  - unfold within_1ulp. fields. cbn [Z.eqb Pos.eqb Z.b2z]. clear - Ha3.
    destruct (Z.eqb_spec a 3) as [->|H]; cbn [Z.b2z]; intuition (try discriminate; try lia).
  - rewrite within_rank by assumption. apply b2z_iff. rewrite Z.leb_le.
    rewrite <- (between_rank E F a s e f b t g h Ha Hb Ha3 Hb3). tauto.
Qed.

(** ** numeric_limits *)
Theorem limits_correct E F :
  1 <= E -> 1 <= F ->
  (wf (E + F + 3) (lim_max E F) /\ wf (E + F + 3) (lim_lowest E F) /\ wf (E + F + 3) (lim_min E F)) /\
  (forall z s m e, wf (E + F + 3) z -> decode E F z = Num s m e ->
     vcmp (decode E F z) (decode E F (lim_max E F)) <> Some Gt /\
     vcmp (decode E F (lim_lowest E F)) (decode E F z) <> Some Gt /\
     (s = false -> vcmp (decode E F (lim_min E F)) (decode E F z) <> Some Gt)) /\
  (exists m e, decode E F (lim_max E F) = Num false m e) /\
  (exists m e, decode E F (lim_lowest E F) = Num true m e) /\
  (exists m e, decode E F (lim_min E F) = Num false m e) /\
  decode E F (lim_infinity E F) = Inf false /\ decode E F (lim_neg_infinity E F) = Inf true /\
  decode E F (lim_quiet_NaN E F) = NaN /\
  decode E F (lim_pos_zero E F) = Zero false /\ decode E F (lim_neg_zero E F) = Zero true.
Proof.
  intros HE HF. pose proof (pow2_pos F ltac:(lia)) as PF. pose proof (pow2_pos E ltac:(lia)) as PE.
  pose proof (og_bound E ltac:(lia)) as OE. pose proof (og_bound F ltac:(lia)) as OF.
  destruct (lim_is_pack E F 2 1 false (og E) (og F)) as [M1 M2]; try lia; [reflexivity|].
  destruct (lim_is_pack E F 3 1 true (og E) (og F)) as [L1 L2]; try lia; [reflexivity|].
  destruct (lim_is_pack E F 2 1 false 0 0) as [N1 N2]; try lia; [reflexivity|].
  unfold lim_max, lim_lowest, lim_min, lim_infinity, lim_neg_infinity, lim_quiet_NaN, lim_pos_zero, lim_neg_zero, zg.
  rewrite M2, L2, N2. split; [repeat split; apply pack_wf; assumption|]. split.
  - intros z s m e Hz Hd. destruct (pack_view E F z HE HF Hz) as (a & u & i & j & Ha & ->).
    assert (a = 1 /\ s = u).
    { rewrite decode_pack in Hd by assumption. split_flags Ha; cbn [Z.eqb Pos.eqb] in Hd; try discriminate. split; congruence. }
    destruct H as [-> ->]. rewrite !vcmp_rank by (assumption || lia).
    pose proof (okf_body _ _ _ _ _ Ha) as Ba. pose proof (okf_body _ _ _ _ _ M1) as Bm.
    assert (Eo : og E * 2 ^ F + og F = 2 ^ (E + F) - 1) by (rewrite !og_eq, pow2_add by lia; ring).
    assert (Hc : forall x y, x <= y -> Some (x ?= y) <> Some Gt).
    { intros x y H K. injection K. apply Z.compare_le_iff. assumption. }
    unfold rank, arank. cbn [Z.eqb Pos.eqb]. rewrite Eo.
    repeat split; [| |intros ->]; apply Hc; try (destruct u); cbn [sgn]; lia.
  - repeat split.
    + do 2 eexists. rewrite decode_pack by assumption. reflexivity.
    + do 2 eexists. rewrite decode_pack by assumption. reflexivity.
    + do 2 eexists. rewrite decode_pack by assumption. reflexivity.
    + destruct (lim_is_pack E F 4 2 false 0 0) as [K1 K2]; try lia; [reflexivity|]. rewrite K2, decode_pack by assumption. reflexivity.
    + destruct (lim_is_pack E F 5 2 true 0 0) as [K1 K2]; try lia; [reflexivity|]. rewrite K2, decode_pack by assumption. reflexivity.
    + destruct (lim_is_pack E F 6 3 false 0 0) as [K1 K2]; try lia; [reflexivity|]. rewrite K2, decode_pack by assumption. reflexivity.
    + destruct (lim_is_pack E F 0 0 false 0 0) as [K1 K2]; try lia; [reflexivity|]. rewrite K2, decode_pack by assumption. reflexivity.
    + destruct (lim_is_pack E F 1 0 true 0 0) as [K1 K2]; try lia; [reflexivity|]. rewrite K2, decode_pack by assumption. reflexivity.
Qed.

(** pos_one() and neg_one() *)
Theorem one_correct E F : 1 <= E -> 1 <= F ->
  exists r r', lim_pos_one E F = Some r /\ lim_neg_one E F = Some r' /\
    wf (E + F + 3) r /\ wf (E + F + 3) r' /\
    decode E F r = Num false (2 ^ F) (- F) /\ decode E F r' = Num true (2 ^ F) (- F).
Proof.
  intros HE HF. pose proof (pow2_pos F ltac:(lia)) as PF. pose proof (pow2_pos (E - 1) ltac:(lia)) as PE1.
  assert (Hb : 0 <= 2 ^ (E - 1) - 1 < 2 ^ E) by (pose proof (pow2_lt (E - 1) E ltac:(lia) ltac:(lia)); lia).
  unfold lim_pos_one, lim_neg_one. rewrite of_int_ok by lia. cbn [bind].
  destruct (lim_is_pack E F 2 1 false (2 ^ (E - 1) - 1) 0) as [A1 A2]; try lia; [reflexivity|].
  destruct (lim_is_pack E F 3 1 true (2 ^ (E - 1) - 1) 0) as [B1 B2]; try lia; [reflexivity|].
  unfold zg. do 2 eexists. split; [reflexivity|]. split; [reflexivity|]. rewrite A2, B2.
  split; [apply pack_wf; assumption|]. split; [apply pack_wf; assumption|].
  rewrite !decode_pack by assumption. cbn [Z.eqb Pos.eqb]. unfold bias.
  rewrite Z.add_0_r. split; f_equal; lia.
Qed.
