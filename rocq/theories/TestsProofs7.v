(** The tests of the reciprocals. *)
From Coq Require Import ZArith List Bool Lia.
From Verif Require Import Fw FwLemmas Spec SpecFma SpecTests SpecLemmas Flopoco FlopocoLemmas FlopocoProofs InvNr InvNrProofs2 InvNrProofs3 InvNrProofs4 MpfrLib Mpfr MpfrRange MpfrProofs MpfrProofs2 Policy PolicyProofs PolicyProofs6 Tests TestsProofs TestsProofs2 TestsProofs3 TestsProofs4 TestsProofs5 TestsProofs6.
Import ListNotations.
Open Scope Z_scope.

(** Up or down at unbounded exponent range, from the quotient in units of 2^(-w-F). *)
Definition recip_dir (F w f : Z) (up : bool) : Z := if up then (2 ^ (F + 1 + w) + (2 ^ w + f) - 1) / (2 ^ w + f) else 2 ^ (F + 1 + w) / (2 ^ w + f).
Lemma recip_dir_ok F w f up : 1 <= F -> 1 <= w -> 0 <= f < 2 ^ w -> let Y := 2 ^ w + f in let q := recip_dir F w f up in
  2 ^ F <= q <= 2 ^ (F + 1) /\ (if up then q * Y - Y < 2 ^ (F + 1 + w) <= q * Y else q * Y <= 2 ^ (F + 1 + w) < q * Y + Y).
Proof.
  intros HF Hw Hf. cbv zeta. pose proof (pow2_pos w ltac:(lia)) as PW. pose proof (pow2_pos F ltac:(lia)) as PF. pose proof (pow2_S F ltac:(lia)) as P1.
  assert (PP : 2 ^ (F + 1 + w) = 2 * 2 ^ F * 2 ^ w) by (rewrite pow2_add by lia; rewrite P1; reflexivity).
  unfold recip_dir. rewrite P1, PP. set (Y := 2 ^ w + f). assert (HY : 2 ^ w <= Y < 2 * 2 ^ w) by (unfold Y; lia). clearbody Y.
  set (A := 2 * 2 ^ F * 2 ^ w) in *. assert (HA : A = 2 * 2 ^ F * 2 ^ w) by reflexivity. clearbody A.
  destruct up.
  - pose proof (Z.div_mod (A + Y - 1) Y ltac:(lia)) as D. pose proof (Z.mod_pos_bound (A + Y - 1) Y ltac:(lia)) as B. set (q := (A + Y - 1) / Y) in *. clearbody q. split; [|lia].
    assert (q * Y - Y < A <= q * Y) as [X1 X2] by lia. split; nia.
  - pose proof (Z.div_mod A Y ltac:(lia)) as D. pose proof (Z.mod_pos_bound A Y ltac:(lia)) as B. set (q := A / Y) in *. clearbody q. split; [|lia].
    assert (q * Y <= A < q * Y + Y) as [X1 X2] by lia. split; nia.
Qed.
Lemma mp_recip mode s F w f k : 1 <= F -> 1 <= w -> 0 <= f < 2 ^ w -> mode <> RNDN -> mp_emin <= k - w + 1 -> k - w + 2 <= mp_emax ->
  exists m e, mp_round (F + 1) mode s 2 (2 ^ w + f) k = Num s m e /\ (m, e) = norm_me F (recip_dir F w f (mp_away mode s)) (k - w - F) /\ 2 ^ F <= m < 2 ^ (F + 1).
Proof.
  intros HF Hw Hf HM R1 R2. pose proof (pow2_pos w ltac:(lia)) as PW. pose proof (pow2_pos F ltac:(lia)) as PF. pose proof (pow2_S F ltac:(lia)) as P1. pose proof (pow2_S w ltac:(lia)) as PW1.
  destruct (recip_dir_ok F w f (mp_away mode s) HF Hw Hf) as [Q1 Q2]. cbv zeta in Q1, Q2.
  assert (PP : 2 ^ (F + 1 + w) = 2 * 2 ^ F * 2 ^ w) by (rewrite pow2_add by lia; rewrite P1; reflexivity).
  destruct (Z.eq_dec f 0) as [->|Nf].
  - assert (Q : recip_dir F w 0 (mp_away mode s) = 2 ^ (F + 1)). { rewrite Z.add_0_r in Q2. rewrite P1 in *. destruct (mp_away mode s); nia. }
    rewrite Q. unfold norm_me. rewrite Z.eqb_refl. exists (2 ^ F), (k - w - F + 1).
    assert (MG : mag 2 (2 ^ w + 0) = 1 - w).
    { apply mag_unique; [lia|lia|]. replace (- (1 - w)) with (w - 1) by lia. unfold num2, den2. rewrite (Z.max_r 0 (w - 1)), (Z.max_l 0 (- (w - 1))) by lia. pose proof (pow2_S (w - 1) ltac:(lia)) as PM. replace (w - 1 + 1) with w in PM by lia. pose proof (pow2_pos (w - 1) ltac:(lia)). rewrite Z.pow_0_r. lia. }
    unfold mp_round. rewrite MG. replace (F + 1 - 1) with F by lia. replace (- (1 - w - F)) with (w + F - 1) by lia.
    unfold num2, den2. rewrite (Z.max_r 0 (w + F - 1)), (Z.max_l 0 (- (w + F - 1))) by lia. rewrite Z.pow_0_r, Z.add_0_r, Z.mul_1_r.
    assert (N2 : 2 * 2 ^ (w + F - 1) = 2 ^ F * 2 ^ w) by (rewrite <- pow2_S, <- pow2_add by lia; f_equal; lia). rewrite N2.
    assert (M : match mode with RNDN => rne_div (2 ^ F * 2 ^ w) (2 ^ w) | _ => if mp_away mode s then (2 ^ F * 2 ^ w + 2 ^ w - 1) / 2 ^ w else 2 ^ F * 2 ^ w / 2 ^ w end = 2 ^ F).
    { assert (A1 : (2 ^ F * 2 ^ w + 2 ^ w - 1) / 2 ^ w = 2 ^ F) by (symmetry; apply (Z.div_unique _ _ _ (2 ^ w - 1)); lia).
      assert (A2 : 2 ^ F * 2 ^ w / 2 ^ w = 2 ^ F) by (apply Z.div_mul; lia). rewrite A1, A2. destruct mode; [congruence|destruct (mp_away _ s); reflexivity..]. }
    rewrite M. replace (2 ^ F =? 2 ^ (F + 1)) with false by lia. replace (mp_emax <? 1 - w - F + k + (F + 1)) with false by lia. replace (1 - w - F + k + (F + 1) <? mp_emin) with false by lia.
    split; [f_equal; lia|]. split; [reflexivity|lia].
  - assert (MG : mag 2 (2 ^ w + f) = - w).
    { apply mag_unique; [lia|lia|]. rewrite Z.opp_involutive. unfold num2, den2. rewrite (Z.max_r 0 w), (Z.max_l 0 (- w)) by lia. rewrite Z.pow_0_r. lia. }
    set (q := recip_dir F w f (mp_away mode s)) in *.
    assert (M : match mode with RNDN => rne_div (2 ^ (F + 1 + w)) (2 ^ w + f) | _ => if mp_away mode s then (2 ^ (F + 1 + w) + (2 ^ w + f) - 1) / (2 ^ w + f) else 2 ^ (F + 1 + w) / (2 ^ w + f) end = q).
    { unfold q, recip_dir. destruct mode; [congruence|destruct (mp_away _ s); reflexivity..]. }
    unfold mp_round. rewrite MG. replace (F + 1 - 1) with F by lia. replace (- (- w - F)) with (w + F) by lia.
    unfold num2, den2. rewrite (Z.max_r 0 (w + F)), (Z.max_l 0 (- (w + F))) by lia. rewrite Z.pow_0_r, Z.mul_1_r.
    replace (2 * 2 ^ (w + F)) with (2 ^ (F + 1 + w)) by (rewrite <- pow2_S by lia; f_equal; lia). rewrite M. clear M. clearbody q. unfold norm_me.
    destruct (Z.eqb_spec q (2 ^ (F + 1))) as [Q|Q].
    + exists (2 ^ F), (k - w - F + 1). replace (mp_emax <? - w - F + 1 + k + (F + 1)) with false by lia. replace (- w - F + 1 + k + (F + 1) <? mp_emin) with false by lia. split; [f_equal; lia|]. split; [reflexivity|lia].
    + exists q, (k - w - F). replace (mp_emax <? - w - F + k + (F + 1)) with false by lia. replace (- w - F + k + (F + 1) <? mp_emin) with false by lia. split; [f_equal; lia|]. split; [reflexivity|lia].
Qed.
(** An approximation of the reciprocal that is off by less than a unit is the quotient rounded down or up. *)
Lemma good_dir F w f R : 1 <= F -> 1 <= w -> 0 <= f < 2 ^ w -> good_frac (F + 1) w R (2 ^ w + f) -> exists up, R = recip_dir F w f up.
Proof.
  intros HF Hw Hf [G1 G2]. destruct (recip_dir_ok F w f true HF Hw Hf) as [_ U]. destruct (recip_dir_ok F w f false HF Hw Hf) as [_ D]. cbv zeta in U, D.
  pose proof (pow2_pos w ltac:(lia)) as PW. set (Y := 2 ^ w + f) in *. assert (0 < Y) by (unfold Y; lia). clearbody Y.
  set (A := 2 ^ (F + 1 + w)) in *. clearbody A. set (qu := recip_dir F w f true) in *. set (qd := recip_dir F w f false) in *.
  destruct (Z_le_gt_dec (R * Y) A) as [L|L]; [exists false; fold qd|exists true; fold qu]; nia.
Qed.

Theorem recip_pair op E F w y : 2 <= E <= 30 -> 1 <= F <= 128 -> 1 <= w <= 128 -> recip_op op E F w -> wf (E + w + 3) y ->
  (forall s m e, decode E w y = Num s m e -> e + w = emax E - 1 -> m = 2 ^ w) ->
  either_or_exit E F (op E F E w y) (ref_inv_faithful E F E w y) = Some true.
Proof.
  intros HE HF Hw HO Hy HX. pose proof Hy as Wy. destruct (pack_view E w y ltac:(lia) ltac:(lia) Hy) as [fl [s [ey [f [O ->]]]]].
  assert (O' := O). destruct O' as (_ & _ & Hfl & Hey & Hf). rewrite decode_pack in HX by exact O.
  destruct (HO fl s ey f O) as [R [G [Rm EQ]]]. rewrite EQ. unfold recip_form.
  pose proof (pow2_pos w ltac:(lia)) as PW. pose proof (pow2_pos F ltac:(lia)) as PF. pose proof (pow2_S F ltac:(lia)) as P1. pose proof (bias_twice E ltac:(lia)) as B2.
  pose proof (mod_pow_bound (2 ^ E - 3 - ey + Z.b2z (R =? 2 ^ (F + 1))) E ltac:(lia)) as Hc.
  set (c := (2 ^ E - 3 - ey + Z.b2z (R =? 2 ^ (F + 1))) mod 2 ^ E) in *.
  assert (OR : okf E F (inv_flags fl (Z.b2z (ey =? 2 ^ E - 1))) c (R mod 2 ^ F)) by (pose proof (inv_flags_range fl (Z.b2z (ey =? 2 ^ E - 1)) Hfl); unfold okf; lia).
  assert (Wg : wf (E + F + 3) (pack E F (inv_flags fl (Z.b2z (ey =? 2 ^ E - 1))) s c (R mod 2 ^ F))) by (apply pack_wf; exact OR).
  assert (Dg := decode_pack E F _ s c _ OR). remember (pack E F (inv_flags fl (Z.b2z (ey =? 2 ^ E - 1))) s c (R mod 2 ^ F)) as g eqn:Eg. clear Eg.
  assert (HR : ok_ef E F) by (split; lia).
  unfold either_or_exit, ref_inv_faithful. cbn [bind]. rewrite fl_get_ok by (lia || assumption). cbn [bind]. rewrite decode_pack by exact O.
  assert (Done : forall r1 r2, wf (E + F + 3) r1 -> wf (E + F + 3) r2 -> decode E F g = decode E F r1 \/ decode E F g = decode E F r2 ->
    Some (to_bool (equals E F r1 g) || to_bool (equals E F r2 g)) = Some true).
  { intros r1 r2 W1 W2 H. f_equal. destruct (equals_correct E F r1 g ltac:(lia) ltac:(lia) W1 Wg) as [[-> _]|[-> N1]]; [reflexivity|].
    destruct (equals_correct E F r2 g ltac:(lia) ltac:(lia) W2 Wg) as [[-> _]|[-> N2]]; [reflexivity|]. destruct H; congruence. }
  assert (Done1 : forall v1 v2, rounds_to E F (fl_of_mpfr E F (F + 1) true v1) (decode E F g) -> rounds_to E F (fl_of_mpfr E F (F + 1) true v2) (decode E F g) ->
    (do r <- (do r1 <- fl_of_mpfr E F (F + 1) true v1; do r2 <- fl_of_mpfr E F (F + 1) true v2; Some (r1, r2)); Some (to_bool (equals E F (fst r) g) || to_bool (equals E F (snd r) g))) = Some true).
  { intros v1 v2 (r1 & -> & W1 & D1) (r2 & -> & W2 & D2). cbn [bind fst snd]. apply Done; auto. }
  unfold inv_flags in Dg. rewrite to_bool_b2z in Dg.
  apply flags_cases in Hfl. destruct Hfl as [->|[->|[->| ->]]]; cbn [Z.eqb Pos.eqb] in Dg |- *.
  - apply Done1; rewrite Dg; unfold mp_one, mpfr_div; cbn [xorb]; (destruct s; apply sp_inf; assumption).
  - cbn [Z.eqb Pos.eqb] in HX. specialize (HX s (2 ^ w + f) (ey - bias E - w) eq_refl). unfold emax in HX.
    pose (k := -1 - (ey - bias E - w)). assert (EM := mp_ranges E ltac:(lia)). unfold emin, emax in EM.
    unfold mp_one, mpfr_div. replace (xorb false s) with s by (destruct s; reflexivity). fold k.
    assert (BB : bias E <= 2 ^ 29). { unfold bias. assert (2 ^ (E - 1) <= 2 ^ 29) by (apply pow2_le; lia). lia. } destruct mp_one30 as (M1 & M2 & M3).
    destruct (mp_recip RNDD s F w f k ltac:(lia) ltac:(lia) Hf ltac:(discriminate) ltac:(unfold k; lia) ltac:(unfold k; lia)) as (m1 & e1 & -> & N1 & Q1).
    destruct (mp_recip RNDU s F w f k ltac:(lia) ltac:(lia) Hf ltac:(discriminate) ltac:(unfold k; lia) ltac:(unfold k; lia)) as (m2 & e2 & -> & N2 & Q2).
    destruct (fl_num E F s m1 e1 ltac:(lia) HF Q1) as (r1 & -> & W1 & D1). destruct (fl_num E F s m2 e2 ltac:(lia) HF Q2) as (r2 & -> & W2 & D2). cbn [bind fst snd].
    apply Done; [exact W1|exact W2|]. rewrite D1, D2, N1, N2. 
    destruct (good_dir F w f R ltac:(lia) ltac:(lia) Hf G) as [up ER].
    assert (V : decode E F g = finish (emin E) (emax E) F s (norm_me F R (k - w - F))).
    { rewrite Dg. destruct G as [G1 _]. replace (F + 1 - 1) with F in G1 by lia. unfold norm_me.
      replace (k - w - F) with (bias E - 1 - ey - F) by (unfold k; lia).
      destruct (Z.eqb_spec ey (2 ^ E - 1)) as [Ey|Ey].
      - cbn [Z.eqb Pos.eqb]. unfold finish, emin, emax. destruct (R =? 2 ^ (F + 1)); [replace (_ <? - bias E) with true by lia|replace (_ <? - bias E) with true by lia]; reflexivity.
      - cbn [Z.eqb Pos.eqb]. subst c. destruct (Z.eqb_spec R (2 ^ (F + 1))) as [ER1|ER1].
        + cbn [Z.b2z]. rewrite ER1, P1. replace (2 * 2 ^ F) with (2 * 2 ^ F + 0) by lia. rewrite Z.add_0_r, Z.mod_mul by lia. rewrite Z.mod_small by lia.
          unfold finish, emin, emax. replace (_ <? - bias E) with false by lia. replace (bias E + 1 <? _) with false by lia. f_equal; lia.
        + assert (ey <> 2 ^ E - 2). { intros Q. specialize (HX ltac:(lia)). assert (f = 0) by lia. subst f. destruct (recip_dir_ok F w 0 up ltac:(lia) ltac:(lia) Hf) as [_ K]. cbv zeta in K. rewrite <- ER in K. rewrite Z.add_0_r, (pow2_add (F + 1) w) in K by lia. destruct up; nia. }
          cbn [Z.b2z]. rewrite Z.add_0_r, (Z.mod_small (2 ^ E - 3 - ey)) by lia. replace (R mod 2 ^ F) with (R - 2 ^ F) by (apply (Z.mod_unique _ _ 1); lia).
          unfold finish, emin, emax. replace (_ <? - bias E) with false by lia. replace (bias E + 1 <? _) with false by lia. f_equal; lia. }
    rewrite V, ER. cbn [mp_away]. destruct s, up; cbn [negb]; auto.
  - apply Done1; rewrite Dg; unfold mp_one, mpfr_div; cbn [xorb]; (destruct s; apply sp_zero; assumption).
  - apply Done1; rewrite Dg; unfold mp_one, mpfr_div; apply sp_nan; assumption.
Qed.

(** ** What the programs draw *)
Definition no_wrap (w : Z) (y : Z) : Prop := forall s m e, decode 8 w y = Num s m e -> e + w = emax 8 - 1 -> m = 2 ^ w.
Definition no_wrapb (F y : Z) : bool := negb ((y / 2 ^ F) mod 2 ^ 8 =? 254) || (y mod 2 ^ F =? 0).
Definition fixed_ok (F : Z) : bool := match make_args 8 F (fun _ => 0) 0 with Some l => forallb (no_wrapb F) l | None => false end.
Lemma fixed_all : forallb fixed_ok (map (fun k => Z.of_nat k + 4) (seq 0 59)) = true. Proof. vm_compute. reflexivity. Qed.
Lemma fixed_ok_all F : 4 <= F <= 62 -> fixed_ok F = true.
Proof.
  intros H. pose proof fixed_all as A. rewrite forallb_forall in A. apply A. apply in_map_iff. exists (Z.to_nat (F - 4)). split; [lia|]. apply in_seq. lia.
Qed.
Lemma no_wrapb_ok F y : 1 <= F -> wf (8 + F + 3) y -> no_wrapb F y = true -> no_wrap F y.
Proof.
  intros HF W H s m e D X. destruct (pack_view 8 F y ltac:(lia) HF W) as [fl [t [ey [f [O ->]]]]]. rewrite decode_pack in D by exact O.
  assert (O' := O). destruct O' as (_ & _ & Hfl & Hey & Hf). pose proof (pow2_pos F ltac:(lia)) as PF.
  destruct (fl =? 0); [discriminate|]. destruct (fl =? 1); [|destruct (fl =? 2); discriminate]. injection D as <- <- <-.
  replace (ey - bias 8 - F + F) with (ey - 127) in X by (change (bias 8) with 127; lia). change (emax 8 - 1) with 127 in X.
  assert (K : pack 8 F fl t ey f = (fl * 2 ^ 9 + Z.b2z t * 2 ^ 8 + ey) * 2 ^ F + f).
  { unfold pack. replace (8 + F + 1) with (9 + F) by lia. rewrite !pow2_add by lia. ring. }
  unfold no_wrapb in H. rewrite K in H. rewrite Z.div_add_l, (Z.div_small f) in H by lia. rewrite (Z.add_comm _ f), Z.mod_add, (Z.mod_small f) in H by lia.
  replace ((fl * 2 ^ 9 + Z.b2z t * 2 ^ 8 + ey + 0) mod 2 ^ 8) with ey in H by (apply (Z.mod_unique _ _ (2 * fl + Z.b2z t)); lia).
  apply orb_prop in H. destruct H as [H|H]; [rewrite negb_true_iff in H|]; lia.
Qed.
Lemma args_no_wrap F u n : 4 <= F <= 62 -> draws_ok F u -> exists l, make_args 8 F u n = Some l /\ forall y, In y l -> wf (8 + F + 3) y /\ no_wrap F y.
Proof.
  intros HF Hu. destruct (args_fixed 8 F ltac:(lia) ltac:(lia)) as (l & P & _ & _ & _ & _ & M).
  assert (L : make_args 8 F (fun _ => 0) 0 = Some l) by (rewrite M; reflexivity).
  pose proof (fixed_ok_all F HF) as C. unfold fixed_ok in C. rewrite L in C. rewrite forallb_forall in C.
  destruct (random_ok 8 F u n (ltac:(split; lia)) Hu n 0%nat l ltac:(lia)) as (l' & R & S & _). exists (l ++ l'). split; [rewrite M; exact R|].
  rewrite Forall_forall in P, S. intros y Hy. apply in_app_or in Hy. destruct Hy as [Hy|Hy].
  - destruct (P y Hy) as [W _]. split; [exact W|]. apply no_wrapb_ok; [lia|exact W|apply C; exact Hy].
  - destruct (S y Hy) as [[W _] Q]. split; [exact W|]. intros s m e D X. specialize (Q s m e D). change (emax 8 - 1) with 127 in X. lia.
Qed.

Theorem inv_direct_passes F u n : 4 <= F <= 25 -> draws_ok F u -> test_inv_impl (inv_direct 8 F 8 F) 8 F u n = Some true.
Proof.
  intros HF Hu. destruct (args_no_wrap F u n ltac:(lia) Hu) as (l & L & H). unfold test_inv_impl. rewrite L. cbn [bind].
  apply each_true. intros y Hy. destruct (H y Hy) as [W N].
  destruct (direct_correct 8 F F y ltac:(lia) ltac:(lia) ltac:(lia) ltac:(lia) ltac:(lia) W N) as (r & R1 & R2 & R3).
  destruct (ref_inv_ok 8 F 8 F y (ltac:(split; lia)) (ltac:(split; lia)) W) as (q & Q1 & Q2 & Q3).
  unfold same_or_exit. rewrite R1, Q1. cbn [bind]. f_equal. destruct (equals_correct 8 F q r ltac:(lia) ltac:(lia) Q2 R2) as [[-> _]|[_ X]]; [reflexivity|congruence].
Qed.
Theorem inv_newton_passes F w u n : 7 <= F <= 62 -> 8 <= w <= 62 -> index_bits (F + 1) <= w -> draws_ok w u ->
  test_inv_faithful_impl (inv_table_newton 8 F 8 w) 8 F 8 w u n = Some true.
Proof.
  intros HF Hw HI Hu. destruct (args_no_wrap w u n ltac:(lia) Hu) as (l & L & H). unfold test_inv_faithful_impl. rewrite L. cbn [bind].
  apply each_true. intros y Hy. destruct (H y Hy) as [W N].
  apply (recip_pair inv_table_newton); [lia|lia|lia|apply newton_op; lia|exact W|exact N].
Qed.
Theorem inv_newton_passes' F w u n : 7 <= F <= 62 -> 8 <= w <= 62 -> F <= w \/ 10 <= w -> draws_ok w u ->
  test_inv_faithful_impl (inv_table_newton 8 F 8 w) 8 F 8 w u n = Some true.
Proof.
  intros HF Hw HI Hu. apply inv_newton_passes; try assumption. unfold index_bits.
  destruct (Z.leb_spec (F + 1) 15). { pose proof (Z.div_lt_upper_bound (F + 1 + 1) 2 (w - 1) ltac:(lia)). destruct HI; [|assert ((F + 1 + 1) / 2 < 9) by (apply Z.div_lt_upper_bound; lia); lia]. assert ((F + 1 + 1) / 2 < w) by (apply Z.div_lt_upper_bound; lia). lia. }
  assert (10 <= w) by lia.
  destruct (Z.leb_spec (F + 1) 31).
  - assert ((F + 1 + 2) / 2 < 17) by (apply Z.div_lt_upper_bound; lia). assert (((F + 1 + 2) / 2 + 2) / 2 < 10) by (apply Z.div_lt_upper_bound; lia). lia.
  - assert ((F + 1 + 1) / 2 < 33) by (apply Z.div_lt_upper_bound; lia). assert (((F + 1 + 1) / 2 + 1) / 2 < 17) by (apply Z.div_lt_upper_bound; lia). assert ((((F + 1 + 1) / 2 + 1) / 2 + 1) / 2 < 9) by (apply Z.div_lt_upper_bound; lia). lia.
Qed.
Theorem inv_tests_blind F : 8 <= F <= 25 ->
  exists y s m e, wf (8 + F + 3) y /\ decode 8 F y = Num s m e /\ div_spec 8 F (Num false 1 0) (Num s m e) = Zero s /\
    (exists r m' e', inv_direct 8 F 8 F y = Some r /\ decode 8 F r = Num s m' e' /\ e' + F = emax 8) /\
    (exists r m' e', inv_table_newton 8 F 8 F y = Some r /\ decode 8 F r = Num s m' e' /\ e' + F = emax 8) /\
    forall u n, draws_ok F u -> test_inv_impl (inv_direct 8 F 8 F) 8 F u n = Some true /\ test_inv_faithful_impl (inv_table_newton 8 F 8 F) 8 F 8 F u n = Some true.
Proof.
  intros HF. pose proof (pow2_pos (F - 1) ltac:(lia)) as P. pose proof (pow2_S (F - 1) ltac:(lia)) as P1. replace (F - 1 + 1) with F in P1 by lia.
  assert (O : okf 8 F 1 254 (2 ^ (F - 1))) by (unfold okf; lia).
  assert (W : wf (8 + F + 3) (pack 8 F 1 false 254 (2 ^ (F - 1)))) by (apply pack_wf; exact O).
  assert (D : decode 8 F (pack 8 F 1 false 254 (2 ^ (F - 1))) = Num false (2 ^ F + 2 ^ (F - 1)) (127 - F)).
  { rewrite decode_pack by exact O. cbn [Z.eqb Pos.eqb]. reflexivity. }
  exists (pack 8 F 1 false 254 (2 ^ (F - 1))), false, (2 ^ F + 2 ^ (F - 1)), (127 - F). split; [exact W|]. split; [exact D|].
  assert (I : index_bits (F + 1) <= F).
  { unfold index_bits. destruct (Z.leb_spec (F + 1) 15).
    - assert ((F + 1 + 1) / 2 < F) by (apply Z.div_lt_upper_bound; lia). lia.
    - destruct (Z.leb_spec (F + 1) 31); [|lia]. assert ((F + 1 + 2) / 2 < 15) by (apply Z.div_lt_upper_bound; lia). assert (((F + 1 + 2) / 2 + 2) / 2 < 9) by (apply Z.div_lt_upper_bound; lia). lia. }
  split.
  { pose proof (pow2_S F ltac:(lia)) as PF1. unfold div_spec, div_gen. 
    assert (K : In F (map Z.of_nat (seq 8 18))) by (apply in_map_iff; exists (Z.to_nat F); split; [lia|apply in_seq; lia]).
    clear - K. cbn in K. repeat (destruct K as [<-|K]; [vm_compute; reflexivity|]). contradiction. }
  split. { apply (direct_wraps 8 F F _ false (2 ^ F + 2 ^ (F - 1)) (127 - F)); try lia; try assumption; change (emax 8 - 1) with 127; lia. }
  split. { apply (newton_wraps 8 F F _ false (2 ^ F + 2 ^ (F - 1)) (127 - F)); try lia; try assumption; change (emax 8 - 1) with 127; lia. }
  intros u n Hu. split; [apply inv_direct_passes; [lia|exact Hu]|apply inv_newton_passes'; [lia|lia|lia|exact Hu]].
Qed.
