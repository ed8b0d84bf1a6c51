(** Proofs about convert and neg of Flopoco.v. *)
From Coq Require Import ZArith Bool Lia.
From Verif Require Import Fw FwLemmas Spec SpecLemmas Flopoco FlopocoLemmas FlopocoProofs CompareProofs.
Open Scope Z_scope.

(** The significand of the result: m rounded to FR+1 bits. *)
Definition conv_m (FR FX f : Z) : Z :=
  if FR <? FX then rne_div (2 ^ FX + f) (2 ^ (FX - FR)) else (2 ^ FX + f) * 2 ^ (FR - FX).

Lemma half_split K drop : 1 <= K -> 0 <= drop < 2 ^ K ->
  (2 ^ (K - 1) <? drop) = (2 ^ K <? 2 * drop) /\ (drop =? 2 ^ (K - 1)) = (2 ^ K =? 2 * drop).
Proof.
  intros HK Hd. assert (E : 2 ^ K = 2 * 2 ^ (K - 1)) by (apply pow_EX; lia). rewrite E in *.
  set (h := 2 ^ (K - 1)) in *. clearbody h.
  destruct (Z.ltb_spec h drop), (Z.eqb_spec drop h), (Z.ltb_spec (2 * h) (2 * drop)), (Z.eqb_spec (2 * h) (2 * drop));
    split; try reflexivity; lia.
Qed.

Lemma convert_frac_ok FR FX f : 1 <= FR -> 1 <= FX -> 0 <= f < 2 ^ FX ->
  exists r w, convert_frac FR FX f = Some (r, Z.b2z w) /\ 0 <= r < 2 ^ FR /\
    conv_m FR FX f = 2 ^ FR + (Z.b2z w * 2 ^ FR + r) /\ (w = true -> r = 0 /\ FR < FX).
Proof.
  intros HR HX Hf. unfold convert_frac, conv_m. pose proof (pow2_pos FR ltac:(lia)) as PR.
  destruct (Z.ltb_spec FX FR) as [Hlt|Hge].
  - destruct (Z.ltb_spec FR FX); [lia|]. pose proof (pow2_pos (FR - FX) ltac:(lia)) as P.
    assert (E : 2 ^ FR = 2 ^ FX * 2 ^ (FR - FX)) by (rewrite <- pow2_add by lia; f_equal; lia).
    rewrite zpad_lo_eq by lia. replace (FX + (FR - FX)) with FR by lia.
    rewrite checked_cast_ok by (rewrite ?E; nia). cbn [bind].
    exists (f * 2 ^ (FR - FX)), false. cbn [Z.b2z]. split; [reflexivity|]. rewrite E. split; [nia|]. split; [ring|discriminate].
  - destruct (Z.eqb_spec FR FX) as [->|Hn].
    + rewrite Z.ltb_irrefl, Z.sub_diag. exists f, false. cbn [Z.b2z]. repeat split; try lia; discriminate.
    + destruct (Z.ltb_spec FR FX) as [Hlt|]; [|lia].
      remember (FX - FR) as K eqn:HK. assert (E : 2 ^ FX = 2 ^ FR * 2 ^ K) by (rewrite <- pow2_add by lia; f_equal; lia).
      pose proof (pow2_pos K ltac:(lia)) as PK.
      rewrite take_msbs_ok by lia. cbn [bind]. rewrite take_lsbs_ok by lia. cbn [bind].
      replace (FX - FR) with K by lia.
      rewrite (cat_eq (K - 1)) by (unfold zg; try (split; [lia|apply pow2_pos]); lia).
      unfold zg. rewrite og1. rewrite Z.mul_1_l, Z.add_0_r.
      pose proof (Z.mod_pos_bound f (2 ^ K) PK) as Hd. pose proof (Z.div_mod f (2 ^ K) ltac:(lia)) as Hdm.
      assert (Hk : 0 <= f / 2 ^ K < 2 ^ FR).
      { split; [apply Z.div_pos; lia|]. apply Z.div_lt_upper_bound; lia. }
      remember (f / 2 ^ K) as keep. remember (f mod 2 ^ K) as drop.
      rewrite take_lsbs_ok by lia. cbn [bind]. change (2 ^ 1) with 2. rewrite odd_mod2.
      unfold fgt, feq. destruct (half_split K drop ltac:(lia) Hd) as [HS1 HS2].
      rewrite HS1, HS2. rewrite fand_b2z, for_b2z. unfold extu. destruct (Z.leb_spec 1 FR); [|lia]. cbn [bind].
      remember ((2 ^ K <? 2 * drop) || (2 ^ K =? 2 * drop) && Z.odd keep) as ru eqn:Eru.
      assert (R01 : 0 <= Z.b2z ru <= 1) by (destruct ru; cbn [Z.b2z]; lia).
      rewrite zpad_hi_eq by (change (2 ^ 1) with 2; lia). rewrite og_eq by lia. rewrite fand_b2z, fadd_eq by lia.
      assert (Hm : rne_div (2 ^ FX + f) (2 ^ K) = 2 ^ FR + keep + Z.b2z ru).
      { unfold rne_div.
        replace (2 ^ FX + f) with ((2 ^ FR + keep) * 2 ^ K + drop) by (rewrite E, Hdm; ring).
        rewrite join_div, join_mod by lia. rewrite Eru.
        assert (Hev : Z.even (2 ^ FR + keep) = negb (Z.odd keep)).
        { rewrite Z.even_add, Z.even_pow by lia. rewrite <- (Z.negb_odd keep). cbn. destruct (Z.odd keep); reflexivity. }
        rewrite Hev. clear - PK.
        destruct (Z.ltb_spec (2 * drop) (2 ^ K)), (Z.ltb_spec (2 ^ K) (2 * drop)), (Z.eqb_spec (2 ^ K) (2 * drop));
          try lia; cbn [orb andb]; try (cbn [Z.b2z]; lia).
        destruct (Z.odd keep); cbn [negb Z.b2z]; lia. }
      rewrite Hm. destruct (Z.eqb_spec keep (2 ^ FR - 1)) as [Hones|Hno].
      * destruct ru.
        -- exists 0, true. replace (keep + Z.b2z true) with (1 * 2 ^ FR) by (cbn [Z.b2z]; lia).
           rewrite Z.mod_mul by lia. cbn [Z.b2z andb]. repeat split; try reflexivity; lia.
        -- exists keep, false. cbn [Z.b2z andb]. rewrite Z.add_0_r, Z.mod_small by lia.
           repeat split; try reflexivity; try lia; discriminate.
      * exists (keep + Z.b2z ru), false.
        rewrite Z.mod_small by lia. rewrite andb_false_r. cbn [Z.b2z]. repeat split; try reflexivity; try lia; discriminate.
Qed.

Lemma round_conv ER FR EX FX s ex f :
  1 <= ER -> 1 <= FR -> 1 <= FX -> 0 <= f < 2 ^ FX ->
  round_to ER FR s (2 ^ FX + f) 1 (ex - bias EX - FX) =
  finish (emin ER) (emax ER) FR s (norm_me FR (conv_m FR FX f) (ex - bias EX + bias ER - bias ER - FR)).
Proof.
  intros HE HR HX Hf. unfold round_to, conv_m. pose proof (pow2_pos FR ltac:(lia)) as PR.
  pose proof (pow2_pos FX ltac:(lia)) as PX.
  destruct (Z.ltb_spec FR FX) as [Hlt|Hge].
  - assert (E : 2 ^ FX = 2 ^ FR * 2 ^ (FX - FR)) by (rewrite <- pow2_add by lia; f_equal; lia).
    pose proof (pow2_pos (FX - FR) ltac:(lia)) as P.
    apply round_range_char; try lia.
    + unfold num2, den2. replace (ex - bias EX - FX - (ex - bias EX + bias ER - bias ER - FR)) with (- (FX - FR)) by lia.
      rewrite Z.opp_involutive, (Z.max_l 0 (- (FX - FR))), (Z.max_r 0 (FX - FR)) by lia. ring.
    + rewrite pow2_S, E by lia. rewrite E in Hf. nia.
  - assert (E : 2 ^ FR = 2 ^ FX * 2 ^ (FR - FX)) by (rewrite <- pow2_add by lia; f_equal; lia).
    pose proof (pow2_pos (FR - FX) ltac:(lia)) as P.
    rewrite (round_range_char _ _ _ _ _ _ _ (ex - bias EX + bias ER - bias ER - FR) ((2 ^ FX + f) * 2 ^ (FR - FX)) 1); try lia.
    + rewrite rne_div_1. reflexivity.
    + unfold num2, den2. replace (ex - bias EX - FX - (ex - bias EX + bias ER - bias ER - FR)) with (FR - FX) by lia.
      rewrite (Z.max_r 0 (FR - FX)), (Z.max_l 0 (- (FR - FX))) by lia. ring.
    + rewrite pow2_S, E by lia. nia.
Qed.

Lemma conv_m_bound FR FX f : 1 <= FR -> 1 <= FX -> 0 <= f < 2 ^ FX -> 2 ^ FR <= conv_m FR FX f <= 2 ^ (FR + 1).
Proof.
  intros HR HX Hf. destruct (convert_frac_ok FR FX f HR HX Hf) as (r & w & _ & Hr & -> & Hw).
  rewrite pow2_S by lia. destruct w; cbn [Z.b2z]; [destruct Hw; trivial; lia|lia].
Qed.

(** What rounding to the destination format gives. *)
Lemma round_conv_cases ER FR EX FX s ex f r w :
  1 <= ER -> 1 <= FR -> 1 <= FX -> 0 <= f < 2 ^ FX -> 0 <= r < 2 ^ FR ->
  conv_m FR FX f = 2 ^ FR + (Z.b2z w * 2 ^ FR + r) ->
  let X := ex - bias EX + bias ER + Z.b2z w in
  round_to ER FR s (2 ^ FX + f) 1 (ex - bias EX - FX) =
  if X <? 0 then Zero s else if X <? 2 ^ ER then Num s (2 ^ FR + r) (X - bias ER - FR) else Inf s.
Proof.
  intros HE HR HX Hf Hr Hm X. rewrite round_conv by assumption.
  pose proof (finish_norm ER FR s (conv_m FR FX f) (ex - bias EX + bias ER) ltac:(lia) HE (conv_m_bound _ _ _ HR HX Hf)) as Hfin.
  cbv zeta in Hfin. rewrite Hfin, Hm. clear Hfin.
  replace ((ex - bias EX + bias ER) * 2 ^ FR + (2 ^ FR + (Z.b2z w * 2 ^ FR + r) - 2 ^ FR)) with (X * 2 ^ FR + r) by (unfold X; ring).
  clearbody X. rewrite join_div, join_mod by lia. rewrite pow2_add by lia.
  pose proof (pow2_pos FR ltac:(lia)) as PR. remember (2 ^ FR) as B. remember (2 ^ ER) as A. clear - PR Hr.
  destruct (Z.ltb_spec X 0), (Z.ltb_spec (X * B + r) 0); try reflexivity; try nia.
  destruct (Z.ltb_spec X A), (Z.ltb_spec (X * B + r) (A * B)); try reflexivity; nia.
Qed.

Lemma bias_le E D : 1 <= E <= D -> 2 ^ (E - 1) <= 2 ^ (D - 1).
Proof. intros. apply pow2_le. lia. Qed.

Theorem convert_correct ER FR EX FX x :
  1 <= ER -> 1 <= FR -> 1 <= EX -> 1 <= FX -> wf (EX + FX + 3) x ->
  ~ (ER = EX /\ FR < FX /\ (x / 2 ^ FX) mod 2 ^ EX = 2 ^ EX - 1 /\
     match decode EX FX x with Zero _ | NaN => True | _ => False end) ->
  exists r, convert ER FR EX FX x = Some r /\ wf (ER + FR + 3) r /\
            decode ER FR r = convert_spec ER FR (decode EX FX x).
Proof.
  intros HER HFR HEX HFX Hx Hbug.
  destruct (pack_view EX FX x HEX HFX Hx) as (a & s & e & f & Ha & ->). clear Hx.
  pose proof Ha as (_ & _ & H3 & He & Hf).
  assert (He' : (pack EX FX a s e f / 2 ^ FX) mod 2 ^ EX = e).
  { destruct (pack_slices EX FX a s e f Ha) as (_ & S & _). exact S. }
  rewrite He' in Hbug. clear He'. rewrite decode_pack in * by assumption.
  unfold convert. fields. destruct (convert_frac_ok FR FX f HFR HFX Hf) as (r & w & -> & Hr & Hm & Hw). cbn [bind].
  pose proof (round_conv_cases ER FR EX FX s e f r w HER HFR HFX Hf Hr Hm) as Hround. cbv zeta in Hround.
  set (X := e - bias EX + bias ER + Z.b2z w) in *.
  assert (W01 : 0 <= Z.b2z w <= 1) by (destruct w; cbn; lia).
  (* it is enough to show how flags and exponent come out *)
  assert (Hfin : forall fl ex', 0 <= fl < 4 -> 0 <= ex' < 2 ^ ER ->
     (a <> 1 -> fl = a) -> (a = 1 -> X < 0 -> fl = 0) -> (a = 1 -> 0 <= X < 2 ^ ER -> fl = 1 /\ ex' = X) -> (a = 1 -> 2 ^ ER <= X -> fl = 2) ->
     exists r0, Some (mk ER FR fl (Z.b2z s) ex' r) = Some r0 /\ wf (ER + FR + 3) r0 /\
       decode ER FR r0 = convert_spec ER FR (if a =? 0 then Zero s else if a =? 1 then Num s (2 ^ FX + f) (e - bias EX - FX) else if a =? 2 then Inf s else NaN)).
  { intros fl ex' Hfl Hex Hna Hz Hn Hi. assert (Ho : okf ER FR fl ex' r) by (unfold okf; repeat split; lia).
    eexists. split; [reflexivity|]. rewrite mk_pack by lia. split; [apply pack_wf; assumption|].
    rewrite decode_pack by assumption. destruct (Z.eqb_spec a 0) as [Ea|Hn0].
    - rewrite Hna by lia. rewrite Ea. reflexivity.
    - destruct (Z.eqb_spec a 1) as [Ea|Hn1].
      + cbn [convert_spec convert_gen]. unfold convert_spec, convert_gen. rewrite Hround.
        destruct (Z.ltb_spec X 0) as [HX|HX]; [rewrite (Hz Ea HX); reflexivity|].
        destruct (Z.ltb_spec X (2 ^ ER)) as [HX'|HX'].
        * destruct (Hn Ea ltac:(lia)) as [-> ->]. reflexivity.
        * rewrite (Hi Ea HX'). reflexivity.
      + rewrite Hna by lia. destruct (Z.eqb_spec a 0); [lia|]. destruct (Z.eqb_spec a 1); [lia|]. destruct (a =? 2); reflexivity. }
  clear Hround Hm. pose proof (pow_EX ER HER) as PER. pose proof (pow_EX EX HEX) as PEX.
  pose proof (pow2_pos (ER - 1) ltac:(lia)) as P1. pose proof (pow2_pos (EX - 1) ltac:(lia)) as P2.
  unfold bias in X. unfold zg.
  assert (Hzw : forall n, zpad_hi n 1 (Z.b2z w) = Z.b2z w) by (intros; apply zpad_hi_eq; [lia|change (2 ^ 1) with 2; lia]).
  rewrite !Hzw. clear Hzw.
  destruct (Z.ltb_spec EX ER) as [Hlt|Hge].
  - (* wider exponent *)
    assert (Hle : 2 * 2 ^ (EX - 1) <= 2 ^ (ER - 1)) by (rewrite <- PEX; apply pow2_le; lia).
    rewrite of_int_ok by lia. cbn [bind]. rewrite zpad_hi_eq by lia. replace (ER - EX + EX) with ER by lia.
    rewrite checked_cast_ok by lia. cbn [bind]. rewrite !fadd_eq by lia.
    rewrite (Z.mod_small (e + _)) by lia. rewrite Z.mod_small by lia.
    apply Hfin; lia.
  - destruct (Z.eqb_spec ER EX) as [Heq|Hne].
    + (* same exponent width *)
      subst EX. rewrite og_eq, fand_b2z, to_bool_b2z, fadd_eq by lia. cbn [bind].
      destruct (Z.eqb_spec e (2 ^ ER - 1)) as [Hmax|Hnm].
      * destruct w; cbn [andb Z.b2z] in *.
        -- destruct (Hw eq_refl) as [_ Hlt]. replace (e + 1) with (1 * 2 ^ ER) by lia.
           rewrite Z.mod_mul by lia. cbn [bind].
           assert (Ha12 : a = 1 \/ a = 2).
           { destruct (Z.eq_dec a 0) as [->|]; [exfalso; apply Hbug; cbn; auto|].
             destruct (Z.eq_dec a 3) as [->|]; [exfalso; apply Hbug; cbn; auto|lia]. }
           apply Hfin; lia.
        -- rewrite Z.add_0_r, Z.mod_small by lia. apply Hfin; lia.
      * rewrite andb_false_r. rewrite Z.mod_small by lia. apply Hfin; lia.
    + (* narrower exponent *)
      assert (Hle : 2 * 2 ^ (ER - 1) <= 2 ^ (EX - 1)) by (rewrite <- PER; apply pow2_le; lia).
      rewrite !of_int_ok by lia. cbn [bind]. rewrite fsub_eq, fadd_eq by lia.
      rewrite take_lsbs_ok by (try apply Z.mod_pos_bound; lia). cbn [bind].
      rewrite fand_b2z, fnot_b2z, fand_b2z, for_b2z, !to_bool_b2z.
      remember (e + Z.b2z w) as ew. 
      assert (Hmm : ((ew mod 2 ^ EX - (2 ^ (EX - 1) - 2 ^ (ER - 1))) mod 2 ^ EX) mod 2 ^ ER = X mod 2 ^ ER).
      { replace (2 ^ EX) with (2 ^ (EX - ER) * 2 ^ ER) by (rewrite <- pow2_add by lia; f_equal; lia).
        pose proof (pow2_pos (EX - ER) ltac:(lia)).
        rewrite Zminus_mod_idemp_l. rewrite (Z.mul_comm (2 ^ (EX - ER))), Z.rem_mul_r by lia.
        rewrite (Z.mul_comm (2 ^ ER)), Z.mod_add, Z.mod_mod by lia. f_equal. unfold X. lia. }
      rewrite Hmm. clear Hmm.
      assert (Hwrap : ((ew mod 2 ^ EX =? 0) && w = true -> ew = 2 ^ EX /\ ew mod 2 ^ EX = 0) /\ ((ew mod 2 ^ EX =? 0) && w = false -> ew mod 2 ^ EX = ew)).
      { destruct (Z.eq_dec ew (2 ^ EX)) as [Hew|Hew].
        - assert (Hz : ew mod 2 ^ EX = 0) by (rewrite Hew; apply Z_mod_same_full).
          assert (w = true) as -> by (destruct w; [reflexivity|cbn [Z.b2z] in *; lia]).
          rewrite Hz. cbn [Z.eqb andb]. split; [intros _; split; [exact Hew|reflexivity]|intros D; discriminate D].
        - assert (ew mod 2 ^ EX = ew) as -> by (apply Z.mod_small; lia). split; [|auto].
          destruct w; [|rewrite andb_false_r; discriminate]. cbn [Z.b2z] in *. destruct (Z.eqb_spec ew 0); [lia|discriminate]. }
      remember (ew mod 2 ^ EX) as am. destruct Hwrap as [Hw1 Hw2].
      assert (HXe : X = ew - (2 ^ (EX - 1) - 2 ^ (ER - 1))) by (unfold X; lia).
      destruct ((am =? 0) && w); cbn [negb andb orb].
      * destruct (Hw1 eq_refl) as [-> Ham]. apply Hfin; try apply Z.mod_pos_bound; try lia.
        -- destruct (a =? 1); lia.
        -- intros Hna. destruct (Z.eqb_spec a 1); [contradiction|reflexivity].
        -- intros -> _. reflexivity.
      * rewrite (Hw2 eq_refl). clear Hw1 Hw2.
        destruct (Z.ltb_spec ew (2 ^ (EX - 1) - 2 ^ (ER - 1))) as [Hu|Hu];
        destruct (Z.ltb_spec (2 ^ (EX - 1) - 2 ^ (ER - 1) + 2 ^ ER - 1) ew) as [Ho|Ho]; try lia;
        apply Hfin; try (apply Z.mod_pos_bound); try lia;
        try (destruct (a =? 1); lia); try (intros Hna; destruct (Z.eqb_spec a 1); [contradiction|reflexivity]);
        try (intros ->; cbn; lia).
        intros -> HX. split; [reflexivity|]. apply Z.mod_small. lia.
Qed.

Theorem neg_correct ER FR EX FX x :
  1 <= ER -> 1 <= FR -> 1 <= EX -> 1 <= FX -> wf (EX + FX + 3) x ->
  ~ (ER = EX /\ FR < FX /\ (x / 2 ^ FX) mod 2 ^ EX = 2 ^ EX - 1 /\
     match decode EX FX x with Zero _ | NaN => True | _ => False end) ->
  exists r, neg ER FR EX FX x = Some r /\ wf (ER + FR + 3) r /\
            decode ER FR r = convert_spec ER FR (neg_spec (decode EX FX x)).
Proof.
  intros HER HFR HEX HFX Hx Hbug. unfold neg, neg_v1.
  destruct (pack_view EX FX x HEX HFX Hx) as (a & s & e & f & Ha & ->). clear Hx. pose proof Ha as (_ & _ & H3 & He & Hf).
  fields. rewrite mk_pack by lia.
  assert (Hd : decode EX FX (pack EX FX a (negb s) e f) = neg_spec (decode EX FX (pack EX FX a s e f))).
  { rewrite !decode_pack by assumption. destruct (a =? 0); [reflexivity|]. destruct (a =? 1); [reflexivity|]. destruct (a =? 2); reflexivity. }
  rewrite <- Hd. apply convert_correct; try assumption; [apply pack_wf; assumption|].
  rewrite Hd.
  destruct (pack_slices EX FX a s e f Ha) as (_ & S & _). destruct (pack_slices EX FX a (negb s) e f Ha) as (_ & S' & _).
  cbv beta in *. rewrite S in Hbug. rewrite S'. intros (B1 & B2 & B3 & B4). apply Hbug.
  repeat split; try assumption. destruct (decode EX FX (pack EX FX a s e f)); exact B4.
Qed.

(** In one format negation flips exactly the sign bit, whatever the class. *)
Theorem neg_flip E F x : 1 <= E -> 1 <= F -> wf (E + F + 3) x ->
  neg E F E F x = Some (Z.lxor x (2 ^ (E + F))).
Proof.
  intros HE HF Hx. assert (Hsig : forall y, 0 <= y -> True) by trivial. clear Hsig.
  destruct (pack_view E F x HE HF Hx) as (a & s & e & f & Ha & Ex). pose proof Ha as (_ & _ & H3 & He & Hf).
  assert (Hn : neg E F E F x = Some (pack E F a (negb s) e f)).
  { rewrite Ex. unfold neg, neg_v1. fields. rewrite mk_pack by lia. unfold convert. fields.
    unfold convert_frac. rewrite !Z.ltb_irrefl, !Z.eqb_refl. cbn [bind]. change (fand 0 _) with 0. cbn [to_bool Z.eqb bind].
    rewrite zpad_hi_eq by (change (2 ^ 1) with 2; lia). rewrite fadd_eq by lia. rewrite Z.add_0_r, Z.mod_small by lia.
    rewrite mk_pack by lia. reflexivity. }
  rewrite Hn. f_equal.
  assert (Hp : 0 < 2 ^ (E + F)) by (apply pow2_pos; lia).
  pose proof (body_bound E F e f ltac:(lia) ltac:(lia) He Hf) as Hb.
  rewrite Ex. clear Hn Ex Hx.
  assert (P : forall s, pack E F a s e f = (2 * a + Z.b2z s) * 2 ^ (E + F) + (e * 2 ^ F + f)).
  { intros s0. unfold pack. replace (E + F + 1) with ((E + F) + 1) by lia. rewrite pow2_S by lia. ring. }
  rewrite !P. clear P.
  remember (e * 2 ^ F + f) as b. remember (E + F) as n.
  assert (Hn : 0 <= n) by lia. clear - Hn Hb H3.
  rewrite <- !(cat_eq n) by lia. unfold cat. apply Z.bits_inj'. intros i Hi. rewrite Z.lxor_spec, !Z.lor_spec.
  destruct (Z.ltb_spec i n).
  - rewrite !Z.shiftl_spec_low by lia. rewrite Z.pow2_bits_false by lia. rewrite xorb_false_r. reflexivity.
  - rewrite !Z.shiftl_spec_high by lia. rewrite (testbit_small n b i) by lia. rewrite !orb_false_r.
    destruct (Z.eq_dec i n) as [->|].
    + rewrite Z.sub_diag, !Z.testbit_0_r, Z.pow2_bits_true by lia. destruct s; reflexivity.
    + rewrite Z.pow2_bits_false by lia. replace (i - n) with (Z.succ (i - n - 1)) by lia.
      rewrite !Z.testbit_succ_r by lia. rewrite xorb_false_r. reflexivity.
Qed.

Theorem neg_same_format E F x : 1 <= E -> 1 <= F -> wf (E + F + 3) x ->
  neg E F E F x = Some (Z.lxor x (2 ^ (E + F))) /\
  (exists r, neg E F E F x = Some r /\ wf (E + F + 3) r /\ neg E F E F r = Some x /\
     decode E F r = neg_spec (decode E F x)).
Proof.
  intros HE HF Hx. split; [apply neg_flip; assumption|].
  destruct (pack_view E F x HE HF Hx) as (a & s & e & f & Ha & ->). pose proof Ha as (_ & _ & H3 & He & Hf).
  assert (Hn : forall s, neg E F E F (pack E F a s e f) = Some (pack E F a (negb s) e f)).
  { clear Hx s. intros s. unfold neg, neg_v1. fields. rewrite mk_pack by lia. unfold convert. fields.
    unfold convert_frac. rewrite !Z.ltb_irrefl, !Z.eqb_refl. cbn [bind]. change (fand 0 _) with 0. cbn [to_bool Z.eqb bind].
    rewrite zpad_hi_eq by (change (2 ^ 1) with 2; lia). rewrite fadd_eq by lia. rewrite Z.add_0_r, Z.mod_small by lia.
    rewrite mk_pack by lia. reflexivity. }
  exists (pack E F a (negb s) e f). rewrite !Hn, negb_involutive. repeat split; try reflexivity.
  1,2: apply pack_wf; assumption.
  rewrite !decode_pack by assumption. destruct (a =? 0); [reflexivity|]. destruct (a =? 1); [reflexivity|]. destruct (a =? 2); reflexivity.
Qed.

Theorem comparisons_correct EA FA EB FB x y :
  1 <= EA -> 1 <= FA -> 1 <= EB -> 1 <= FB -> wf (EA + FA + 3) x -> wf (EB + FB + 3) y ->
  ~ (exists s, decode EA FA x = Inf s /\ decode EB FB y = Inf s) ->
  let dx := decode EA FA x in let dy := decode EB FB y in
  less_than EA FA EB FB x y = Some (Z.b2z (lt_spec dx dy)) /\
  less_than_equal EA FA EB FB x y = Some (Z.b2z (le_spec dx dy)) /\
  greater_than EA FA EB FB x y = Some (Z.b2z (gt_spec dx dy)) /\
  greater_than_equal EA FA EB FB x y = Some (Z.b2z (ge_spec dx dy)) /\
  equal EA FA EB FB x y = Some (Z.b2z (eq_spec dx dy)) /\
  not_equal EA FA EB FB x y = Some (Z.b2z (negb (eq_spec dx dy))).
Proof.
  intros H1 H2 H3 H4 Hx Hy Hi dx dy. unfold dx, dy.
  destruct (not_equal_complement EA FA EB FB x y) as (b & Q & ->); try assumption.
  rewrite less_than_correct, less_than_equal_correct, greater_than_correct, greater_than_equal_correct by assumption.
  rewrite equal_correct in * by assumption. injection Q as Q.
  repeat split. f_equal. destruct b, (eq_spec _ _); try reflexivity; discriminate.
Qed.

Lemma signalling_NaN_is_zero E F : 1 <= E -> 1 <= F -> decode E F (lim_signalling_NaN E F) = Zero false.
Proof.
  intros. unfold lim_signalling_NaN. change (zg E) with 0. change (zg F) with 0.
  pose proof (pow2_pos E ltac:(lia)). pose proof (pow2_pos F ltac:(lia)).
  change (lim E F 0 0 0) with (lim E F (0 * 2 + Z.b2z false) 0 0). rewrite lim_pack by lia. rewrite decode_pack; [reflexivity|].
  unfold okf. repeat split; lia.
Qed.
