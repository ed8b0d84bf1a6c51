(** Text, mpz, random words and look-up tables for the word-level fw_uint. *)
From Coq Require Import ZArith Bool List Ascii String Lia.
From Verif Require Import Fw FwLemmas FwWord FwWordProofs SpecFw.
Import ListNotations.
Open Scope Z_scope.

Lemma number_app b xs ys acc : fold_left (fun acc d => acc * b + d) (xs ++ ys) acc =
  fold_left (fun acc d => acc * b + d) ys (fold_left (fun acc d => acc * b + d) xs acc).
Proof. apply fold_left_app. Qed.
Lemma number_acc b ds acc : 0 < b ->
  fold_left (fun acc d => acc * b + d) ds acc = acc * b ^ Z.of_nat (List.length ds) + number b ds.
Proof.
  intros Hb. revert acc. induction ds as [|d ds IH]; intros acc.
  - cbn [fold_left List.length]. change (Z.of_nat 0) with 0. rewrite Z.pow_0_r. unfold number. cbn. lia.
  - unfold number. cbn [fold_left]. rewrite !IH. cbn [List.length].
    rewrite Nat2Z.inj_succ, Z.pow_succ_r by lia. lia.
Qed.
Lemma number_cons b d ds : 0 < b -> number b (d :: ds) = d * b ^ Z.of_nat (List.length ds) + number b ds.
Proof. intros. unfold number at 1. cbn [fold_left]. rewrite number_acc by lia. reflexivity. Qed.
Lemma number_bound b ds : 0 < b -> Forall (fun d => 0 <= d < b) ds -> 0 <= number b ds < b ^ Z.of_nat (List.length ds).
Proof.
  intros Hb H. induction H as [|d ds Hd _ IH]; [cbn; lia|].
  rewrite number_cons by lia. cbn [List.length]. rewrite Nat2Z.inj_succ, Z.pow_succ_r by lia.
  pose proof (Z.mul_nonneg_nonneg d (b ^ Z.of_nat (List.length ds)) ltac:(lia) ltac:(lia)).
  pose proof (Z.mul_le_mono_nonneg_r d (b - 1) (b ^ Z.of_nat (List.length ds)) ltac:(lia) ltac:(lia)). lia.
Qed.
Lemma bits_forall ds : Forall (fun d => 0 <= d < 2) (map Z.b2z ds).
Proof. induction ds as [|[|]]; constructor; cbn; try lia; assumption. Qed.
Lemma bits_number_bound ds : 0 <= bits_number ds < 2 ^ Z.of_nat (List.length ds).
Proof. unfold bits_number. rewrite <- (map_length Z.b2z ds). apply number_bound; [lia|apply bits_forall]. Qed.
Lemma bits_number_cons b ds : bits_number (b :: ds) = Z.b2z b * 2 ^ Z.of_nat (List.length ds) + bits_number ds.
Proof. unfold bits_number. cbn [map]. rewrite number_cons, map_length by lia. reflexivity. Qed.

(** ** The binary constructor *)
Lemma shl1_wrap N acc d : 0 <= N -> 0 <= acc -> 0 <= d < 2 -> acc * 2 + d < 2 ^ N ->
  wrap N (wrap N (Z.shiftl acc 1) + d) = acc * 2 + d.
Proof.
  intros. rewrite Z.shiftl_mul_pow2 by lia. change (2 ^ 1) with 2.
  rewrite (wrap_small N (acc * 2)) by lia. apply wrap_small. lia.
Qed.

Lemma parse_bin_sound N s : forall left acc v, 0 <= N -> 0 <= acc ->
  (acc + 1) * 2 ^ Z.of_nat left <= 2 ^ N -> parse_bin N left acc s = Some v ->
  exists ds, bindigits s = Some ds /\ List.length ds = left /\ v = acc * 2 ^ Z.of_nat left + bits_number ds /\
    (left <> O -> ends_in_separator s = false).
Proof.
  induction s as [|c s IH]; intros left acc v HN Ha Hb H.
  - destruct left; [|discriminate]. injection H as <-. exists []. cbn [bindigits]. split; [reflexivity|].
    split; [reflexivity|]. split; [cbn; lia|congruence].
  - destruct left as [|left]; [discriminate|]. cbn [parse_bin] in H. cbn [bindigits].
    rewrite Nat2Z.inj_succ, Z.pow_succ_r in Hb by lia.
    pose proof (pow2_pos (Z.of_nat left) ltac:(lia)) as Hp.
    destruct (Ascii.eqb_spec c "_") as [->|Hc].
    + destruct (IH (S left) acc v HN Ha) as (ds & E1 & E2 & E3 & E4); [rewrite Nat2Z.inj_succ, Z.pow_succ_r by lia; exact Hb|exact H|].
      exists ds. split; [exact E1|]. split; [exact E2|]. split; [exact E3|]. intros _.
      destruct s as [|c' s']; [cbn in E1; injection E1 as <-; discriminate|]. exact (E4 ltac:(discriminate)).
    + assert (G : forall b, parse_bin N left (wrap N (wrap N (Z.shiftl acc 1) + Z.b2z b)) s = Some v ->
        exists ds, option_map (cons b) (bindigits s) = Some ds /\ List.length ds = S left /\
          v = acc * 2 ^ Z.of_nat (S left) + bits_number ds /\ (S left <> O -> ends_in_separator (String c s) = false)).
      { intros b Hpb.
        assert (Hb2 : 0 <= Z.b2z b < 2) by (destruct b; cbn; lia).
        assert (Hle : (acc * 2 + Z.b2z b + 1) * 2 ^ Z.of_nat left <= 2 ^ N).
        { eapply Z.le_trans; [|exact Hb]. rewrite Z.mul_assoc. apply Z.mul_le_mono_nonneg_r; lia. }
        assert (Hlt : acc * 2 + Z.b2z b < 2 ^ N).
        { pose proof (Z.mul_le_mono_nonneg_l 1 (2 ^ Z.of_nat left) (acc * 2 + Z.b2z b + 1) ltac:(lia) ltac:(lia)). lia. }
        rewrite shl1_wrap in Hpb by lia.
        destruct (IH left (acc * 2 + Z.b2z b) v HN ltac:(lia) Hle Hpb) as (ds & E1 & E2 & E3 & E4).
        exists (b :: ds). rewrite E1. split; [reflexivity|]. split; [cbn; lia|]. split.
        - rewrite bits_number_cons, E2, E3, Nat2Z.inj_succ, Z.pow_succ_r by lia. lia.
        - intros _. destruct left as [|left].
          + destruct s as [|c' s']; [|discriminate Hpb]. cbn [ends_in_separator]. destruct (Ascii.eqb_spec c "_"); [contradiction|reflexivity].
          + destruct s as [|c' s']; [discriminate Hpb|]. apply E4. discriminate. }
      destruct (Ascii.eqb_spec c "0") as [->|H0]; [exact (G false H)|].
      destruct (Ascii.eqb_spec c "1") as [->|H1]; [exact (G true H)|discriminate].
Qed.

Lemma parse_bin_complete N s : forall left acc ds, 0 <= N -> 0 <= acc ->
  (acc + 1) * 2 ^ Z.of_nat left <= 2 ^ N -> bindigits s = Some ds -> List.length ds = left ->
  (if left then s = EmptyString else ends_in_separator s = false) ->
  parse_bin N left acc s = Some (acc * 2 ^ Z.of_nat left + bits_number ds).
Proof.
  induction s as [|c s IH]; intros left acc ds HN Ha Hb Hd Hl He.
  - cbn in Hd. injection Hd as <-. cbn in Hl. subst left. cbn. f_equal. lia.
  - destruct left as [|left]; [discriminate|]. cbn [parse_bin]. cbn [bindigits] in Hd.
    rewrite Nat2Z.inj_succ, Z.pow_succ_r in Hb by lia.
    pose proof (pow2_pos (Z.of_nat left) ltac:(lia)) as Hp.
    destruct (Ascii.eqb_spec c "_") as [->|Hc].
    + apply IH; try assumption; [rewrite Nat2Z.inj_succ, Z.pow_succ_r by lia; exact Hb|].
      destruct s; [cbn in He; discriminate|exact He].
    + assert (G : forall b, option_map (cons b) (bindigits s) = Some ds ->
        parse_bin N left (wrap N (wrap N (Z.shiftl acc 1) + Z.b2z b)) s =
          Some (acc * 2 ^ Z.of_nat (S left) + bits_number ds)).
      { intros b Hpb. destruct (bindigits s) as [ds'|] eqn:Eb; [|discriminate]. injection Hpb as <-.
        cbn in Hl. injection Hl as Hl.
        assert (Hb2 : 0 <= Z.b2z b < 2) by (destruct b; cbn; lia).
        assert (Hle : (acc * 2 + Z.b2z b + 1) * 2 ^ Z.of_nat left <= 2 ^ N).
        { eapply Z.le_trans; [|exact Hb]. rewrite Z.mul_assoc. apply Z.mul_le_mono_nonneg_r; lia. }
        assert (Hlt : acc * 2 + Z.b2z b < 2 ^ N).
        { pose proof (Z.mul_le_mono_nonneg_l 1 (2 ^ Z.of_nat left) (acc * 2 + Z.b2z b + 1) ltac:(lia) ltac:(lia)). lia. }
        rewrite shl1_wrap by lia. rewrite (IH left (acc * 2 + Z.b2z b) ds' HN ltac:(lia) Hle eq_refl Hl).
        - rewrite bits_number_cons, Hl, Nat2Z.inj_succ, Z.pow_succ_r by lia. f_equal. lia.
        - destruct left.
          + destruct s as [|c' s']; [reflexivity|]. destruct ds'; [|discriminate].
            exfalso. clear - Eb He. revert c' Eb He. induction s' as [|c2 s2 IH2]; intros c' Eb He.
            * cbn in Eb, He. destruct (Ascii.eqb c' "_"); [discriminate|]. destruct (Ascii.eqb c' "0"); [discriminate|].
              destruct (Ascii.eqb c' "1"); discriminate.
            * cbn [bindigits] in Eb. destruct (Ascii.eqb c' "_").
              -- exact (IH2 c2 Eb He).
              -- destruct (Ascii.eqb c' "0"); [destruct (if Ascii.eqb c2 "_" then _ else _); discriminate|].
                 destruct (Ascii.eqb c' "1"); [destruct (if Ascii.eqb c2 "_" then _ else _); discriminate|discriminate].
          + destruct s as [|c' s']; [cbn in Eb; injection Eb as <-; discriminate|exact He]. }
      destruct (Ascii.eqb_spec c "0") as [->|H0]; [exact (G false Hd)|].
      destruct (Ascii.eqb_spec c "1") as [->|H1]; [exact (G true Hd)|discriminate].
Qed.

Lemma substring_all s : substring 0 (String.length s) s = s.
Proof. induction s as [|c s IH]; cbn; [reflexivity|]. rewrite IH. reflexivity. Qed.
Lemma of_string_bin W s : 0 <= W ->
  m_of_string W (append "0b" s) = parse_bin (word W) (Z.to_nat W) 0 s.
Proof.
  intros HW. unfold m_of_string, assert_, bind. destruct (Z.leb_spec 0 W); [|lia].
  cbn [append prefix]. cbn [String.length Nat.sub substring]. 
  destruct (ascii_dec "0" "0"); [|congruence]. destruct (ascii_dec "b" "b"); [|congruence].
  replace (prefix "" s) with true by (destruct s; reflexivity). rewrite Nat.sub_0_r, substring_all. reflexivity.
Qed.

Lemma bin_ctor_sound W s v : 0 <= W <= 128 -> m_of_string W (append "0b" s) = Some v ->
  exists ds, bindigits s = Some ds /\ Z.of_nat (List.length ds) = W /\ v = bits_number ds.
Proof.
  intros HW H. rewrite of_string_bin in H by lia.
  destruct (parse_bin_sound (word W) s (Z.to_nat W) 0 v) as (ds & E1 & E2 & E3 & _); try lia.
  - pose proof (word_pos W); lia.
  - rewrite Z2Nat.id by lia. pose proof (pow2_le W (word W) (word_ge W ltac:(lia))). lia.
  - exact H.
  - exists ds. split; [exact E1|]. split; [lia|]. lia.
Qed.
Lemma bin_ctor_complete W s ds : 0 < W <= 128 -> bindigits s = Some ds -> Z.of_nat (List.length ds) = W ->
  ends_in_separator s = false -> m_of_string W (append "0b" s) = Some (bits_number ds).
Proof.
  intros HW Hd Hl He. rewrite of_string_bin by lia.
  rewrite (parse_bin_complete (word W) s (Z.to_nat W) 0 ds); try lia.
  - f_equal.
  - pose proof (word_pos W); lia.
  - rewrite Z2Nat.id by lia. pose proof (pow2_le W (word W) (word_ge W ltac:(lia))). lia.
  - exact Hd.
  - destruct (Z.to_nat W) eqn:E; [lia|exact He].
Qed.

(** ** to_string *)
Lemma ends_cons c s : ends_in_separator (String c s) = match s with EmptyString => Ascii.eqb c "_" | _ => ends_in_separator s end.
Proof. destruct s; reflexivity. Qed.

Lemma to_string_loop_ok n : forall i bits acc ds, 0 <= i -> 0 <= bits ->
  bindigits acc = Some ds -> ends_in_separator acc = false -> (i = 0 -> acc = EmptyString) -> (i <> 0 -> acc <> EmptyString) ->
  exists hs, bindigits (to_string_loop n i bits acc) = Some (hs ++ ds) /\ List.length hs = n /\
    bits_number hs = (bits / 2 ^ i) mod 2 ^ Z.of_nat n /\
    ends_in_separator (to_string_loop n i bits acc) = false.
Proof.
  induction n as [|n IH]; intros i bits acc ds Hi Hb Hd He H0 H1.
  - exists []. cbn [to_string_loop app]. split; [exact Hd|]. split; [reflexivity|]. split; [|exact He].
    change (2 ^ Z.of_nat 0) with 1. rewrite Z.mod_1_r. reflexivity.
  - cbn [to_string_loop].
    set (acc1 := if (i mod 8 =? 0) && negb (i =? 0) then String "_" acc else acc).
    set (b := Z.land (Z.shiftr bits i) 1 =? 1).
    assert (D1 : bindigits acc1 = Some ds).
    { unfold acc1. destruct ((i mod 8 =? 0) && negb (i =? 0)); [cbn [bindigits Ascii.eqb]; exact Hd|exact Hd]. }
    assert (N1 : acc1 = EmptyString \/ acc1 <> EmptyString /\ ends_in_separator acc1 = false).
    { unfold acc1. destruct (Z.eqb_spec i 0) as [E|E].
      - cbn [negb]. rewrite andb_false_r. left. auto.
      - right. specialize (H1 E). destruct ((i mod 8 =? 0) && negb false).
        + split; [discriminate|]. rewrite ends_cons. destruct acc; [congruence|exact He].
        + split; assumption. }
    destruct (IH (i + 1) bits (String (if b then "1"%char else "0"%char) acc1) (b :: ds)) as (hs & E1 & E2 & E3 & E4).
    + lia.
    + exact Hb.
    + destruct b; cbn [bindigits Ascii.eqb Bool.eqb]; rewrite D1; reflexivity.
    + rewrite ends_cons. destruct N1 as [->|[N1 N2]]; [destruct b; reflexivity|]. destruct acc1; [congruence|exact N2].
    + lia.
    + discriminate.
    + exists (hs ++ [b]). rewrite E1, <- app_assoc. split; [reflexivity|]. split; [rewrite app_length, E2; cbn; lia|]. split; [|exact E4].
      unfold bits_number, number. rewrite map_app, fold_left_app. cbn [map fold_left].
      fold (number 2 (map Z.b2z hs)). fold (bits_number hs). rewrite E3.
      assert (Eb : Z.b2z b = (bits / 2 ^ i) mod 2).
      { unfold b. rewrite Z.shiftr_div_pow2 by lia. change 1 with (Z.ones 1) at 1. rewrite Z.land_ones by lia. change (2 ^ 1) with 2.
        pose proof (Z.mod_pos_bound (bits / 2 ^ i) 2 ltac:(lia)). destruct (Z.eqb_spec ((bits / 2 ^ i) mod 2) 1); cbn; lia. }
      rewrite Eb, Nat2Z.inj_succ, Z.pow_succ_r by lia.
      pose proof (pow2_pos (Z.of_nat n) ltac:(lia)). rewrite Z.rem_mul_r by lia.
      rewrite pow2_S by lia. rewrite (Z.mul_comm 2 (2 ^ i)), <- Z.div_div by (pose proof (pow2_pos i ltac:(lia)); lia). lia.
Qed.

Lemma to_string_bits W x : 0 <= W -> 0 <= x < 2 ^ W -> exists s ds,
  m_to_string W x = append "0b" s /\ bindigits s = Some ds /\ Z.of_nat (List.length ds) = W /\ bits_number ds = x /\
  ends_in_separator s = false.
Proof.
  intros HW Hx. destruct (to_string_loop_ok (Z.to_nat W) 0 x EmptyString [] ltac:(lia) ltac:(lia) eq_refl eq_refl) as (hs & E1 & E2 & E3 & E4).
  - reflexivity.
  - congruence.
  - exists (to_string_loop (Z.to_nat W) 0 x EmptyString), hs. rewrite app_nil_r in E1.
    split; [reflexivity|]. split; [exact E1|]. split; [lia|]. split; [|exact E4].
    rewrite E3, Z2Nat.id by lia. change (2 ^ 0) with 1. rewrite Z.div_1_r. apply Z.mod_small. lia.
Qed.
Lemma string_round_trip W x : 0 <= W <= 128 -> 0 <= x < 2 ^ W -> m_of_string W (m_to_string W x) = Some x.
Proof.
  intros HW Hx. destruct (Z.eq_dec W 0) as [->|N].
  - change (2 ^ 0) with 1 in Hx. replace x with 0 by lia. reflexivity.
  - destruct (to_string_bits W x ltac:(lia) Hx) as (s & ds & -> & E2 & E3 & E4 & E5). rewrite <- E4.
    apply bin_ctor_complete; try assumption. lia.
Qed.

(** ** Decimal text *)
Lemma parse_dec_ok s : forall acc ds, decdigits s = Some ds ->
  parse_dec acc s = Some (fold_left (fun a d => a * 10 + d) ds acc).
Proof.
  induction s as [|c s IH]; intros acc ds H.
  - cbn in H. injection H as <-. reflexivity.
  - cbn [decdigits] in H. cbn [parse_dec]. unfold digit. cbv zeta in *.
    destruct ((48 <=? Z.of_nat (nat_of_ascii c)) && (Z.of_nat (nat_of_ascii c) <=? 57)) eqn:E; [|discriminate].
    destruct (decdigits s) as [ds'|]; [|discriminate]. injection H as <-. cbn [bind fold_left]. apply IH. reflexivity.
Qed.
Lemma decdigits_no_prefix s ds : decdigits s = Some ds -> prefix "0b" s = false.
Proof.
  intros H. destruct s as [|c [|c2 s]]; [reflexivity|cbn [prefix]; destruct (ascii_dec "0" c); reflexivity|].
  cbn [prefix]. destruct (ascii_dec "0" c); [|reflexivity]. destruct (ascii_dec "b" c2) as [<-|]; [|reflexivity].
  cbn [decdigits] in H. cbv zeta in H. subst c. cbn in H. discriminate.
Qed.
Lemma number_nonneg ds s : decdigits s = Some ds -> 0 <= number 10 ds.
Proof.
  intros H. apply number_bound; [lia|]. revert ds H. induction s as [|c s IH]; intros ds H.
  - cbn in H. injection H as <-. constructor.
  - cbn [decdigits] in H. cbv zeta in H.
    destruct ((48 <=? Z.of_nat (nat_of_ascii c)) && (Z.of_nat (nat_of_ascii c) <=? 57)) eqn:E; [|discriminate].
    destruct (decdigits s) as [ds'|]; [|discriminate]. injection H as <-. apply andb_true_iff in E.
    constructor; [lia|]. apply IH. reflexivity.
Qed.
Lemma dec_ctor W s ds : 0 <= W <= 64 -> decdigits s = Some ds ->
  m_of_string W s = if number 10 ds <? 2 ^ W then Some (number 10 ds)
                    else if (W =? 32) || (W =? 64) then Some (2 ^ W - 1) else None.
Proof.
  intros HW H. unfold m_of_string, assert_. destruct (Z.leb_spec 0 W); [|lia]. unfold bind.
  rewrite (decdigits_no_prefix s ds H). rewrite (parse_dec_ok s 0 ds H). fold (number 10 ds).
  pose proof (number_nonneg ds s H) as Hn. rewrite MASK_eq by lia. pose proof (word_ge W ltac:(lia)) as Hw.
  pose proof (pow2_pos W ltac:(lia)) as Hp. pose proof (pow2_le W (word W) Hw) as Hp2.
  destruct (Z.ltb_spec (number 10 ds) (2 ^ W)) as [L|L].
  - destruct (Z.ltb_spec (number 10 ds) (2 ^ word W)); [|lia].
    destruct (Z.leb_spec (number 10 ds) (2 ^ W - 1)); [|lia].
    rewrite <- MASK_eq, land_MASK by lia. rewrite Z.mod_small by lia. reflexivity.
  - destruct (word_cases W ltac:(lia)) as [[E1 E2]|[[E1 E2]|[E1 E2]]]; [| |lia].
    + destruct (Z.eqb_spec W 32) as [->|N].
      * cbn [orb]. rewrite E1. destruct (Z.ltb_spec (number 10 ds) (2 ^ 32)); [lia|].
        rewrite Z.leb_refl. rewrite <- MASK_eq, land_MASK by lia. rewrite Z.mod_small; [rewrite MASK_eq by lia; reflexivity|].
        rewrite MASK_eq by lia. lia.
      * destruct (Z.eqb_spec W 64); [lia|]. cbn [orb]. rewrite E1 in *.
        pose proof (pow2_lt W 32 ltac:(lia) ltac:(lia)).
        destruct (Z.ltb_spec (number 10 ds) (2 ^ 32)).
        -- destruct (Z.leb_spec (number 10 ds) (2 ^ W - 1)); [lia|reflexivity].
        -- destruct (Z.leb_spec (2 ^ 32 - 1) (2 ^ W - 1)); [lia|reflexivity].
    + destruct (Z.eqb_spec W 32); [lia|]. destruct (Z.eqb_spec W 64) as [->|N].
      * cbn [orb]. rewrite E1. destruct (Z.ltb_spec (number 10 ds) (2 ^ 64)); [lia|].
        rewrite Z.leb_refl. rewrite <- MASK_eq, land_MASK by lia. rewrite Z.mod_small; [rewrite MASK_eq by lia; reflexivity|].
        rewrite MASK_eq by lia. lia.
      * cbn [orb]. rewrite E1 in *.
        pose proof (pow2_lt W 64 ltac:(lia) ltac:(lia)).
        destruct (Z.ltb_spec (number 10 ds) (2 ^ 64)).
        -- destruct (Z.leb_spec (number 10 ds) (2 ^ W - 1)); [lia|reflexivity].
        -- destruct (Z.leb_spec (2 ^ 64 - 1) (2 ^ W - 1)); [lia|reflexivity].
Qed.

(** ** mpz *)
Lemma limb_step x off k : 0 <= off -> 0 <= k -> 0 <= x ->
  x mod 2 ^ off + ((x / 2 ^ off) mod 2 ^ k) * 2 ^ off = x mod 2 ^ (off + k).
Proof.
  intros. rewrite pow2_add by lia. pose proof (pow2_pos off ltac:(lia)). pose proof (pow2_pos k ltac:(lia)).
  rewrite Z.rem_mul_r by lia. lia.
Qed.
Lemma lor_low a b k : 0 <= k -> 0 <= b < 2 ^ k -> Z.lor b (a * 2 ^ k) = b + a * 2 ^ k.
Proof. intros. rewrite Z.lor_comm, <- Z.shiftl_mul_pow2 by lia. rewrite lor_join, Z.shiftl_mul_pow2 by lia. lia. Qed.

Lemma quot_rem_abs x off : 0 <= off ->
  Z.abs (Z.rem (Z.quot x (2 ^ off)) (2 ^ 32)) = (Z.abs x / 2 ^ off) mod 2 ^ 32.
Proof.
  intros. pose proof (pow2_pos off ltac:(lia)) as Hp. pose proof (pow2_pos 32 ltac:(lia)) as H32.
  rewrite <- (Z.quot_div_nonneg (Z.abs x)) by lia.
  replace (Z.quot (Z.abs x) (2 ^ off)) with (Z.abs (Z.quot x (2 ^ off)))
    by (rewrite <- Z.quot_abs by lia; rewrite (Z.abs_eq (2 ^ off)) by lia; reflexivity).
  rewrite <- Z.rem_mod_nonneg by lia. rewrite <- Z.rem_abs by lia. rewrite (Z.abs_eq (2 ^ 32)) by lia. reflexivity.
Qed.
Lemma of_mpz_loop_ok W x n : forall off, 0 <= W <= 128 -> Z.abs x < 2 ^ W -> 0 <= off -> W <= off + 32 * Z.of_nat n ->
  of_mpz_loop n W x off (Z.abs x mod 2 ^ off) = Z.abs x.
Proof.
  induction n as [|n IH]; intros off HW Hx Ho Hf.
  - cbn [of_mpz_loop]. apply Z.mod_small. pose proof (pow2_le W off ltac:(lia)). lia.
  - cbn [of_mpz_loop]. destruct (Z.ltb_spec off W) as [L|L].
    + rewrite quot_rem_abs by lia. cbv zeta.
      pose proof (mod_pow_bound (Z.abs x / 2 ^ off) 32 ltac:(lia)) as Hm.
      pose proof (mod_pow_bound (Z.abs x) off ltac:(lia)) as Hlow.
      rewrite (wrap_small 32) by lia. rewrite Z.shiftl_mul_pow2 by lia.
      pose proof (limb_step (Z.abs x) off 32 ltac:(lia) ltac:(lia) ltac:(lia)) as Hs.
      assert (Hle : Z.abs x mod 2 ^ (off + 32) <= Z.abs x) by (apply Z.mod_le; [lia|apply pow2_pos; lia]).
      pose proof (pow2_pos off ltac:(lia)).
      pose proof (Z.mul_nonneg_nonneg ((Z.abs x / 2 ^ off) mod 2 ^ 32) (2 ^ off) ltac:(lia) ltac:(lia)).
      rewrite (wrap_wf (word W) W) by (pose proof (word_ge W); lia).
      rewrite lor_low, Hs by lia. apply IH; lia.
    + apply Z.mod_small. pose proof (pow2_le W off ltac:(lia)). lia.
Qed.

Lemma sizeinbase2_le x W : 0 < W -> (sizeinbase2 x <= W <-> Z.abs x < 2 ^ W).
Proof.
  intros. unfold sizeinbase2. destruct (Z.eqb_spec x 0) as [->|N].
  - pose proof (pow2_pos W ltac:(lia)). cbn [Z.abs]. lia.
  - rewrite Z.log2_lt_pow2 by lia. lia.
Qed.
Lemma of_mpz_spec W x : 0 < W <= 128 -> m_of_mpz W x = if Z.abs x <? 2 ^ W then Some (Z.abs x) else None.
Proof.
  intros HW. unfold m_of_mpz, assert_, bind. destruct (Z.leb_spec 0 W); [|lia].
  pose proof (sizeinbase2_le x W ltac:(lia)) as Hs.
  destruct (Z.ltb_spec (Z.abs x) (2 ^ W)) as [L|L].
  - destruct (Z.leb_spec (sizeinbase2 x) W); [|lia]. cbv zeta.
    pose proof (of_mpz_loop_ok W x 5 0 ltac:(lia) L ltac:(lia) ltac:(lia)) as Ho.
    rewrite Z.pow_0_r, Z.mod_1_r in Ho. rewrite Ho. rewrite MASK_eq by lia. destruct (Z.leb_spec (Z.abs x) (2 ^ W - 1)); [|lia].
    rewrite <- (MASK_eq W), land_MASK by lia. rewrite Z.mod_small by lia. reflexivity.
  - destruct (Z.leb_spec (sizeinbase2 x) W); [lia|reflexivity].
Qed.
Lemma of_mpz_width0 x : m_of_mpz 0 x = None.
Proof.
  unfold m_of_mpz, assert_, bind. cbn [Z.leb Z.compare]. unfold sizeinbase2.
  destruct (Z.eqb_spec x 0); [reflexivity|]. pose proof (Z.log2_nonneg (Z.abs x)).
  destruct (Z.leb_spec (Z.log2 (Z.abs x) + 1) 0); [lia|reflexivity].
Qed.

Lemma to_mpz_loop_ok W x n : forall off, 0 <= x < 2 ^ W -> 0 <= W -> 0 <= off -> W <= off + 32 * Z.of_nat n ->
  to_mpz_loop n W x off (x mod 2 ^ off) = x.
Proof.
  induction n as [|n IH]; intros off Hx HW Ho Hf.
  - cbn [to_mpz_loop]. apply Z.mod_small. pose proof (pow2_le W off ltac:(lia)). lia.
  - cbn [to_mpz_loop]. destruct (Z.ltb_spec off W) as [L|L].
    + change (2 ^ 32 - 1) with (Z.ones 32). rewrite Z.land_ones, Z.shiftr_div_pow2 by lia.
      rewrite limb_step by lia. apply IH; lia.
    + apply Z.mod_small. pose proof (pow2_le W off ltac:(lia)). lia.
Qed.
Lemma to_mpz_ok W x : 0 <= W <= 128 -> 0 <= x < 2 ^ W -> m_to_mpz W x = x.
Proof.
  intros. pose proof (to_mpz_loop_ok W x 5 0 ltac:(lia) ltac:(lia) ltac:(lia) ltac:(lia)) as Ho.
  rewrite Z.pow_0_r, Z.mod_1_r in Ho. exact Ho.
Qed.

(** ** uint64 *)
Lemma from_uint64_spec W x : 0 <= W <= 128 -> 0 <= x < 2 ^ 64 -> m_from_uint64 W x = if x <? 2 ^ W then Some x else None.
Proof.
  intros HW Hx. unfold m_from_uint64, assert_, bind.
  destruct (Z.leb_spec 64 W).
  - pose proof (pow2_le 64 W ltac:(lia)). destruct (Z.ltb_spec x (2 ^ W)); [|lia].
    rewrite (wrap_wf _ W) by (pose proof (word_ge W); lia). apply from_bits_ok; lia.
  - assert (E : ctMin 63 W = W) by (unfold ctMin; destruct (Z.ltb_spec 63 W); lia). rewrite E.
    destruct (Z.ltb_spec x (2 ^ W)); [|reflexivity].
    rewrite (wrap_wf _ W) by (pose proof (word_ge W); lia). apply from_bits_ok; lia.
Qed.
Lemma to_uint64_spec x : 0 <= x -> m_to_uint64 x = if x <? 2 ^ 64 then Some x else None.
Proof.
  intros. unfold m_to_uint64, assert_, bind, wrap. pose proof (mod_pow_bound x 64 ltac:(lia)).
  destruct (Z.ltb_spec x (2 ^ 64)).
  - rewrite Z.mod_small, Z.eqb_refl by lia. reflexivity.
  - destruct (Z.eqb_spec x (x mod 2 ^ 64)); [lia|reflexivity].
Qed.

(** ** concat_array *)
Lemma concat_array_ok W xs : 0 <= W -> xs <> [] -> W * Z.of_nat (List.length xs) <= 128 ->
  Forall (fun x => 0 <= x < 2 ^ W) xs -> m_concat_array W xs = Some (number (2 ^ W) (rev xs)).
Proof.
  intros HW Hn Hl Hf. induction xs as [|x xs IH]; [congruence|]. clear Hn.
  inversion Hf as [|? ? Hx Hf']. subst. cbn [m_concat_array]. destruct xs as [|y ys].
  - unfold number. cbn. do 2 f_equal. 
  - cbn [List.length] in Hl, IH. 
    rewrite IH; [|discriminate|rewrite Nat2Z.inj_succ in *; lia|exact Hf']. cbn [bind].
    pose proof (pow2_pos W HW) as Hp.
    assert (B : 0 <= number (2 ^ W) (rev (y :: ys)) < 2 ^ (W * Z.of_nat (List.length (y :: ys)))).
    { rewrite Z.pow_mul_r by lia. rewrite <- (rev_length (y :: ys)). apply number_bound; [lia|].
      apply Forall_rev. exact Hf'. }
    rewrite m_concat_ok; try lia; try (cbn [List.length]; rewrite Nat2Z.inj_succ in *; lia); try exact B.
    change (rev (x :: y :: ys)) with (rev (y :: ys) ++ [x]). unfold number. rewrite fold_left_app. reflexivity.
Qed.

(** ** random_fw_uint *)
Lemma random_impl_ok n : forall W ws rest, 0 <= W <= 128 -> Z.of_nat n = (W + 31) / 32 ->
  List.length ws = n -> Forall (fun w => 0 <= w < 2 ^ 32) ws ->
  random_impl n W (ws ++ rest) = Some (number (2 ^ 32) ws / 2 ^ (32 * Z.of_nat n - W), rest).
Proof.
  induction n as [|n IH]; intros W ws rest HW Hn Hl Hf.
  - destruct ws; [|discriminate]. cbn [random_impl app number fold_left]. rewrite Zdiv_0_l. reflexivity.
  - destruct ws as [|w ws]; [discriminate|]. injection Hl as Hl. inversion Hf as [|? ? Hw Hf']. subst x l.
    cbn [random_impl app]. rewrite Nat2Z.inj_succ in *.
    pose proof (Z.div_mod (W + 31) 32 ltac:(lia)) as Hdm. pose proof (Z.mod_pos_bound (W + 31) 32 ltac:(lia)) as Hmb.
    set (LW := if 32 <=? W then 32 else W).
    set (bits := if LW <? 32 then Z.shiftr w (32 - LW) else w).
    assert (Hlw : 0 <= LW <= 32 /\ LW <= W) by (unfold LW; destruct (Z.leb_spec 32 W); lia).
    assert (Hb : bits = w / 2 ^ (32 - LW)).
    { unfold bits. destruct (Z.ltb_spec LW 32); [apply Z.shiftr_div_pow2; lia|].
      replace (32 - LW) with 0 by lia. rewrite Z.pow_0_r, Z.div_1_r. reflexivity. }
    assert (Hbb : 0 <= bits < 2 ^ LW).
    { rewrite Hb. apply div_pow_lt; try lia. replace (32 - LW + LW) with 32 by lia. lia. }
    rewrite from_bits_ok by lia. cbn [bind].
    rewrite (IH (W - LW) ws rest); try assumption; try lia.
    2:{ unfold LW in *. destruct (Z.leb_spec 32 W).
        - replace (W - 32 + 31) with (W + 31 + (-1) * 32) by lia. rewrite Z.div_add by lia. lia.
        - rewrite Z.sub_diag. change ((0 + 31) / 32) with 0. assert ((W + 31) / 32 < 2) by (apply Z.div_lt_upper_bound; lia). lia. }
    cbn [bind].
    assert (Hnb : 0 <= number (2 ^ 32) ws < 2 ^ (32 * Z.of_nat n)).
    { rewrite Z.pow_mul_r by lia. rewrite <- Hl. apply number_bound; [lia|exact Hf']. }
    assert (Hnn : 0 <= 32 * Z.of_nat n - (W - LW)).
    { unfold LW in *. destruct (Z.leb_spec 32 W); lia. }
    rewrite m_concat_ok; try lia.
    2:{ apply div_pow_lt; try lia. replace (32 * Z.of_nat n - (W - LW) + (W - LW)) with (32 * Z.of_nat n) by lia. exact Hnb. }
    cbn [bind]. f_equal. f_equal. rewrite number_cons by lia. rewrite Hl, <- Z.pow_mul_r by lia. rewrite Hb.
    unfold LW in *. destruct (Z.leb_spec 32 W) as [L|L].
    + rewrite Z.sub_diag, Z.pow_0_r, Z.div_1_r.
      replace (32 * Z.succ (Z.of_nat n) - W) with (32 * Z.of_nat n - (W - 32)) by lia.
      replace (2 ^ (32 * Z.of_nat n)) with (2 ^ (W - 32) * 2 ^ (32 * Z.of_nat n - (W - 32)))
        by (rewrite <- pow2_add by lia; f_equal; lia).
      pose proof (pow2_pos (32 * Z.of_nat n - (W - 32)) ltac:(lia)).
      rewrite Z.mul_assoc, Z.div_add_l by lia. reflexivity.
    + assert (n = O) by (assert ((W + 31) / 32 < 2) by (apply Z.div_lt_upper_bound; lia); lia). subst n.
      destruct ws; [|discriminate]. cbn [number fold_left]. rewrite Zdiv_0_l, Z.sub_diag.
      change (Z.of_nat 0) with 0. rewrite !Z.mul_0_r, Z.pow_0_r. replace (32 * Z.succ 0 - W) with (32 - W) by lia.
      replace (w * 1 + 0) with w by lia. cbn [List.length]. change (Z.of_nat 0) with 0.
      replace (32 * Z.succ 0 - W) with (32 - W) by lia. lia.
Qed.

(** ** lut *)
Lemma fold_lut WD init (l : list nat) : 0 <= WD <= 128 -> (forall i, In i l -> 0 <= init (Z.of_nat i) < 2 ^ WD) ->
  fold_right (fun i acc => do v <- m_of_int WD (init (Z.of_nat i)); do l <- acc; Some (v :: l)) (Some []) l =
  Some (map (fun i => init (Z.of_nat i)) l).
Proof.
  intros HW. induction l as [|i l IH]; intros H; [reflexivity|]. cbn [fold_right map].
  rewrite IH by (intros; apply H; right; assumption). rewrite m_of_int_ok; [reflexivity|lia|]. apply H. left. reflexivity.
Qed.
Lemma lut_ok WD WA init : 0 <= WD <= 128 -> 0 <= WA <= 30 -> (forall i, 0 <= i < 2 ^ WA -> 0 <= init i < 2 ^ WD) ->
  exists t, m_lut WD WA init = Some t /\ forall a, 0 <= a < 2 ^ WA -> m_lut_get t a = Some (init a).
Proof.
  intros HD HA H. eexists. split.
  - apply fold_lut; [lia|]. intros i Hi. apply in_seq in Hi. apply H. pose proof (pow2_pos WA ltac:(lia)). lia.
  - intros a Ha. unfold m_lut_get, m_to_int, assert_, bind. pose proof (pow2_le WA 30 ltac:(lia)).
    destruct (Z.leb_spec a (2 ^ 31 - 1)); [|change (2 ^ 31) with (2 * 2 ^ 30) in *; lia].
    rewrite nth_error_map. erewrite nth_error_nth' with (d := O) by (rewrite seq_length; lia).
    rewrite seq_nth by lia. cbn [option_map]. do 2 f_equal. lia.
Qed.

(** ** thls_ctLog2Ceil *)
Lemma log2ceil_rec_ok n : forall x p, 0 <= x -> 0 <= p -> x < 2 ^ (p + Z.of_nat n) ->
  exists r, ctLog2Ceil_rec (S n) x p = Some r /\ p <= r /\ x < 2 ^ r /\ (p < r -> 2 ^ (r - 1) <= x).
Proof.
  induction n as [|n IH]; intros x p Hx Hp H.
  - exists p. cbn [ctLog2Ceil_rec]. rewrite Z.add_0_r in H. destruct (Z.ltb_spec x (2 ^ p)); [|lia]. repeat split; lia.
  - change (ctLog2Ceil_rec (S (S n)) x p) with (if x <? 2 ^ p then Some p else ctLog2Ceil_rec (S n) x (p + 1)).
    destruct (Z.ltb_spec x (2 ^ p)) as [L|L].
    + exists p. repeat split; lia.
    + destruct (IH x (p + 1)) as (r & E1 & E2 & E3 & E4); try lia.
      { replace (p + 1 + Z.of_nat n) with (p + Z.of_nat (S n)) by lia. exact H. }
      exists r. split; [exact E1|]. split; [lia|]. split; [exact E3|]. intros _.
      destruct (Z.eq_dec r (p + 1)) as [->|]; [replace (p + 1 - 1) with p by lia; lia|apply E4; lia].
Qed.

Lemma dec_not_rejected :
  ~ (forall W s ds, 0 <= W <= 64 -> decdigits s = Some ds -> 2 ^ W <= number 10 ds -> m_of_string W s = None).
Proof.
  intros H. specialize (H 32 "4294967296"%string [4;2;9;4;9;6;7;2;9;6] ltac:(lia) eq_refl).
  assert (E : 2 ^ 32 <= number 10 [4;2;9;4;9;6;7;2;9;6]) by (vm_compute; congruence). specialize (H E).
  vm_compute in H. discriminate.
Qed.
Lemma mpz_round_trip W x : 0 < W <= 128 -> 0 <= x < 2 ^ W -> m_to_mpz W x = x /\ m_of_mpz W (m_to_mpz W x) = Some x.
Proof.
  intros. rewrite to_mpz_ok by lia. split; [reflexivity|]. rewrite of_mpz_spec by lia. rewrite Z.abs_eq by lia.
  destruct (Z.ltb_spec x (2 ^ W)); [reflexivity|lia].
Qed.
Lemma mpz_large W x : 0 < W <= 128 -> 2 ^ W <= x -> m_of_mpz W x = None.
Proof.
  intros. rewrite of_mpz_spec by lia. pose proof (pow2_pos W ltac:(lia)). destruct (Z.ltb_spec (Z.abs x) (2 ^ W)); [lia|reflexivity].
Qed.
Lemma mpz_negative W x : 0 < W <= 128 -> - 2 ^ W < x < 0 -> m_of_mpz W x = Some (- x).
Proof.
  intros. rewrite of_mpz_spec by lia. destruct (Z.ltb_spec (Z.abs x) (2 ^ W)); [|lia]. f_equal. lia.
Qed.
Lemma uint64_spec W x : 0 <= W <= 128 -> 0 <= x < 2 ^ 64 ->
  m_from_uint64 W x = (if x <? 2 ^ W then Some x else None) /\ m_to_uint64 x = Some x.
Proof.
  intros. rewrite from_uint64_spec, to_uint64_spec by lia. destruct (Z.ltb_spec x (2 ^ 64)); [|lia]. split; reflexivity.
Qed.
Lemma random_ok W ws rest : 0 <= W <= 128 -> Z.of_nat (List.length ws) = (W + 31) / 32 ->
  Forall (fun w => 0 <= w < 2 ^ 32) ws ->
  m_random W (ws ++ rest) = Some (number (2 ^ 32) ws / 2 ^ (32 * Z.of_nat (List.length ws) - W), rest).
Proof.
  intros HW Hl Hf. unfold m_random. rewrite <- Hl, Nat2Z.id. apply random_impl_ok; try assumption. reflexivity.
Qed.
Lemma digits_exist b n : 1 < b -> forall v, 0 <= v < b ^ Z.of_nat n ->
  exists ds, List.length ds = n /\ Forall (fun d => 0 <= d < b) ds /\ number b ds = v.
Proof.
  intros Hb. induction n as [|n IH]; intros v Hv.
  - exists []. split; [reflexivity|]. split; [constructor|]. cbn in *. lia.
  - rewrite Nat2Z.inj_succ, Z.pow_succ_r in Hv by lia. pose proof (Z.pow_pos_nonneg b (Z.of_nat n) ltac:(lia) ltac:(lia)).
    destruct (IH (v mod b ^ Z.of_nat n)) as (ds & E1 & E2 & E3); [apply Z.mod_pos_bound; lia|].
    exists (v / b ^ Z.of_nat n :: ds). split; [cbn; lia|]. split.
    + constructor; [|exact E2]. split; [apply Z.div_pos; lia|]. apply Z.div_lt_upper_bound; lia.
    + rewrite number_cons, E1, E3 by lia. pose proof (Z.div_mod v (b ^ Z.of_nat n) ltac:(lia)). lia.
Qed.
Lemma random_onto W v rest : 0 <= W <= 128 -> 0 <= v < 2 ^ W ->
  exists ws, Z.of_nat (List.length ws) = (W + 31) / 32 /\ Forall (fun w => 0 <= w < 2 ^ 32) ws /\
    m_random W (ws ++ rest) = Some (v, rest).
Proof.
  intros HW Hv. set (n := Z.to_nat ((W + 31) / 32)).
  pose proof (Z.div_mod (W + 31) 32 ltac:(lia)) as Hdm. pose proof (Z.mod_pos_bound (W + 31) 32 ltac:(lia)) as Hmb.
  assert (Hq : 0 <= (W + 31) / 32) by (apply Z.div_pos; lia).
  assert (Hn : Z.of_nat n = (W + 31) / 32) by (unfold n; lia).
  assert (Hk : 0 <= 32 * Z.of_nat n - W) by lia.
  pose proof (pow2_pos _ Hk) as Hp.
  destruct (digits_exist (2 ^ 32) n ltac:(lia) (v * 2 ^ (32 * Z.of_nat n - W))) as (ws & E1 & E2 & E3).
  { rewrite <- Z.pow_mul_r by lia. replace (2 ^ (32 * Z.of_nat n)) with (2 ^ W * 2 ^ (32 * Z.of_nat n - W))
      by (rewrite <- pow2_add by lia; f_equal; lia).
    split; [apply Z.mul_nonneg_nonneg; lia|]. apply Z.mul_lt_mono_pos_r; lia. }
  exists ws. rewrite E1. split; [exact Hn|]. split; [exact E2|]. rewrite random_ok by (try assumption; lia).
  rewrite E1, E3, Z.div_mul by lia. reflexivity.
Qed.
Lemma log2ceil_digits n x : 0 <= x < 2 ^ Z.of_nat n ->
  exists r, ctLog2Ceil_rec (S n) x 0 = Some r /\ x < 2 ^ r /\ (0 < r -> 2 ^ (r - 1) <= x).
Proof.
  intros H. destruct (log2ceil_rec_ok n x 0) as (r & E1 & E2 & E3 & E4); try lia; [exact (proj2 H)|].
  exists r. repeat split; assumption.
Qed.
Lemma log2ceil_power k n : 0 <= k < Z.of_nat n -> ctLog2Ceil_rec (S n) (2 ^ k) 0 = Some (k + 1).
Proof.
  intros H. pose proof (pow2_pos k ltac:(lia)). pose proof (pow2_lt k (Z.of_nat n) ltac:(lia) ltac:(lia)).
  destruct (log2ceil_rec_ok n (2 ^ k) 0) as (r & E1 & E2 & E3 & E4); try lia; [rewrite Z.add_0_l; lia|].
  rewrite E1. f_equal. apply Z.pow_lt_mono_r_iff in E3; try lia.
  specialize (E4 ltac:(lia)). apply Z.pow_le_mono_r_iff in E4; lia.
Qed.
