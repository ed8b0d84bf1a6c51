From Coq Require Import ZArith Bool Lia.
From Verif Require Import Fw FwLemmas Spec SpecLemmas Flopoco FlopocoLemmas FlopocoProofs CompareProofs MulProofs AddSingle AddLemmas AddSingleProofs.
Open Scope Z_scope.

(** ** Rounding *)
Lemma bit_eq k x : 0 <= k -> bits k k x = Z.b2z (Z.odd (x / 2 ^ k)).
Proof.
  intros Hk. rewrite bits_eq by lia. replace (k - k + 1) with 1 by lia. change (2 ^ 1) with 2. apply odd_mod2.
Qed.

Lemma low3_zero S : (S mod 8 =? 0) = negb (Z.odd (S / 2 ^ 2) || (Z.odd (S / 2 ^ 1) || Z.odd (S / 2 ^ 0))).
Proof.
  change (2 ^ 2) with 4. change (2 ^ 1) with 2. change (2 ^ 0) with 1. rewrite Z.div_1_r.
  assert (E : S mod 8 = 4 * Z.b2z (Z.odd (S / 4)) + 2 * Z.b2z (Z.odd (S / 2)) + Z.b2z (Z.odd S)).
  { rewrite <- !odd_mod2. replace 4 with (2 * 2) at 2 by reflexivity. rewrite <- (Z.div_div S 2 2) by lia.
    replace 8 with (2 * (2 * 2)) by reflexivity. rewrite Z.rem_mul_r by lia. rewrite Z.rem_mul_r by lia. lia. }
  rewrite E. destruct (Z.odd (S / 4)), (Z.odd (S / 2)), (Z.odd S); reflexivity.
Qed.

Lemma round_bit S : 0 <= S ->
  (S / 8 + (if negb (Z.odd (S / 2 ^ 4)) && Z.odd (S / 2 ^ 3) && (S mod 8 =? 0) then 0 else 1)) / 2 = rne_div S 16.
Proof.
  intros HS. change 16 with (2 ^ 4). rewrite (rne_bits S 4) by lia. change (2 ^ (4 - 1)) with 8. change (2 ^ 4) with 16. change (2 ^ 3) with 8.
  replace (S / 16) with (S / 8 / 2) by (rewrite Z.div_div by lia; reflexivity).
  remember (S / 8) as q. pose proof (Z.div_mod q 2 ltac:(lia)) as E. rewrite odd_mod2 in E.
  remember (q / 2) as h. destruct (Z.odd q) eqn:Ho; cbn [Z.b2z] in E; cbn [andb].
  - destruct (Z.odd h), (S mod 8 =? 0); cbn [negb andb orb];
    (rewrite E; first [ rewrite (Z.add_assoc _ 1 _) || idtac ]);
    match goal with |- ?x / 2 = _ => replace x with (h * 2 + (x - h * 2)) by ring end;
    rewrite Z.div_add_l by lia; f_equal; apply Z.div_unique_exact || idtac.
    all: try (replace (2 * h + 1 + 1 - h * 2) with 2 by ring; reflexivity).
    all: try (replace (2 * h + 1 + 0 - h * 2) with 1 by ring; reflexivity).
    all: try (replace (2 * h + (1 + 1) - h * 2) with 2 by ring; reflexivity).
    all: try (replace (2 * h + (1 + 0) - h * 2) with 1 by ring; reflexivity).
  - rewrite andb_false_r. cbn [andb]. rewrite E.
    replace (2 * h + 0 + 1) with (h * 2 + 1) by ring. rewrite Z.div_add_l by lia. reflexivity.
Qed.

Lemma add_round_ok wE wF e S c i :
  1 <= wE -> 1 <= wF -> 0 <= e < 2 ^ wE -> 0 <= i <= 1 -> i * 2 ^ (wF + 4) <= S < (i + 1) * 2 ^ (wF + 4) ->
  0 <= c < 2 ^ intlog2 (wF + 5) ->
  let R := add_round wE wF e S c in
  0 <= R < 2 ^ (wE + wF + 3) /\
  R / 2 = ((e + 1 - c) * 2 ^ wF + (rne_div S 16 - i * 2 ^ wF)) mod 2 ^ (wE + wF + 2).
Proof.
  intros HE HF He Hi HS Hc R. unfold R, add_round. clear R. destruct (intlog2_spec (wF + 5) ltac:(lia)) as (I1 & I2 & I3).
  rewrite !zpad_hi_eq by lia. rewrite !bit_eq by lia. rewrite bits_eq by lia. replace (wF + 3 - 3 + 1) with (wF + 1) by lia.
  rewrite for_b2z. unfold feq. rewrite !b2z_eqb0, !b2z_eqb1, !fand_b2z.
  assert (Hrb : negb (Z.odd (S / 2 ^ 4)) && Z.odd (S / 2 ^ 3) && negb (Z.odd (S / 2 ^ 2)) && negb (Z.odd (S / 2 ^ 1) || Z.odd (S / 2 ^ 0))
    = negb (Z.odd (S / 2 ^ 4)) && Z.odd (S / 2 ^ 3) && (S mod 8 =? 0)).
  { rewrite low3_zero. rewrite !negb_orb, !andb_assoc. reflexivity. }
  rewrite Hrb. clear Hrb. rewrite select_b2z. pose proof (round_bit S) as HR.
  set (bad := negb (Z.odd (S / 2 ^ 4)) && Z.odd (S / 2 ^ 3) && (S mod 8 =? 0)) in *. clearbody bad.
  assert (Hr : (if bad then zg 1 else og 1) = (if bad then 0 else 1)) by (destruct bad; reflexivity).
  rewrite Hr. clear Hr. set (ab := if bad then 0 else 1) in *.
  assert (A01 : 0 <= ab <= 1) by (unfold ab; destruct bad; lia). clearbody ab. clear bad.
  rewrite fadd_eq, fsub_eq by lia. unfold add_cin.
  assert (E4 : 2 ^ (wF + 4) = 8 * 2 ^ (wF + 1)) by (apply (pow2_shift 3); [reflexivity|lia|lia]).
  assert (E1 : 2 ^ (wF + 1) = 2 * 2 ^ wF) by (apply pow2_S; lia).
  pose proof (pow2_pos wF ltac:(lia)) as PF. change (2 ^ 3) with 8.
  assert (HS0 : 0 <= S) by nia.
  assert (HS8 : i * 2 ^ (wF + 1) <= S / 8 < (i + 1) * 2 ^ (wF + 1)).
  { split; [apply Z.div_le_lower_bound; lia|apply Z.div_lt_upper_bound; lia]. }
  assert (Hm8 : (S / 8) mod 2 ^ (wF + 1) = S / 8 - i * 2 ^ (wF + 1)).
  { symmetry. apply (Z.mod_unique _ _ i); lia. }
  rewrite Hm8. rewrite cat_eq by lia. rewrite fadd_eq by lia. replace (wE + 2 + wF + 1) with (wE + wF + 3) by lia.
  split; [apply mod_pow_bound; lia|].
  assert (EM : 2 ^ (wE + wF + 3) = 2 ^ (wE + 2) * 2 ^ (wF + 1)) by (rewrite <- pow2_add by lia; f_equal; lia).
  assert (EM2 : 2 ^ (wE + wF + 3) = 2 * 2 ^ (wE + wF + 2)) by (rewrite <- pow2_S by lia; f_equal; lia).
  pose proof (pow2_pos (wE + 2) ltac:(lia)) as PE2. pose proof (pow2_pos (wE + wF + 2) ltac:(lia)) as PN.
  assert (Hbig : ((((e + 1) mod 2 ^ (wE + 2) - c) mod 2 ^ (wE + 2)) * 2 ^ (wF + 1) + (S / 8 - i * 2 ^ (wF + 1)) + ab) mod 2 ^ (wE + wF + 3)
     = ((e + 1 - c) * 2 ^ (wF + 1) + (S / 8 - i * 2 ^ (wF + 1)) + ab) mod 2 ^ (wE + wF + 3)).
  { rewrite Zminus_mod_idemp_l. rewrite (Z.mod_eq (e + 1 - c)) by lia. remember ((e + 1 - c) / 2 ^ (wE + 2)) as qq.
    replace ((e + 1 - c - 2 ^ (wE + 2) * qq) * 2 ^ (wF + 1) + (S / 8 - i * 2 ^ (wF + 1)) + ab)
      with ((e + 1 - c) * 2 ^ (wF + 1) + (S / 8 - i * 2 ^ (wF + 1)) + ab + (- qq) * 2 ^ (wE + wF + 3)) by (rewrite EM; ring).
    apply Z.mod_add. rewrite EM2. lia. }
  rewrite Hbig. clear Hbig. rewrite EM2.
  rewrite Z.rem_mul_r by lia. rewrite (Z.mul_comm 2 (_ mod _)), Z.div_add by lia.
  rewrite (Z.div_small (_ mod 2)) by (apply Z.mod_pos_bound; lia). rewrite Z.add_0_l. f_equal.
  rewrite <- HR by lia. rewrite E1.
  replace ((e + 1 - c) * (2 * 2 ^ wF) + (S / 8 - i * (2 * 2 ^ wF)) + ab) with (S / 8 + ab + ((e + 1 - c) * 2 ^ wF - i * 2 ^ wF) * 2) by ring.
  rewrite Z.div_add by lia. lia.
Qed.

(** ** Exception logic and packing *)
Lemma add_final_ok wE wF a s b t (eqd : bool) R :
  1 <= wE -> 1 <= wF -> 0 <= a < 4 -> 0 <= b < 4 -> 0 <= R < 2 ^ (wE + wF + 3) ->
  let code := cat 2 (cat 2 (cat 1 (Z.b2z s) (Z.b2z t)) a) b in
  let rt2 := excRt2_lut (cat 2 (R / 2 ^ (wE + wF + 1)) (excRt_lut code)) in
  let fl := if eqd && xorb s t && (rt2 =? 1) then 0 else rt2 in
  let sg := if eqd && xorb s t && (fl =? 0) then false else if (a =? 0) && (b =? 0) && xorb s t then false else s in
  add_final wE wF code (Z.b2z s) (fxor 1 (Z.b2z s) (Z.b2z t)) (Z.b2z eqd) R =
  fl * 2 ^ (wE + wF + 1) + Z.b2z sg * 2 ^ (wE + wF) + (R / 2) mod 2 ^ (wE + wF).
Proof.
  intros HE HF Ha Hb HR code rt2 fl sg. unfold add_final.
  assert (Hsg : select (for_ 1 (feq code 32) (feq code 16)) (zg 1) (Z.b2z s) = Z.b2z (if (a =? 0) && (b =? 0) && xorb s t then false else s)).
  { unfold code. apply flags_cases in Ha. apply flags_cases in Hb.
    destruct Ha as [->|[->|[->| ->]]], Hb as [->|[->|[->| ->]]], s, t; reflexivity. }
  rewrite Hsg. rewrite !bits_eq by lia. replace (wE + wF + 2 - (wE + wF + 1) + 1) with 2 by lia.
  replace (wF - 1 + 1) with wF by lia. replace (wF + wE - (wF + 1) + 1) with wE by lia. change (2 ^ 1) with 2.
  assert (HU : 0 <= R / 2 ^ (wE + wF + 1) < 2 ^ 2).
  { apply div_pow_lt; try lia. replace (wE + wF + 1 + 2) with (wE + wF + 3) by lia. lia. }
  rewrite (Z.mod_small _ (2 ^ 2)) by lia. fold rt2. rewrite fxor_b2z. unfold feq.
  rewrite !b2z_eqb1, !fand_b2z, !select_b2z.
  assert (Hf : (if eqd && xorb s t && (rt2 =? 1) then zg 2 else rt2) = fl) by reflexivity. rewrite Hf.
  assert (Hs : (if eqd && xorb s t && (fl =? 0) then zg 1 else Z.b2z (if (a =? 0) && (b =? 0) && xorb s t then false else s)) = Z.b2z sg).
  { unfold sg. destruct (eqd && xorb s t && (fl =? 0)); reflexivity. }
  rewrite Hs. clearbody fl sg. clear Hsg Hf Hs rt2 code.
  replace (R / 2 ^ (wF + 1)) with (R / 2 / 2 ^ wF) by (rewrite Z.div_div by (try apply pow2_pos; lia); rewrite pow2_S by lia; reflexivity).
  remember (R / 2) as Q.
  pose proof (mod_pow_bound (Q / 2 ^ wF) wE ltac:(lia)). pose proof (mod_pow_bound Q wF ltac:(lia)).
  rewrite !cat_eq by (try (change (2 ^ 1) with 2; destruct sg; cbn); lia). change (2 ^ 1) with 2.
  assert (EQ : Q mod 2 ^ (wE + wF) = (Q / 2 ^ wF) mod 2 ^ wE * 2 ^ wF + Q mod 2 ^ wF).
  { rewrite (Z.add_comm wE), pow2_add by lia. rewrite Z.rem_mul_r by (try apply Z.pow_nonzero; try apply pow2_pos; lia). ring. }
  rewrite EQ. rewrite (pow2_add wE wF) by lia. rewrite (pow2_S (wE + wF)), (pow2_add wE wF) by lia. ring.
Qed.

(** ** Normalisation *)
Lemma lz_ok wF G : 1 <= wF -> 0 < G < 2 ^ (wF + 5) ->
  exists c, lzoc (wF + 5) (Z.to_nat (intlog2 (wF + 5))) G = Some (G * 2 ^ c, c) /\ 0 <= c < 2 ^ intlog2 (wF + 5) /\
    2 ^ (wF + 4) <= G * 2 ^ c < 2 ^ (wF + 5) /\ c <= wF + 4 /\ feq c (og (intlog2 (wF + 5))) = 0.
Proof.
  intros HF HG. destruct (intlog2_spec (wF + 5) ltac:(lia)) as (I1 & I2 & I3). remember (intlog2 (wF + 5)) as w.
  destruct (lzoc_ok (wF + 5) (Z.to_nat w) G) as (c & L1 & L2 & L3); rewrite ?Z2Nat.id by lia; try lia.
  - pose proof (pow2_le (wF + 5 - 1) (2 ^ w - 1) ltac:(lia)). nia.
  - rewrite Z2Nat.id in L2 by lia. replace (wF + 5 - 1) with (wF + 4) in L3 by lia. exists c.
    assert (Hc : c <= wF + 4).
    { destruct (Z_le_gt_dec c (wF + 4)); [assumption|]. pose proof (pow2_le (wF + 5) c ltac:(lia)). nia. }
    repeat split; try assumption; try lia. rewrite og_eq by lia. unfold feq. rewrite (proj2 (Z.eqb_neq _ _)); [reflexivity|lia].
Qed.

Lemma lz_zero wF : 1 <= wF ->
  lzoc (wF + 5) (Z.to_nat (intlog2 (wF + 5))) 0 = Some (0, 2 ^ intlog2 (wF + 5) - 1) /\
  feq (2 ^ intlog2 (wF + 5) - 1) (og (intlog2 (wF + 5))) = 1.
Proof.
  intros HF. destruct (intlog2_spec (wF + 5) ltac:(lia)) as (I1 & I2 & I3). remember (intlog2 (wF + 5)) as w.
  rewrite lzoc_zero by (rewrite ?Z2Nat.id by lia; lia). rewrite Z2Nat.id by lia. split; [reflexivity|].
  rewrite og_eq by lia. unfold feq. rewrite Z.eqb_refl. reflexivity.
Qed.

(** Everything after the alignment, for a normal larger operand and a nonzero sum. *)
Definition add_tail (wE wF a s b t e G : Z) : option Z :=
  let wC := intlog2 (wF + 5) in
  do lz <- lzoc (wF + 5) (Z.to_nat wC) G;
  let '(shiftedFrac, nZerosNew) := lz in
  Some (add_final wE wF (cat 2 (cat 2 (cat 1 s t) a) b) s (fxor 1 s t) (feq nZerosNew (og wC)) (add_round wE wF e shiftedFrac nZerosNew)).

Definition up_flags (up : Z) : Z := if up =? 0 then 1 else if up =? 1 then 2 else 0.

Lemma exc_normal s t b up : b = 0 \/ b = 1 -> 0 <= up < 4 ->
  excRt2_lut (cat 2 up (excRt_lut (cat 2 (cat 2 (cat 1 (Z.b2z s) (Z.b2z t)) 1) b))) = up_flags up.
Proof.
  intros Hb Hu. apply flags_cases in Hu.
  destruct Hu as [->|[->|[->| ->]]], Hb as [->| ->], s, t; reflexivity.
Qed.

Lemma tail_num wE wF s b t e G : 1 <= wE -> 1 <= wF -> wF + 3 < 2 ^ wE -> 0 <= e < 2 ^ wE -> b = 0 \/ b = 1 -> 0 < G < 2 ^ (wF + 5) ->
  exists r c, add_tail wE wF 1 (Z.b2z s) b (Z.b2z t) e G = Some r /\ wf (wE + wF + 3) r /\ 0 <= c /\
    2 ^ (wF + 4) <= G * 2 ^ c < 2 ^ (wF + 5) /\
    decode wE wF r = finish (emin wE) (emax wE) wF s (norm_me wF (rne_div (G * 2 ^ c) 16) (e + 1 - c - bias wE - wF)).
Proof.
  intros HE HF HEF He Hb HG. unfold add_tail. destruct (lz_ok wF G HF HG) as (c & L1 & L2 & L3 & L4 & L5).
  rewrite L1. cbn [bind]. rewrite L5.
  destruct (add_round_ok wE wF e (G * 2 ^ c) c 1 HE HF He ltac:(lia)) as (R1 & R2); try lia.
  { replace (wF + 5) with (wF + 4 + 1) in L3 by lia. rewrite pow2_S in L3 by lia. lia. }
  cbv zeta in R1, R2. remember (add_round wE wF e (G * 2 ^ c) c) as R eqn:ER. clear ER.
  remember (rne_div (G * 2 ^ c) 16) as m eqn:Em. rewrite Z.mul_1_l in R2.
  assert (E4 : 2 ^ (wF + 4) = 16 * 2 ^ wF) by (apply (pow2_shift 4); [reflexivity|lia|lia]).
  assert (E5 : 2 ^ (wF + 5) = 32 * 2 ^ wF) by (apply (pow2_shift 5); [reflexivity|lia|lia]).
  assert (Hm : 2 ^ wF <= m <= 2 ^ (wF + 1)).
  { rewrite pow2_S by lia. rewrite Em. split; [apply rne_div_lower|apply rne_div_upper]; lia. }
  change 0 with (Z.b2z false) at 1.
  rewrite add_final_ok by (destruct Hb; lia).
  assert (HU : 0 <= R / 2 ^ (wE + wF + 1) < 4).
  { change 4 with (2 ^ 2). apply div_pow_lt; try lia. replace (wE + wF + 1 + 2) with (wE + wF + 3) by lia. lia. }
  rewrite exc_normal by assumption. cbn [andb Z.eqb]. 
  eexists. exists c. split; [reflexivity|].
  assert (Hfl : 0 <= up_flags (R / 2 ^ (wE + wF + 1)) < 4) by (unfold up_flags; destruct (_ =? 0); [lia|]; destruct (_ =? 1); lia).
  assert (Hbd : 0 <= (R / 2) mod 2 ^ (wE + wF) < 2 ^ (wE + wF)) by (apply mod_pow_bound; lia).
  split; [apply fields_bound; lia|]. split; [lia|]. split; [assumption|].
  rewrite <- Em. clear Em. apply pack_decode; try lia.
  - rewrite R2. remember ((e + 1 - c) * 2 ^ wF + (m - 2 ^ wF)) as T. intros HT.
    rewrite (Z.mod_small T (2 ^ (wE + wF + 2))), Z.mod_small; try lia.
    replace (wE + wF + 2) with (wE + wF + 1 + 1) by lia. rewrite !pow2_S by lia. lia.
  - remember ((e + 1 - c) * 2 ^ wF + (m - 2 ^ wF)) as T.
    rewrite pow2_S in Hm by lia. pose proof (pow2_pos wF ltac:(lia)).
    assert (EW : 2 ^ (wE + wF) = 2 ^ wE * 2 ^ wF) by (apply pow2_add; lia).
    pose proof (mod_range_flags T (wE + wF) ltac:(lia)) as HMF. cbv zeta in HMF. destruct HMF as (HB & _).
    { rewrite EW. subst T. assert (2 <= 2 ^ wE) by (change 2 with (2 ^ 1) at 1; apply pow2_le; lia).
      assert (Hu : - 2 ^ wE <= e + 1 - c <= 2 ^ wE) by lia. remember (e + 1 - c) as u. clear - Hu H H0 Hm. nia. }
    rewrite <- R2 in HB. assert (EU : R / 2 / 2 ^ (wE + wF) = R / 2 ^ (wE + wF + 1)).
    { rewrite Z.div_div by (try apply pow2_pos; lia). rewrite pow2_S by lia. reflexivity. }
    rewrite EU in HB. rewrite Z.mod_small in HB by lia. unfold up_flags.
    pose proof (pow2_pos (wE + wF) ltac:(lia)).
    destruct HB as [[HT [-> | ->]]|[[HT ->]|[HT ->]]]; cbn [Z.eqb Pos.eqb];
    destruct (Z.ltb_spec T 0); try lia; destruct (Z.ltb_spec T (2 ^ (wE + wF))); lia.
Qed.

Lemma tail_zero wE wF s t e : 1 <= wE -> 1 <= wF -> wF + 3 < 2 ^ wE -> 0 <= e < 2 ^ wE -> xorb s t = true ->
  exists r, add_tail wE wF 1 (Z.b2z s) 1 (Z.b2z t) e 0 = Some r /\ wf (wE + wF + 3) r /\ decode wE wF r = Zero false.
Proof.
  intros HE HF HEF He Hx. unfold add_tail. destruct (lz_zero wF HF) as (L1 & L2). rewrite L1. cbn [bind]. rewrite L2.
  destruct (intlog2_spec (wF + 5) ltac:(lia)) as (I1 & I2 & I3). remember (intlog2 (wF + 5)) as w.
  assert (Ew : 2 ^ w = 2 * 2 ^ (w - 1)) by (rewrite <- pow2_S by lia; f_equal; lia).
  pose proof (pow2_pos (wF + 4) ltac:(lia)).
  destruct (add_round_ok wE wF e 0 (2 ^ w - 1) 0 HE HF He ltac:(lia)) as (R1 & R2); try (rewrite <- ?Heqw; lia).
  cbv zeta in R1, R2. remember (add_round wE wF e 0 (2 ^ w - 1)) as R eqn:ER. clear ER.
  pose proof (add_final_ok wE wF 1 s 1 t true R HE HF ltac:(lia) ltac:(lia) R1) as HA. cbv zeta in HA. cbn [Z.b2z] in HA. rewrite HA. clear HA.
  assert (HU : 0 <= R / 2 ^ (wE + wF + 1) < 4).
  { change 4 with (2 ^ 2). apply div_pow_lt; try lia. replace (wE + wF + 1 + 2) with (wE + wF + 3) by lia. lia. }
  rewrite exc_normal by (auto || lia). rewrite Hx. cbn [andb Z.eqb].
  assert (Hbd : 0 <= (R / 2) mod 2 ^ (wE + wF) < 2 ^ (wE + wF)) by (apply mod_pow_bound; lia).
  assert (Hup : R / 2 ^ (wE + wF + 1) <> 1).
  { change (rne_div 0 16) with 0 in R2. remember ((e + 1 - (2 ^ w - 1)) * 2 ^ wF + (0 - 0 * 2 ^ wF)) as T.
    pose proof (pow2_pos wF ltac:(lia)). assert (EW : 2 ^ (wE + wF) = 2 ^ wE * 2 ^ wF) by (apply pow2_add; lia).
    assert (Hu : - (2 * 2 ^ wE) <= e + 1 - (2 ^ w - 1) < 2 ^ wE) by lia.
    assert (HT : - (2 * 2 ^ (wE + wF)) <= T < 2 ^ (wE + wF)).
    { rewrite EW. subst T. remember (e + 1 - (2 ^ w - 1)) as u. clear - Hu H0. nia. }
    pose proof (mod_range_flags T (wE + wF) ltac:(lia) ltac:(lia)) as HMF. cbv zeta in HMF. destruct HMF as (HB & _).
    rewrite <- R2 in HB. assert (EU : R / 2 / 2 ^ (wE + wF) = R / 2 ^ (wE + wF + 1)).
    { rewrite Z.div_div by (try apply pow2_pos; lia). rewrite pow2_S by lia. reflexivity. }
    rewrite EU in HB. rewrite Z.mod_small in HB by lia. lia. }
  eexists. split; [reflexivity|]. unfold up_flags.
  destruct (R / 2 ^ (wE + wF + 1) =? 0); [|destruct (Z.eqb_spec (R / 2 ^ (wE + wF + 1)) 1) as [|_]; [contradiction|]];
  cbn [Z.eqb Pos.eqb andb]; (split; [apply (fields_bound wE wF 0 false); lia|]);
  rewrite (decode_fields wE wF 0 false) by lia; reflexivity.
Qed.

(** The aligned sum as a sticky form of the exact one. *)
Lemma div_neg_sticky a K : 0 < K -> 
  (- a) / K = - (a / K) - Z.b2z (negb (a mod K =? 0)) /\ ((- a) mod K =? 0) = (a mod K =? 0).
Proof.
  intros HK. destruct (Z.eqb_spec (a mod K) 0) as [H|H]; cbn [negb Z.b2z].
  - rewrite Z.div_opp_l_z, Z.mod_opp_l_z by lia. split; [lia|reflexivity].
  - rewrite Z.div_opp_l_nz, Z.mod_opp_l_nz by lia. split; [lia|]. apply Z.eqb_neq.
    pose proof (Z.mod_pos_bound a K HK). lia.
Qed.

Lemma grs_sticky M N k (sub : bool) : 0 <= k -> 
  2 * (if sub then 4 * M - 4 * N / 2 ^ k - Z.b2z (negb ((4 * N) mod 2 ^ k =? 0)) else 4 * M + 4 * N / 2 ^ k)
    + Z.b2z (negb ((4 * N) mod 2 ^ k =? 0)) =
  sticky_form (4 * (if sub then M * 2 ^ k - N else M * 2 ^ k + N)) (2 ^ k).
Proof.
  intros Hk. pose proof (pow2_pos k Hk) as PK. unfold sticky_form. destruct sub.
  - destruct (div_neg_sticky (4 * N) (2 ^ k) PK) as (D1 & D2).
    replace (4 * (M * 2 ^ k - N)) with (- (4 * N) + 4 * M * 2 ^ k) by ring.
    rewrite Z.div_add, Z.mod_add, D1, D2 by lia. lia.
  - replace (4 * (M * 2 ^ k + N)) with (4 * N + 4 * M * 2 ^ k) by ring.
    rewrite Z.div_add, Z.mod_add by lia. lia.
Qed.

Lemma sticky_pos V K : 0 < K -> 0 < V -> 0 < sticky_form V K.
Proof.
  intros HK HV. unfold sticky_form. pose proof (Z.div_mod V K ltac:(lia)). pose proof (Z.div_pos V K ltac:(lia) HK).
  destruct (Z.eqb_spec (V mod K) 0); cbn [negb Z.b2z]; nia.
Qed.

Lemma sticky_zero K : 0 < K -> sticky_form 0 K = 0.
Proof. intros. unfold sticky_form. rewrite Z.div_0_l, Z.mod_0_l by lia. reflexivity. Qed.

Lemma sticky_lt V K n : 0 < K -> 1 <= n -> V < 2 ^ (n - 1) * K -> sticky_form V K < 2 ^ n.
Proof.
  intros HK Hn HV. destruct (Z.lt_ge_cases (sticky_form V K) (2 ^ n)) as [|H]; [assumption|].
  apply sticky_le in H; lia.
Qed.

(** The tail rounds the exact value V * 2^-d whose sticky form it gets. *)
Lemma tail_rounds wE wF s b t e V d :
  1 <= wE -> 1 <= wF -> wF + 3 < 2 ^ wE -> 0 <= e < 2 ^ wE -> b = 0 \/ b = 1 -> 0 <= d ->
  0 < V < 4 * 2 ^ wF * 2 ^ d -> ((4 * V) mod 2 ^ d <> 0 -> 6 * 2 ^ wF <= sticky_form (4 * V) (2 ^ d)) ->
  exists r, add_tail wE wF 1 (Z.b2z s) b (Z.b2z t) e (sticky_form (4 * V) (2 ^ d)) = Some r /\ wf (wE + wF + 3) r /\
    decode wE wF r = round_to wE wF s V 1 (e - d - bias wE - wF).
Proof.
  intros HE HF HEF He Hb Hd HV Hst. pose proof (pow2_pos d Hd) as PD. pose proof (pow2_pos wF ltac:(lia)) as PF.
  assert (E4 : 2 ^ (wF + 4) = 16 * 2 ^ wF) by (apply (pow2_shift 4); [reflexivity|lia|lia]).
  assert (E5 : 2 ^ (wF + 5) = 32 * 2 ^ wF) by (apply (pow2_shift 5); [reflexivity|lia|lia]).
  assert (HG : 0 < sticky_form (4 * V) (2 ^ d) < 2 ^ (wF + 5)).
  { split; [apply sticky_pos; lia|]. apply sticky_lt; try lia. replace (wF + 5 - 1) with (wF + 4) by lia. rewrite E4. lia. }
  destruct (tail_num wE wF s b t e _ HE HF HEF He Hb HG) as (r & c & T1 & T2 & T3 & T4 & T5).
  exists r. split; [exact T1|]. split; [exact T2|]. rewrite T5.
  assert (Hc2 : (4 * V) mod 2 ^ d <> 0 -> c <= 2).
  { intros Hn. specialize (Hst Hn). destruct (Z_le_gt_dec c 2); [assumption|].
    pose proof (pow2_le 3 c ltac:(lia)) as H8. change (2 ^ 3) with 8 in H8. nia. }
  destruct (norm_round wF V (2 ^ d) _ c HF PD eq_refl T3 T4 Hc2) as (N1 & N2).
  rewrite N1. symmetry. replace (e + 1 - c - bias wE - wF) with (e - d - bias wE - wF + d + 1 - c) by ring.
  apply round_to_norm; try lia.
Qed.

(** Exact shift: every sum of two aligned significands. *)
Lemma tail_sum wE wF s t e M N d :
  1 <= wE -> 1 <= wF -> wF + 3 < 2 ^ wE -> 0 <= e < 2 ^ wE -> 0 <= d ->
  2 ^ wF <= M < 2 * 2 ^ wF -> 2 ^ wF <= N < 2 * 2 ^ wF -> (d = 0 -> N <= M) ->
  let V := if xorb s t then M * 2 ^ d - N else M * 2 ^ d + N in
  exists r, add_tail wE wF 1 (Z.b2z s) 1 (Z.b2z t) e (sticky_form (4 * V) (2 ^ d)) = Some r /\ wf (wE + wF + 3) r /\
    decode wE wF r = if V =? 0 then Zero false else round_to wE wF s V 1 (e - d - bias wE - wF).
Proof.
  intros HE HF HEF He Hd HM HN HMN V. pose proof (pow2_pos d Hd) as PD. pose proof (pow2_pos wF ltac:(lia)) as PF.
  assert (D2 : d <> 0 -> 2 <= 2 ^ d) by (intros; change 2 with (2 ^ 1) at 1; apply pow2_le; lia).
  assert (HV : 0 <= V < 4 * 2 ^ wF * 2 ^ d).
  { unfold V. destruct (Z.eq_dec d 0) as [->|Hn].
    - rewrite Z.pow_0_r. specialize (HMN eq_refl). destruct (xorb s t); lia.
    - specialize (D2 Hn). destruct (xorb s t); nia. }
  destruct (Z.eqb_spec V 0) as [V0|V0].
  - rewrite V0, Z.mul_0_r, sticky_zero by lia. apply tail_zero; try assumption.
    destruct (xorb s t) eqn:Hx; [reflexivity|]. unfold V in V0. nia.
  - apply tail_rounds; try lia. intros Hn.
    assert (Hd3 : 3 <= d).
    { destruct (Z_le_gt_dec 3 d); [assumption|]. exfalso. apply Hn. apply Z.mod_divide; [lia|].
      assert (Hc : d = 0 \/ d = 1 \/ d = 2) by lia.
      destruct Hc as [-> | [-> | ->]]; [exists (4 * V)|exists (2 * V)|exists V];
      [change (2 ^ 0) with 1|change (2 ^ 1) with 2|change (2 ^ 2) with 4]; ring. }
    pose proof (pow2_le 3 d ltac:(lia)) as H8. change (2 ^ 3) with 8 in H8.
    assert (Hlow : 3 * 2 ^ wF * 2 ^ d <= 4 * V).
    { unfold V. remember (2 ^ d) as D. destruct (xorb s t); nia. }
    unfold sticky_form. assert (3 * 2 ^ wF <= 4 * V / 2 ^ d) by (apply Z.div_le_lower_bound; lia).
    destruct (negb _); cbn [Z.b2z]; lia.
Qed.

Lemma to_int_ok x : x < 2 ^ 31 -> to_int x = Some x.
Proof. intros H. unfold to_int. destruct (Z.leb_spec x (2 ^ 31 - 1)); [reflexivity|lia]. Qed.

Lemma tail_any wE wF a s b t e G : 1 <= wE -> 1 <= wF -> 0 <= e < 2 ^ wE -> 0 <= G < 2 ^ (wF + 5) ->
  exists eqd R, 0 <= R < 2 ^ (wE + wF + 3) /\
    add_tail wE wF a s b t e G =
    Some (add_final wE wF (cat 2 (cat 2 (cat 1 s t) a) b) s (fxor 1 s t) (Z.b2z eqd) R).
Proof.
  intros HE HF He HG. unfold add_tail. destruct (Z.eq_dec G 0) as [->|Hn].
  - destruct (lz_zero wF HF) as (L1 & L2). rewrite L1. cbn [bind]. rewrite L2.
    destruct (intlog2_spec (wF + 5) ltac:(lia)) as (I1 & I2 & I3).
    pose proof (pow2_pos (wF + 4) ltac:(lia)).
    destruct (add_round_ok wE wF e 0 (2 ^ intlog2 (wF + 5) - 1) 0 HE HF He ltac:(lia)) as (R1 & _); try lia.
    exists true. eexists. split; [exact R1|reflexivity].
  - destruct (lz_ok wF G HF ltac:(lia)) as (c & L1 & L2 & L3 & L4 & L5). rewrite L1. cbn [bind]. rewrite L5.
    destruct (add_round_ok wE wF e (G * 2 ^ c) c 1 HE HF He ltac:(lia)) as (R1 & _); try lia.
    { replace (wF + 5) with (wF + 4 + 1) in L3 by lia. rewrite pow2_S in L3 by lia. lia. }
    exists false. eexists. split; [exact R1|reflexivity].
Qed.

(** Larger operand not a normal number. *)
Lemma tail_special wE wF a s b t e G :
  1 <= wE -> 1 <= wF -> 0 <= e < 2 ^ wE -> 0 <= G < 2 ^ (wF + 5) -> 0 <= b <= a -> a < 4 -> a <> 1 ->
  forall mx ex my ey,
  exists r, add_tail wE wF a (Z.b2z s) b (Z.b2z t) e G = Some r /\ wf (wE + wF + 3) r /\
    decode wE wF r = add_spec wE wF
      (if a =? 0 then Zero s else if a =? 1 then Num s mx ex else if a =? 2 then Inf s else NaN)
      (if b =? 0 then Zero t else if b =? 1 then Num t my ey else if b =? 2 then Inf t else NaN).
Proof.
  intros HE HF He HG Hb Ha Ha1 mx ex my ey.
  destruct (tail_any wE wF a (Z.b2z s) b (Z.b2z t) e G HE HF He HG) as (eqd & R & R1 & R2).
  rewrite R2. rewrite add_final_ok by lia.
  assert (HU : 0 <= R / 2 ^ (wE + wF + 1) < 4).
  { change 4 with (2 ^ 2). apply div_pow_lt; try lia. replace (wE + wF + 1 + 2) with (wE + wF + 3) by lia. lia. }
  remember (R / 2 ^ (wE + wF + 1)) as up. clear Hequp.
  assert (Hbd : 0 <= (R / 2) mod 2 ^ (wE + wF) < 2 ^ (wE + wF)) by (apply mod_pow_bound; lia).
  eexists. split; [reflexivity|]. remember ((R / 2) mod 2 ^ (wE + wF)) as body. clear Heqbody R2 R1.
  apply flags_cases in HU.
  assert (Hab : (a = 0 /\ b = 0) \/ (a = 2 /\ b = 0) \/ (a = 2 /\ b = 1) \/ (a = 2 /\ b = 2) \/
    (a = 3 /\ b = 0) \/ (a = 3 /\ b = 1) \/ (a = 3 /\ b = 2) \/ (a = 3 /\ b = 3)) by lia.
  assert (Hrt : excRt2_lut (cat 2 up (excRt_lut (cat 2 (cat 2 (cat 1 (Z.b2z s) (Z.b2z t)) a) b)))
    = if a =? 0 then 0 else if a =? 2 then if (b =? 2) && xorb s t then 3 else 2 else 3).
  { destruct HU as [->|[->|[->| ->]]]; destruct Hab as [[-> ->]|[[-> ->]|[[-> ->]|[[-> ->]|[[-> ->]|[[-> ->]|[[-> ->]|[-> ->]]]]]]]];
    destruct s, t; reflexivity. }
  rewrite Hrt. clear Hrt HU.
  destruct Hab as [[-> ->]|[[-> ->]|[[-> ->]|[[-> ->]|[[-> ->]|[[-> ->]|[[-> ->]|[-> ->]]]]]]]];
  destruct s, t, eqd; cbn [Z.eqb Pos.eqb andb xorb];
  (split; [apply fields_bound; lia|rewrite decode_fields by lia; reflexivity]).
Qed.

Lemma core_tail wE wF a s e f b t g h :
  okf wE wF a e f -> okf wE wF b g h -> wF + 3 < 2 ^ wE -> 2 ^ wE <> 2 * (wF + 3) -> 2 * wF + 4 < 2 ^ 31 ->
  let M := 2 ^ wF + f in let N := if b =? 0 then 0 else 2 ^ wF + h in
  exists k, 0 <= k <= 2 * wF + 3 /\
    (g <= e -> (k = e - g /\ (2 * (wF + 3) < 2 ^ wE -> e - g < wF + 2)) \/ (k = wF + 3 /\ wF + 2 <= e - g /\ 2 * (wF + 3) < 2 ^ wE)) /\
    let q := 4 * N / 2 ^ k in let st := Z.b2z (negb ((4 * N) mod 2 ^ k =? 0)) in
    core_of wE wF (pack wE wF a s e f) (pack wE wF b t g h) =
    add_tail wE wF a (Z.b2z s) b (Z.b2z t) e (2 * (if xorb s t then (4 * M - q - st) mod 2 ^ (wF + 4) else 4 * M + q) + st).
Proof.
  intros HX HY H1 H2 H31 M N. unfold core_of.
  rewrite !get_flags_pack, !get_sign_pack, !get_exp_pack, !get_frac_pack by assumption.
  destruct HX as (HE & HF & Ha & He & Hf). destruct HY as (_ & _ & Hb & Hg & Hh). unfold add_core.
  rewrite !zpad_hi_eq by lia. rewrite fsub_eq by lia. pose proof (pow2_pos wE ltac:(lia)) as PE.
  assert (E1 : 2 ^ (wE + 1) = 2 * 2 ^ wE) by (apply pow2_S; lia).
  destruct (shiftVal_ok wE wF ((e - g) mod 2 ^ (wE + 1)) HF H1 H2 HE ltac:(apply mod_pow_bound; lia)) as (k & K1 & K2 & K3).
  exists k. split; [exact K2|]. split.
  { intros Hge. rewrite Z.mod_small in K3 by lia. specialize (K3 ltac:(lia)). exact K3. }
  rewrite K1. cbn [bind]. rewrite to_int_ok by lia. cbn [bind]. rewrite fxor_b2z.
  assert (HN : (select (feq b 0) (zg (wF + 1)) (opad_hi 1 wF h)) = N).
  { unfold N, feq. rewrite select_b2z. destruct (b =? 0); [reflexivity|]. rewrite opad_hi_eq by lia. 
    change (2 ^ 1) with 2. ring. }
  rewrite HN. pose proof (pow2_pos wF ltac:(lia)) as PF. assert (EF : 2 ^ (wF + 1) = 2 * 2 ^ wF) by (apply pow2_S; lia).
  rewrite (grs_ok wF f N (xorb s t) k HF Hf K2) by (unfold N; destruct (b =? 0); lia).
  cbn [bind]. unfold add_tail. rewrite fxor_b2z. reflexivity.
Qed.
