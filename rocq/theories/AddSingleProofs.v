(** Proofs about add_single. *)
From Coq Require Import ZArith Bool Lia.
From Verif Require Import Fw FwLemmas Spec SpecLemmas Flopoco FlopocoLemmas FlopocoProofs CompareProofs MulProofs AddSingle AddLemmas.
Open Scope Z_scope.

(** The datapath after the swap, in terms of the fields of newX and newY. *)
Definition add_shiftVal (wE wF expDiff : Z) : option Z :=
  let s := intlog2 (wF + 3) in
  if s <? wE then
    do lo <- get_bits (wE + 1) (s - 1) 0 expDiff;
    do big <- of_int s (wF + 3);
    checked_cast s s (select (feq (fge expDiff (wF + 2)) 0) lo big)
  else if wE =? s then
    do lo <- get_bits (wE + 1) (s - 1) 0 expDiff;
    checked_cast s s lo
  else checked_cast s (s - wE + (wE + 1)) (cat (wE + 1) (zg (s - wE)) expDiff).

Definition add_grs (wF fracX fracY EffSub sh : Z) : option Z :=
  do shiftedFracY <- fshr (2 * wF + 4) (zpad_lo (wF + 3) (wF + 1) fracY) sh;
  let sticky := fne (bits wF 0 shiftedFracY) 0 in
  let fracYfar := zpad_hi 1 (wF + 3) (bits (2 * wF + 3) (wF + 1) shiftedFracY) in
  let EffSubVector := select EffSub (og (wF + 4)) (zg (wF + 4)) in
  let fracYfarXorOp := fxor (wF + 4) fracYfar EffSubVector in
  let fracXfar := cat 2 (cat wF 1 fracX) (zg 2) in
  let cInAddFar := fand EffSub (fnot 1 sticky) in
  Some (cat 1 (add_with_cin (wF + 4) fracXfar fracYfarXorOp cInAddFar) sticky).

Definition add_round (wE wF expX shiftedFrac nZerosNew : Z) : Z :=
  let extendedExpInc := fadd (wE + 2) (zpad_hi 2 wE expX) 1 in
  let wC := intlog2 (wF + 5) in
  let updatedExp := fsub (wE + 2) extendedExpInc (zpad_hi (wE + 2 - wC) wC nZerosNew) in
  let expFrac := cat (wF + 1) updatedExp (bits (wF + 3) 3 shiftedFrac) in
  let stk := for_ 1 (bits 1 1 shiftedFrac) (bits 0 0 shiftedFrac) in
  let rnd := bits 2 2 shiftedFrac in
  let grd := bits 3 3 shiftedFrac in
  let lsb := bits 4 4 shiftedFrac in
  let addToRoundBit :=
    select (fand (fand (fand (feq lsb 0) (feq grd 1)) (feq rnd 0)) (feq stk 0)) (zg 1) (og 1) in
  add_cin (wE + 2 + wF + 1) expFrac addToRoundBit.

Definition add_final (wE wF sXsYExnXY signX EffSub eqdiffsign RoundedExpFrac : Z) : Z :=
  let excRt := excRt_lut sXsYExnXY in
  let signR := select (for_ 1 (feq sXsYExnXY 32) (feq sXsYExnXY 16)) (zg 1) signX in
  let upExc := bits (wE + wF + 2) (wE + wF + 1) RoundedExpFrac in
  let fracR := bits wF 1 RoundedExpFrac in
  let expR := bits (wF + wE) (wF + 1) RoundedExpFrac in
  let excRt2 := excRt2_lut (cat 2 upExc excRt) in
  let excR := select (fand (fand (feq eqdiffsign 1) (feq EffSub 1)) (feq excRt2 1)) (zg 2) excRt2 in
  let signR2 := select (fand (fand (feq eqdiffsign 1) (feq EffSub 1)) (feq excR 0)) (zg 1) signR in
  cat wF (cat wE (cat 1 excR signR2) expR) fracR.

Definition add_core (wE wF excX signX expX fracX excY signY expY fracYf : Z) : option Z :=
  let EffSub := fxor 1 signX signY in
  let sXsYExnXY := cat 2 (cat 2 (cat 1 signX signY) excX) excY in
  let fracY := select (feq excY 0) (zg (wF + 1)) (opad_hi 1 wF fracYf) in
  let expDiff := fsub (wE + 1) (zpad_hi 1 wE expX) (zpad_hi 1 wE expY) in
  do shiftVal <- add_shiftVal wE wF expDiff;
  do sh <- to_int shiftVal;
  do fracGRS <- add_grs wF fracX fracY EffSub sh;
  let wC := intlog2 (wF + 5) in
  do lz <- lzoc (wF + 5) (Z.to_nat wC) fracGRS;
  let '(shiftedFrac, nZerosNew) := lz in
  Some (add_final wE wF sXsYExnXY signX EffSub (feq nZerosNew (og wC)) (add_round wE wF expX shiftedFrac nZerosNew)).

Definition core_of (wE wF X Y : Z) : option Z :=
  add_core wE wF (get_flags wE wF X) (get_sign wE wF X) (get_exp wE wF X) (get_frac wE wF X)
    (get_flags wE wF Y) (get_sign wE wF Y) (get_exp wE wF Y) (get_frac wE wF Y).

Lemma bind_ext {A B} (a a' : option A) (f g : A -> option B) :
  a = a' -> (forall x, f x = g x) -> bind a f = bind a' g.
Proof. intros -> H. destruct a'; cbn; auto. Qed.
Lemma bind_assoc {A B C} (a : option A) (f : A -> option B) (g : B -> option C) :
  bind (bind a f) g = bind a (fun x => bind (f x) g).
Proof. destruct a; reflexivity. Qed.

Lemma body_core wE wF X Y :
  add_single_body wE wF X Y =
  if get_flags_exp_frac wE wF X <? get_flags_exp_frac wE wF Y then core_of wE wF Y X else core_of wE wF X Y.
Proof.
  unfold add_single_body, core_of, add_core, add_grs, add_shiftVal.
  unfold get_flags_exp_frac, get_flags, get_exp_frac, get_sign, get_exp, get_frac, flt.
  destruct (cat _ _ _ <? cat _ _ _); cbn [Z.b2z feq Z.eqb Pos.eqb select to_bool];
  (apply bind_ext; [reflexivity|intros sv]); (apply bind_ext; [reflexivity|intros sh]);
  rewrite bind_assoc; (apply bind_ext; [reflexivity|intros p]); reflexivity.
Qed.

Lemma pow2_shift j c n m : 2 ^ j = c -> 0 <= j -> 0 <= m /\ n = m + j -> 2 ^ n = c * 2 ^ m.
Proof. intros <- Hj [Hm ->]. rewrite pow2_add by lia. ring. Qed.

Ltac b01 b := assert (0 <= Z.b2z b <= 1) by (destruct b; cbn; lia).

(** ** Shift amount *)
Lemma shiftVal_ok wE wF ed :
  1 <= wF -> wF + 3 < 2 ^ wE -> 2 ^ wE <> 2 * (wF + 3) -> 1 <= wE -> 0 <= ed < 2 ^ (wE + 1) ->
  exists k, add_shiftVal wE wF ed = Some k /\ 0 <= k <= 2 * wF + 3 /\
    (ed < 2 ^ wE -> (k = ed /\ (2 * (wF + 3) < 2 ^ wE -> ed < wF + 2)) \/ (k = wF + 3 /\ wF + 2 <= ed /\ 2 * (wF + 3) < 2 ^ wE)).
Proof.
  intros HF H1 H2 HE Hed. unfold add_shiftVal. destruct (intlog2_spec (wF + 3) ltac:(lia)) as (S1 & S2 & S3).
  remember (intlog2 (wF + 3)) as s.
  assert (Es : 2 ^ s = 2 * 2 ^ (s - 1)) by (rewrite <- pow2_S by lia; f_equal; lia).
  destruct (Z.ltb_spec s wE) as [Hlt|Hge].
  - rewrite (get_bits_w (wE + 1) (s - 1) 0 s) by lia. cbn [bind]. rewrite Z.pow_0_r, Z.div_1_r.
    rewrite of_int_ok by lia. cbn [bind]. assert (Hle : 2 * 2 ^ s <= 2 ^ wE).
    { rewrite <- pow2_S by lia. apply pow2_le; lia. }
    unfold fge. destruct (Z.leb_spec (wF + 2) ed) as [Hbig|Hsm].
    + cbn [Z.b2z feq Z.eqb Pos.eqb select to_bool]. rewrite checked_cast_ok by lia.
      exists (wF + 3). split; [reflexivity|]. split; [lia|]. intros. right. lia.
    + cbn [Z.b2z feq Z.eqb Pos.eqb select to_bool]. rewrite Z.mod_small by lia. rewrite checked_cast_ok by lia.
      exists ed. split; [reflexivity|]. split; [lia|]. intros. left. lia.
  - destruct (Z.eqb_spec wE s) as [->|Hne].
    + rewrite (get_bits_w (s + 1) (s - 1) 0 s) by lia. cbn [bind]. rewrite Z.pow_0_r, Z.div_1_r.
      pose proof (mod_pow_bound ed s ltac:(lia)) as Hm. rewrite checked_cast_ok by lia.
      exists (ed mod 2 ^ s). split; [reflexivity|]. split; [lia|]. intros. left. split; [apply Z.mod_small|]; lia.
    + exfalso. assert (2 ^ wE <= 2 ^ (s - 1)) by (apply pow2_le; lia). lia.
Qed.

(** ** The aligned sum *)
Lemma shift_far wF N k : 1 <= wF -> 0 <= k <= 2 * wF + 3 -> 0 <= N < 2 ^ (wF + 1) -> (N <> 0 -> 2 ^ wF <= N) ->
  let P := N * 2 ^ (wF + 3) / 2 ^ k in
  0 <= P < 2 ^ (2 * wF + 4) /\ P / 2 ^ (wF + 1) = 4 * N / 2 ^ k /\
  (P mod 2 ^ (wF + 1) =? 0) = ((4 * N) mod 2 ^ k =? 0).
Proof.
  intros HF Hk HN HN0 P.
  pose proof (pow2_pos k ltac:(lia)) as PK. pose proof (pow2_pos (wF + 1) ltac:(lia)) as P1.
  assert (E3 : 2 ^ (wF + 3) = 4 * 2 ^ (wF + 1)) by (apply (pow2_shift 2); [reflexivity|lia|lia]).
  assert (E4 : 2 ^ (2 * wF + 4) = 2 ^ (wF + 1) * 2 ^ (wF + 3)) by (rewrite <- pow2_add by lia; f_equal; lia).
  assert (EN : N * 2 ^ (wF + 3) = (4 * N) * 2 ^ (wF + 1)) by (rewrite E3; ring).
  split; [|split].
  - unfold P. split; [apply Z.div_pos; nia|]. apply Z.div_lt_upper_bound; [lia|]. rewrite E4. nia.
  - unfold P. rewrite Z.div_div by lia. rewrite EN, Z.div_mul_cancel_r by lia. reflexivity.
  - destruct (Z.le_gt_cases k (wF + 3)) as [Hle|Hgt].
    + destruct (Z.le_gt_cases k (wF + 1)) as [Hle1|Hgt1].
      * unfold P. assert (E1 : 2 ^ (wF + 1) = 2 ^ (wF + 1 - k) * 2 ^ k) by (rewrite <- pow2_add by lia; f_equal; lia).
        assert (EP : N * 2 ^ (wF + 3) / 2 ^ k = 4 * N * 2 ^ (wF + 1 - k)).
        { rewrite EN, E1, Z.mul_assoc, Z.div_mul by lia. reflexivity. }
        rewrite EP, E1. pose proof (pow2_pos (wF + 1 - k) ltac:(lia)) as PQ.
        rewrite (Z.mul_comm (4 * N)), Z.mul_mod_distr_l by lia.
        destruct (Z.eqb_spec ((4 * N) mod 2 ^ k) 0) as [->|]; [rewrite Z.mul_0_r; reflexivity|]. apply Z.eqb_neq. nia.
      * unfold P. assert (E1 : 2 ^ k = 2 ^ (k - (wF + 1)) * 2 ^ (wF + 1)) by (rewrite <- pow2_add by lia; f_equal; lia).
        rewrite EN, E1, Z.div_mul_cancel_r by (try apply Z.pow_nonzero; lia).
        assert (Hj : k - (wF + 1) = 1 \/ k - (wF + 1) = 2) by lia.
        set (K := 2 ^ (wF + 1)) in *.
        assert (EQ : 4 * N / 2 ^ (k - (wF + 1)) * 2 ^ (k - (wF + 1)) = 4 * N).
        { destruct Hj as [-> | ->]; [change (2 ^ 1) with 2; replace (4 * N) with (2 * N * 2) by ring|change (2 ^ 2) with 4; replace (4 * N) with (N * 4) by ring]; rewrite Z.div_mul by lia; reflexivity. }
        set (q := 4 * N / 2 ^ (k - (wF + 1))) in *. pose proof (pow2_pos (k - (wF + 1)) ltac:(lia)) as PJ.
        rewrite <- EQ. rewrite (Z.mul_comm q), Z.mul_mod_distr_l by lia.
        destruct (Z.eqb_spec (q mod K) 0) as [->|]; [rewrite Z.mul_0_r; reflexivity|]. symmetry. apply Z.eqb_neq. nia.
    + assert (Hbig : 2 ^ (wF + 4) <= 2 ^ k) by (apply pow2_le; lia).
      assert (E4' : 2 ^ (wF + 4) = 8 * 2 ^ (wF + 1)) by (apply (pow2_shift 3); [reflexivity|lia|lia]).
      rewrite (Z.mod_small (4 * N)) by lia.
      destruct (Z.eq_dec N 0) as [->|Hn].
      * unfold P. rewrite Z.mul_0_l, Z.div_0_l, Z.mod_0_l by lia. reflexivity.
      * specialize (HN0 Hn). destruct (Z.eqb_spec (4 * N) 0); [lia|]. apply Z.eqb_neq.
        assert (Hs : P < 2 ^ (wF + 1)).
        { unfold P. apply Z.div_lt_upper_bound; [lia|]. rewrite EN. nia. }
        assert (Hp : 1 <= P).
        { unfold P. apply Z.div_le_lower_bound; [lia|].
          assert (2 ^ k <= 2 ^ (wF + (wF + 3))) by (apply pow2_le; lia). rewrite pow2_add in H by lia.
          pose proof (pow2_pos (wF + 3) ltac:(lia)). nia. }
        rewrite Z.mod_small by lia. lia.
Qed.

Lemma grs_ok wF f N (sub : bool) k :
  1 <= wF -> 0 <= f < 2 ^ wF -> 0 <= k <= 2 * wF + 3 -> 0 <= N < 2 ^ (wF + 1) -> (N <> 0 -> 2 ^ wF <= N) ->
  let M := 2 ^ wF + f in let q := 4 * N / 2 ^ k in let st := Z.b2z (negb ((4 * N) mod 2 ^ k =? 0)) in
  add_grs wF f N (Z.b2z sub) k =
  Some (2 * (if sub then (4 * M - q - st) mod 2 ^ (wF + 4) else 4 * M + q) + st).
Proof.
  intros HF Hf Hk HN HN0 M q st. unfold add_grs.
  destruct (shift_far wF N k HF Hk HN HN0) as (HP & HQ & HS). cbv zeta in HP, HQ, HS.
  assert (HNb : 0 <= N * 2 ^ (wF + 3) < 2 ^ (2 * wF + 4)).
  { replace (2 * wF + 4) with (wF + 1 + (wF + 3)) by lia. rewrite (pow2_add (wF + 1)) by lia. pose proof (pow2_pos (wF + 3) ltac:(lia)). nia. }
  rewrite zpad_lo_eq by lia. rewrite fshr_ok by lia. cbn [bind].
  remember (N * 2 ^ (wF + 3) / 2 ^ k) as P.
  rewrite !bits_eq by lia. rewrite Z.pow_0_r, Z.div_1_r. replace (wF - 0 + 1) with (wF + 1) by lia.
  replace (2 * wF + 3 - (wF + 1) + 1) with (wF + 3) by lia.
  assert (Hpb : 0 <= P / 2 ^ (wF + 1) < 2 ^ (wF + 3)).
  { apply div_pow_lt; try lia. replace (wF + 1 + (wF + 3)) with (2 * wF + 4) by lia. lia. }
  rewrite (Z.mod_small (P / _)) by lia. rewrite zpad_hi_eq by lia.
  unfold fne. rewrite HS. fold st. rewrite HQ in *. fold q in Hpb. fold q. fold q in HQ.
  assert (E3 : 2 ^ (wF + 3) = 8 * 2 ^ wF) by (apply (pow2_shift 3); [reflexivity|lia|lia]).
  assert (E4 : 2 ^ (wF + 4) = 16 * 2 ^ wF) by (apply (pow2_shift 4); [reflexivity|lia|lia]).
  rewrite (cat_eq 2) by (unfold zg; lia). rewrite (cat_eq wF) by lia. unfold zg. rewrite Z.mul_1_l, Z.add_0_r.
  fold M. change (2 ^ 2) with 4. set (sb := negb _) in st. assert (S01 : 0 <= st <= 1) by (unfold st; destruct sb; cbn; lia).
  assert (HX : fxor (wF + 4) q (select (Z.b2z sub) (og (wF + 4)) 0) = if sub then 2 ^ (wF + 4) - 1 - q else q).
  { rewrite select_b2z. unfold fxor. destruct sub.
    - rewrite og_eq by lia. replace (2 ^ (wF + 4) - 1) with (mask (wF + 4)) at 1 by (rewrite mask_pow; lia).
      change (Z.lxor q (mask (wF + 4))) with (fnot (wF + 4) q). rewrite fnot_eq by lia. apply land_mask_id; lia.
    - rewrite Z.lxor_0_r. apply land_mask_id; lia. }
  rewrite HX. unfold st. rewrite fnot_b2z, fand_b2z. unfold add_with_cin.
  rewrite zpad_hi_eq by (change (2 ^ 1) with 2; destruct sub, sb; cbn; lia). rewrite !fadd_eq by lia.
  rewrite Zplus_mod_idemp_l. assert (HM : 2 ^ wF <= M < 2 * 2 ^ wF) by (unfold M; lia).
  rewrite cat_eq by (try lia; change (2 ^ 1) with 2; destruct sb; cbn; lia). change (2 ^ 1) with 2. fold st.
  destruct sub; cbn [andb].
  - assert (Ec : M * 4 + (2 ^ (wF + 4) - 1 - q) + Z.b2z (negb sb) = 4 * M - q - st + 1 * 2 ^ (wF + 4)).
    { unfold st. destruct sb; cbn [negb Z.b2z]; lia. }
    rewrite Ec, Z.mod_add by lia. f_equal. ring.
  - cbn [Z.b2z]. rewrite Z.add_0_r, Z.mod_small by lia. f_equal. ring.
Qed.
