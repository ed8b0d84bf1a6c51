From Coq Require Import ZArith Bool Lia.
From Verif Require Import Fw FwLemmas Spec SpecLemmas Flopoco FlopocoLemmas FlopocoProofs CompareProofs MulProofs AddSingle AddLemmas ValueLemmas AddSingleProofs AddSingleProofs2 AddSingleProofs3 AddDual AddDualProofs.
Open Scope Z_scope.

Lemma dual_final_fields wE wF s e f t g h (clb cz sg rd : bool) c1 f1 (c2 f2 : Z) :
  okf wE wF 1 e f -> okf wE wF 1 g h -> Z.b2z rd = (if clb then c2 else f2) ->
  let R := ((if clb then c1 else f1) + Z.b2z rd) mod 2 ^ (wE + wF + 2) in
  let B := R / 2 ^ (wE + wF) in
  let fl := if B =? 1 then 2 * Z.b2z (negb (clb && cz)) else if (B =? 2) || (B =? 3) then 0 else Z.b2z (negb (clb && cz)) in
  dual_final wE wF (pack wE wF 1 s e f) (pack wE wF 1 t g h) (fxor 1 (Z.b2z s) (Z.b2z t)) (Z.b2z clb)
    (c1, c2, Z.b2z cz, Z.b2z sg) (f1, f2) =
  fl * 2 ^ (wE + wF + 1) + Z.b2z sg * 2 ^ (wE + wF) + R mod 2 ^ (wE + wF).
Proof.
  intros HX HY Hrd R B fl. unfold dual_final.
  fold (get_flags wE wF (pack wE wF 1 s e f)) (get_flags wE wF (pack wE wF 1 t g h)).
  rewrite !get_flags_pack by assumption. change (cat 2 1 1) with 5. cbn [feq Z.eqb Pos.eqb Z.b2z to_bool select].
  rewrite !select_b2z. rewrite <- Hrd. unfold add_cin. pose proof HX as (HE & HF & _).
  rewrite zpad_hi_eq by (change (2 ^ 1) with 2; destruct rd; cbn; lia). rewrite fadd_eq by lia.
  replace (2 + wE + wF) with (wE + wF + 2) by lia. fold R.
  rewrite fand_b2z, fnot_b2z. rewrite (take_low (wE + wF) R) by lia.
  assert (HR : 0 <= R < 2 ^ (wE + wF + 2)) by (apply mod_pow_bound; lia).
  assert (EU : bits (wE + 1 + wF) (wE + wF) R = B).
  { rewrite bits_eq by lia. apply Z.mod_small. apply div_pow_lt; try lia. replace (wE + wF + (wE + 1 + wF - (wE + wF) + 1)) with (wE + wF + 2) by lia. lia. }
  rewrite EU. assert (HB : 0 <= B < 4) by (change 4 with (2 ^ 2); apply div_pow_lt; lia).
  assert (EF : select (Z.b2z (B =? 1)) (cat 1 (Z.b2z (negb (clb && cz))) (zg 1))
     (select (for_ 1 (Z.b2z (B =? 2)) (Z.b2z (B =? 3))) 0 (zpad_hi 1 1 (Z.b2z (negb (clb && cz))))) = fl).
  { unfold fl. rewrite for_b2z, !select_b2z. clear. destruct (B =? 1), (B =? 2), (B =? 3), (negb (clb && cz)); reflexivity. }
  unfold feq. rewrite EF. clear EF EU.
  assert (Hfl : 0 <= fl < 4). { unfold fl. destruct (negb (clb && cz)), (B =? 1), (B =? 2), (B =? 3); cbn; lia. }
  clearbody fl B R. clear HX HY. pose proof (mod_pow_bound R (wE + wF) ltac:(lia)) as MB. b01 sg.
  pose proof (pow2_S (wE + wF) ltac:(lia)) as ES. pose proof (pow2_pos (wE + wF) ltac:(lia)) as PW.
  rewrite (cat_eq (wE + wF) (Z.b2z sg)) by lia.
  rewrite (cat_eq (wE + wF + 1)) by (try rewrite ES; destruct sg; cbn [Z.b2z]; lia).
  remember (R mod 2 ^ (wE + wF)) as L. remember (Z.b2z sg) as S.
  assert (HSL : 0 <= S * 2 ^ (wE + wF) + L < 2 ^ (wE + wF + 1)) by (rewrite ES; nia).
  assert (E1 : bits (wE + wF + 2) (wE + wF + 1) (fl * 2 ^ (wE + wF + 1) + (S * 2 ^ (wE + wF) + L)) = fl).
  { rewrite bits_eq by lia. rewrite join_div by lia. apply Z.mod_small. replace (wE + wF + 2 - (wE + wF + 1) + 1) with 2 by lia. change (2 ^ 2) with 4. lia. }
  assert (E2 : bits (wE + wF) (wE + wF) (fl * 2 ^ (wE + wF + 1) + (S * 2 ^ (wE + wF) + L)) = S).
  { rewrite bits_eq by lia. replace (wE + wF - (wE + wF) + 1) with 1 by lia. change (2 ^ 1) with 2. rewrite ES.
    replace (fl * (2 * 2 ^ (wE + wF)) + (S * 2 ^ (wE + wF) + L)) with ((fl * 2 + S) * 2 ^ (wE + wF) + L) by ring. rewrite join_div by lia.
    rewrite Z.add_comm, Z.mod_add by lia. apply Z.mod_small. lia. }
  assert (E3 : bits (wE + wF - 1) 0 (fl * 2 ^ (wE + wF + 1) + (S * 2 ^ (wE + wF) + L)) = L).
  { rewrite take_low by lia. rewrite ES.
    replace (fl * (2 * 2 ^ (wE + wF)) + (S * 2 ^ (wE + wF) + L)) with ((fl * 2 + S) * 2 ^ (wE + wF) + L) by ring. rewrite join_mod by lia. reflexivity. }
  rewrite E1, E2, E3. rewrite !cat_eq by (try (change (2 ^ 1) with 2); lia). change (2 ^ 1) with 2. rewrite ES. ring.
Qed.

Lemma dual_final_num wE wF s e f t g h (clb cz sg rd : bool) c1 f1 (c2 f2 : Z) X m :
  okf wE wF 1 e f -> okf wE wF 1 g h -> Z.b2z rd = (if clb then c2 else f2) -> clb && cz = false ->
  2 ^ wF <= m <= 2 ^ (wF + 1) ->
  let T := X * 2 ^ wF + (m - 2 ^ wF) in
  ((if clb then c1 else f1) + Z.b2z rd) mod 2 ^ (wE + wF + 2) = T mod 2 ^ (wE + wF + 2) ->
  - 2 * 2 ^ wE <= X < 2 * 2 ^ wE - 1 ->
  let r := dual_final wE wF (pack wE wF 1 s e f) (pack wE wF 1 t g h) (fxor 1 (Z.b2z s) (Z.b2z t)) (Z.b2z clb)
    (c1, c2, Z.b2z cz, Z.b2z sg) (f1, f2) in
  wf (wE + wF + 3) r /\ decode wE wF r = finish (emin wE) (emax wE) wF sg (norm_me wF m (X - bias wE - wF)).
Proof.
  intros HX HY Hrd Hz Hm T HT HXr r. unfold r. pose proof HX as (HE & HF & _).
  pose proof (dual_final_fields wE wF s e f t g h clb cz sg rd c1 f1 c2 f2 HX HY Hrd) as HD. cbv zeta in HD. rewrite HD. clear HD r.
  rewrite HT, Hz. cbn [negb Z.b2z].
  remember (T mod 2 ^ (wE + wF + 2)) as R.
  assert (HR : 0 <= R < 2 ^ (wE + wF + 2)) by (subst R; apply mod_pow_bound; lia).
  assert (HBb : 0 <= R / 2 ^ (wE + wF) < 4) by (change 4 with (2 ^ 2); apply div_pow_lt; lia).
  pose proof (mod_pow_bound R (wE + wF) ltac:(lia)) as MB.
  split. { apply fields_bound; try lia. destruct (_ =? 1); [lia|]; destruct (_ || _); lia. }
  assert (EW : 2 ^ (wE + wF) = 2 ^ wE * 2 ^ wF) by (apply pow2_add; lia).
  pose proof (pow2_pos wF ltac:(lia)) as PF. pose proof (pow2_pos wE ltac:(lia)) as PE. rewrite pow2_S in Hm by lia.
  assert (HTr : - (2 * 2 ^ (wE + wF)) <= T < 2 * 2 ^ (wE + wF)) by (rewrite EW; unfold T; nia).
  pose proof (mod_range_flags T (wE + wF) ltac:(lia) HTr) as HMF. cbv zeta in HMF. rewrite <- HeqR in HMF.
  rewrite (Z.mod_small (R / _)) in HMF by lia. destruct HMF as (HB & Hlow).
  apply pack_decode; try lia; fold T.
  - rewrite pow2_S; lia.
  - intros Hr. rewrite Hlow by lia. apply Z.mod_small. exact Hr.
  - destruct HB as [[H0 [-> | ->]]|[[H0 ->]|[H0 ->]]]; cbn [Z.eqb Pos.eqb orb];
    destruct (Z.ltb_spec T 0); try lia; destruct (Z.ltb_spec T (2 ^ (wE + wF))); lia.
Qed.

Lemma dual_final_zero wE wF s e f t g h c1 f1 (c2 f2 : Z) (rd : bool) :
  okf wE wF 1 e f -> okf wE wF 1 g h -> Z.b2z rd = c2 ->
  let r := dual_final wE wF (pack wE wF 1 s e f) (pack wE wF 1 t g h) (fxor 1 (Z.b2z s) (Z.b2z t)) (Z.b2z true)
    (c1, c2, Z.b2z true, Z.b2z false) (f1, f2) in
  wf (wE + wF + 3) r /\ decode wE wF r = Zero false.
Proof.
  intros HX HY Hrd r. unfold r. pose proof HX as (HE & HF & _).
  pose proof (dual_final_fields wE wF s e f t g h true true false rd c1 f1 c2 f2 HX HY Hrd) as HD. cbv zeta in HD. rewrite HD. clear HD r.
  cbn [andb negb]. change (2 * Z.b2z false) with 0.
  match goal with |- context [(?R / 2 ^ (wE + wF) =? 1)] => remember R as RR end.
  assert (E0 : (if RR / 2 ^ (wE + wF) =? 1 then 0 else if (RR / 2 ^ (wE + wF) =? 2) || (RR / 2 ^ (wE + wF) =? 3) then 0 else Z.b2z false) = 0).
  { destruct (_ =? 1); [reflexivity|]. destruct (_ || _); reflexivity. }
  rewrite E0. pose proof (mod_pow_bound RR (wE + wF) ltac:(lia)) as MB. split; [apply fields_bound; lia|].
  rewrite decode_fields by lia. reflexivity.
Qed.

(** ** Far path *)
Lemma far_frac wF f h (sub : bool) k : 1 <= wF -> 0 <= f < 2 ^ wF -> 0 <= h < 2 ^ wF -> 0 <= k < 2 * wF + 4 + dual_pad wF ->
  let N := 2 ^ wF + h in let pad := dual_pad wF in
  let P := N * 2 ^ (wF + 3) / 2 ^ k in
  (do a <- fshr (2 * wF + 4 + pad) (zpad_lo (wF + 3 + pad) (wF + 1) N) k; drop_lsbs (2 * wF + 4 + pad) pad a) = Some P.
Proof.
  intros HF Hf Hh Hk N pad P. assert (Hpad : 0 <= pad <= 2) by (unfold pad, dual_pad; destruct (_ || _); lia).
  fold pad in Hk. rewrite zpad_lo_eq by lia. rewrite fshr_ok by lia. cbn [bind].
  pose proof (pow2_pos k ltac:(lia)) as PK. pose proof (pow2_pos wF ltac:(lia)) as PF. pose proof (pow2_pos pad ltac:(lia)) as PP.
  pose proof (pow2_pos (wF + 3) ltac:(lia)) as P3.
  assert (EP : 2 ^ (wF + 3 + pad) = 2 ^ (wF + 3) * 2 ^ pad) by (apply pow2_add; lia).
  assert (EB : 2 ^ (2 * wF + 4 + pad) = 2 * 2 ^ wF * 2 ^ (wF + 3) * 2 ^ pad).
  { replace (2 * wF + 4 + pad) with (wF + 1 + (wF + 3) + pad) by lia. rewrite (pow2_add (wF + 1 + (wF + 3)) pad), (pow2_add (wF + 1) (wF + 3)), (pow2_S wF) by lia. ring. }
  assert (HN : 2 ^ wF <= N < 2 * 2 ^ wF) by (unfold N; lia).
  rewrite drop_lsbs_ok; try lia.
  - f_equal. unfold P. rewrite Z.div_div by lia. rewrite EP, Z.mul_assoc, Z.div_mul_cancel_r by lia. reflexivity.
  - split; [apply Z.div_pos; [nia|lia]|]. apply Z.div_lt_upper_bound; [lia|].
    rewrite EP, EB. remember (2 ^ (wF + 3)) as Q. remember (2 ^ pad) as R. assert (N * (Q * R) < 2 * 2 ^ wF * (Q * R)) by (apply Z.mul_lt_mono_pos_r; nia). nia.
Qed.

(** Everything after the far adder. *)
Definition dual_norm (wE wF expX sticky fracResultfar0 : Z) : Z * Z :=
  let fracLeadingBits := bits (wF + 3) (wF + 2) fracResultfar0 in
  let fracResultFar1 :=
    select (feq fracLeadingBits 0) (bits wF 1 fracResultfar0)
      (select (feq fracLeadingBits 1) (bits (wF + 1) 2 fracResultfar0) (bits (wF + 2) 3 fracResultfar0)) in
  let fracResultRoundBit :=
    select (feq fracLeadingBits 0) (bits 0 0 fracResultfar0)
      (select (feq fracLeadingBits 1) (bits 1 1 fracResultfar0) (bits 2 2 fracResultfar0)) in
  let fracResultStickyBit :=
    select (feq fracLeadingBits 0) sticky
      (select (feq fracLeadingBits 1) (for_ 1 sticky (bits 0 0 fracResultfar0))
         (for_ 1 (for_ 1 sticky (bits 0 0 fracResultfar0)) (bits 1 1 fracResultfar0))) in
  let roundFar1 := fand fracResultRoundBit (for_ 1 fracResultStickyBit (bits 0 0 fracResultFar1)) in
  let expOperationSel := select (feq fracLeadingBits 0) 3 (select (feq fracLeadingBits 1) 0 1) in
  let exponentUpdate := cat 1 (copybit (wE + 1) (bits 1 1 expOperationSel)) (bits 0 0 expOperationSel) in
  let exponentResultFar1 := fadd (wE + 2) (zpad_hi 2 wE expX) exponentUpdate in
  (cat wF exponentResultFar1 fracResultFar1, roundFar1).

(** The operand of the far adder and its carry. *)
Definition dual_sum (wF M EffSub P : Z) : Z :=
  let sticky := fne (bits wF 0 P) 0 in
  let fracYfar := zpad_hi 1 (wF + 3) (bits (2 * wF + 3) (wF + 1) P) in
  let fracYfarXorOp := fxor (wF + 4) fracYfar (select EffSub (og (wF + 4)) (zg (wF + 4))) in
  add_with_cin (wF + 4) (cat 2 M (zg 2)) fracYfarXorOp (fand EffSub (fnot 1 sticky)).

Lemma dual_far_eq wE wF a s e f b t g h (sub : bool) k :
  okf wE wF a e f -> okf wE wF b g h -> 0 <= k < 2 * wF + 4 + dual_pad wF -> k < 2 ^ 31 ->
  let P := (2 ^ wF + h) * 2 ^ (wF + 3) / 2 ^ k in
  dual_far wE wF (pack wE wF a s e f) (pack wE wF b t g h) (Z.b2z sub) k =
  Some (dual_norm wE wF e (fne (bits wF 0 P) 0) (dual_sum wF (2 ^ wF + f) (Z.b2z sub) P)).
Proof.
  intros HX HY Hk H31 P. unfold dual_far. pose proof HX as (HE & HF & _ & He & Hf). pose proof HY as (_ & _ & _ & _ & Hh).
  fold (get_frac wE wF (pack wE wF a s e f)) (get_frac wE wF (pack wE wF b t g h)). rewrite (Z.add_comm wF wE).
  fold (get_exp wE wF (pack wE wF a s e f)).
  rewrite !get_frac_pack, get_exp_pack by assumption. rewrite to_int_ok by assumption. cbn [bind].
  rewrite opad_hi_eq by lia. change (2 ^ 1 - 1) with 1. rewrite (cat_eq wF) by lia. rewrite !Z.mul_1_l.
  pose proof (far_frac wF f h sub k HF Hf Hh Hk) as HP. cbv zeta in HP.
  destruct (fshr _ _ _) as [v|]; [|discriminate HP]. cbn [bind] in HP |- *. rewrite HP. cbn [bind]. fold P.
  reflexivity.
Qed.

Lemma rne_grs A (st : bool) p : 1 <= p ->
  rne_div (2 * A + Z.b2z st) (2 ^ (p + 1)) =
  A / 2 ^ p + Z.b2z (Z.odd (A / 2 ^ (p - 1)) && ((st || negb (A mod 2 ^ (p - 1) =? 0)) || Z.odd (A / 2 ^ p))).
Proof.
  intros Hp. rewrite rne_bits by lia. replace (p + 1 - 1) with p by lia.
  pose proof (pow2_pos (p - 1) ltac:(lia)) as PP. b01 st.
  assert (E1 : 2 ^ (p + 1) = 2 * 2 ^ p) by (apply pow2_S; lia).
  assert (E0 : 2 ^ p = 2 * 2 ^ (p - 1)) by (rewrite <- pow2_S by lia; f_equal; lia).
  assert (H2 : (2 * A + Z.b2z st) / 2 = A) by (rewrite Z.mul_comm, Z.div_add_l by lia; rewrite Z.div_small by lia; lia).
  assert (D1 : (2 * A + Z.b2z st) / 2 ^ (p + 1) = A / 2 ^ p) by (rewrite E1, <- Z.div_div by lia; rewrite H2; reflexivity).
  assert (D0 : (2 * A + Z.b2z st) / 2 ^ p = A / 2 ^ (p - 1)) by (rewrite E0, <- Z.div_div by lia; rewrite H2; reflexivity).
  rewrite D1, D0.
  assert (DM : negb ((2 * A + Z.b2z st) mod 2 ^ p =? 0) = st || negb (A mod 2 ^ (p - 1) =? 0)).
  { rewrite E0. rewrite Z.rem_mul_r by lia. rewrite H2. replace (2 * A + Z.b2z st) with (Z.b2z st + A * 2) by ring. rewrite Z.mod_add by lia.
    rewrite Z.mod_small by lia. pose proof (Z.mod_pos_bound A (2 ^ (p - 1)) PP). 
    destruct st; cbn [Z.b2z orb].
    - destruct (Z.eqb_spec (1 + 2 * (A mod 2 ^ (p - 1))) 0); [lia|reflexivity].
    - f_equal. destruct (Z.eqb_spec (0 + 2 * (A mod 2 ^ (p - 1))) 0), (Z.eqb_spec (A mod 2 ^ (p - 1)) 0); lia. }
  rewrite DM. destruct (_ && _); reflexivity.
Qed.

Lemma dual_norm_ok wE wF e A (st : bool) : 1 <= wE -> 1 <= wF -> 0 <= e < 2 ^ wE -> 2 ^ (wF + 1) <= A < 2 ^ (wF + 4) ->
  exists c (rd : bool) R0, 0 <= c <= 2 /\ 2 ^ (wF + 4) <= (2 * A + Z.b2z st) * 2 ^ c < 2 ^ (wF + 5) /\
    dual_norm wE wF e (Z.b2z st) A = (R0, Z.b2z rd) /\
    (R0 + Z.b2z rd) mod 2 ^ (wE + wF + 2) =
    ((e + 1 - c) * 2 ^ wF + (rne_div ((2 * A + Z.b2z st) * 2 ^ c) 16 - 2 ^ wF)) mod 2 ^ (wE + wF + 2).
Proof.
  intros HE HF He HA. pose proof (pow2_pos wF ltac:(lia)) as PF.
  assert (E1 : 2 ^ (wF + 1) = 2 * 2 ^ wF) by (apply pow2_S; lia).
  assert (E2 : 2 ^ (wF + 2) = 4 * 2 ^ wF) by (apply (pow2_shift 2); [reflexivity|lia|lia]).
  assert (E4 : 2 ^ (wF + 4) = 16 * 2 ^ wF) by (apply (pow2_shift 4); [reflexivity|lia|lia]).
  assert (E5 : 2 ^ (wF + 5) = 32 * 2 ^ wF) by (apply (pow2_shift 5); [reflexivity|lia|lia]).
  b01 st. unfold dual_norm.
  assert (EL : bits (wF + 3) (wF + 2) A = A / 2 ^ (wF + 2)).
  { rewrite bits_eq by lia. replace (wF + 3 - (wF + 2) + 1) with 2 by lia. apply Z.mod_small. apply div_pow_lt; try lia. replace (wF + 2 + 2) with (wF + 4) by lia. lia. }
  rewrite EL. clear EL.
  (* a common closing argument *)
  assert (CL : forall p q u, 1 <= p -> 2 ^ wF * 2 ^ p <= A < 2 * 2 ^ wF * 2 ^ p -> q = bits (wF + p - 1) p A ->
    u mod 2 ^ (wE + 2) = (e + p - 2) mod 2 ^ (wE + 2) ->
    forall rd : bool, rd = (Z.odd (A / 2 ^ (p - 1)) && ((st || negb (A mod 2 ^ (p - 1) =? 0)) || Z.odd (A / 2 ^ p))) ->
    (cat wF (u mod 2 ^ (wE + 2)) q + Z.b2z rd) mod 2 ^ (wE + wF + 2) =
    ((e + p - 2) * 2 ^ wF + (rne_div (2 * A + Z.b2z st) (2 ^ (p + 1)) - 2 ^ wF)) mod 2 ^ (wE + wF + 2)).
  { intros p q u Hp HAp Hq Hu rd Hrd. rewrite rne_grs by assumption. rewrite <- Hrd. clear Hrd.
    pose proof (pow2_pos p ltac:(lia)) as PP. rewrite Hu.
    assert (HQ : 2 ^ wF <= A / 2 ^ p < 2 * 2 ^ wF) by (split; [apply Z.div_le_lower_bound|apply Z.div_lt_upper_bound]; lia).
    rewrite Hq, bits_eq by lia. replace (wF + p - 1 - p + 1) with wF by lia.
    assert (Hm : (A / 2 ^ p) mod 2 ^ wF = A / 2 ^ p - 2 ^ wF) by (symmetry; apply (Z.mod_unique _ _ 1); lia).
    rewrite Hm. rewrite cat_eq by lia. pose proof (pow2_pos (wE + 2) ltac:(lia)) as PE.
    assert (EW : 2 ^ (wE + wF + 2) = 2 ^ (wE + 2) * 2 ^ wF) by (rewrite <- pow2_add by lia; f_equal; lia).
    rewrite (Z.mod_eq (e + p - 2)) by lia. remember ((e + p - 2) / 2 ^ (wE + 2)) as qq.
    replace ((e + p - 2 - 2 ^ (wE + 2) * qq) * 2 ^ wF + (A / 2 ^ p - 2 ^ wF) + Z.b2z rd)
      with ((e + p - 2) * 2 ^ wF + (A / 2 ^ p + Z.b2z rd - 2 ^ wF) + (- qq) * 2 ^ (wE + wF + 2)) by (rewrite EW; ring).
    apply Z.mod_add. rewrite EW. nia. }
  assert (SC : forall p c, 1 <= p -> 0 <= c -> p + c = 3 -> rne_div ((2 * A + Z.b2z st) * 2 ^ c) 16 = rne_div (2 * A + Z.b2z st) (2 ^ (p + 1))).
  { intros p c Hp Hc Hpc. pose proof (pow2_pos c Hc). pose proof (pow2_pos (p + 1) ltac:(lia)).
    replace 16 with (2 ^ (p + 1) * 2 ^ c) by (rewrite <- pow2_add by lia; replace (p + 1 + c) with 4 by lia; reflexivity).
    apply rne_div_scale; lia. }
  assert (Hexp : forall x, fadd (wE + 2) (zpad_hi 2 wE e) x = (e + x) mod 2 ^ (wE + 2)).
  { intros. rewrite fadd_eq by lia. rewrite zpad_hi_eq by lia. reflexivity. }
  assert (LB : A / 2 ^ (wF + 2) = 0 \/ A / 2 ^ (wF + 2) = 1 \/ 2 <= A / 2 ^ (wF + 2)).
  { pose proof (Z.div_pos A (2 ^ (wF + 2)) ltac:(lia) ltac:(lia)). lia. }
  pose proof (div_mod_eq A (2 ^ (wF + 2)) ltac:(lia)) as DM. pose proof (mod_pow_bound A (wF + 2) ltac:(lia)) as MB.
  destruct LB as [HL|[HL|HL]].
  - rewrite HL in DM |- *. cbn [feq Z.eqb Pos.eqb Z.b2z select to_bool].
    exists 2. do 2 eexists. split; [lia|]. change (2 ^ 2) with 4. split; [lia|].
    change (bits 1 1 3) with 1. change (bits 0 0 3) with 1. rewrite Hexp.
    rewrite !(bit_eq 0) by lia. rewrite for_b2z, fand_b2z. split; [reflexivity|].
    change ((2 * A + Z.b2z st) * 4) with ((2 * A + Z.b2z st) * 2 ^ 2). rewrite (SC 1 2) by lia. replace (e + 1 - 2) with (e + 1 - 2) by ring.
    apply CL; [lia|change (2 ^ 1) with 2; lia|f_equal; lia| |].
    + unfold copybit. cbn [select to_bool Z.eqb Pos.eqb]. rewrite cat_eq by (try (change (2 ^ 1) with 2); lia). rewrite og_eq by lia. change (2 ^ 1) with 2.
      assert (EW2 : 2 ^ (wE + 2) = 2 * 2 ^ (wE + 1)) by (rewrite <- pow2_S by lia; f_equal; lia).
      replace (e + ((2 ^ (wE + 1) - 1) * 2 + 1)) with (e + 1 - 2 + 1 * 2 ^ (wE + 2)) by lia. apply Z.mod_add. pose proof (pow2_pos (wE + 2) ltac:(lia)). lia.
    + change (1 - 1) with 0. rewrite Z.pow_0_r, !Z.div_1_r, Z.mod_1_r. cbn [Z.eqb negb]. rewrite orb_false_r.
      f_equal. f_equal. rewrite bits_eq by lia. replace (wF - 1 + 1) with wF by lia. change (2 ^ 1) with 2.
      rewrite <- !Z.bit0_odd. rewrite Z.mod_pow2_bits_low by lia. reflexivity.
  - rewrite HL in DM |- *. cbn [feq Z.eqb Pos.eqb Z.b2z select to_bool].
    exists 1. do 2 eexists. split; [lia|]. change (2 ^ 1) with 2. split; [lia|].
    change (bits 1 1 0) with 0. change (bits 0 0 0) with 0. rewrite Hexp.
    rewrite !(bit_eq 0), !(bit_eq 1) by lia. rewrite !for_b2z, fand_b2z. split; [reflexivity|].
    change ((2 * A + Z.b2z st) * 2) with ((2 * A + Z.b2z st) * 2 ^ 1). rewrite (SC 2 1) by lia. replace (e + 1 - 1) with (e + 2 - 2) by ring.
    apply CL; [lia|change (2 ^ 2) with 4; lia|f_equal; lia| |].
    + unfold copybit. cbn [select to_bool Z.eqb Pos.eqb]. f_equal. change (cat 1 (zg (wE + 1)) 0) with 0. lia.
    + change (2 - 1) with 1. change (2 ^ 1) with 2. f_equal. f_equal.
      * f_equal. rewrite Z.pow_0_r, Z.div_1_r. rewrite odd_mod2. destruct (Z.odd A); reflexivity.
      * rewrite bits_eq by lia. replace (wF + 1 - 2 + 1) with wF by lia. rewrite Z.pow_0_r, Z.div_1_r.
        rewrite <- !Z.bit0_odd. rewrite Z.mod_pow2_bits_low by lia. reflexivity.
  - assert (F0 : feq (A / 2 ^ (wF + 2)) 0 = 0) by (unfold feq; rewrite (proj2 (Z.eqb_neq _ _)) by lia; reflexivity).
    assert (F1 : feq (A / 2 ^ (wF + 2)) 1 = 0) by (unfold feq; rewrite (proj2 (Z.eqb_neq _ _)) by lia; reflexivity).
    rewrite F0, F1. cbn [Z.eqb Pos.eqb Z.b2z select to_bool].
    exists 0. do 2 eexists. split; [lia|]. change (2 ^ 0) with 1. split; [nia|].
    change (bits 1 1 1) with 0. change (bits 0 0 1) with 1. rewrite Hexp.
    rewrite !(bit_eq 0), !(bit_eq 1), !(bit_eq 2) by lia. rewrite !for_b2z, fand_b2z. split; [reflexivity|].
    change ((2 * A + Z.b2z st) * 1) with ((2 * A + Z.b2z st) * 2 ^ 0). rewrite (SC 3 0) by lia. replace (e + 1 - 0) with (e + 3 - 2) by ring.
    apply CL; [lia|change (2 ^ 3) with 8; nia|f_equal; lia| |].
    + unfold copybit. cbn [select to_bool Z.eqb Pos.eqb]. f_equal. change (cat 1 (zg (wE + 1)) 1) with 1. lia.
    + change (3 - 1) with 2. f_equal. f_equal.
      * rewrite <- orb_assoc. f_equal. rewrite Z.pow_0_r, Z.div_1_r. change (2 ^ 2) with 4. change (2 ^ 1) with 2.
        change 4 with (2 * 2). rewrite Z.rem_mul_r by lia. rewrite !odd_mod2. destruct (Z.odd A), (Z.odd (A / 2)); reflexivity.
      * rewrite bits_eq by lia. replace (wF + 2 - 3 + 1) with wF by lia. rewrite Z.pow_0_r, Z.div_1_r.
        rewrite <- !Z.bit0_odd. rewrite Z.mod_pow2_bits_low by lia. reflexivity.
Qed.
