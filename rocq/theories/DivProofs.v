From Coq Require Import ZArith Bool Lia List.
From Verif Require Import Fw FwLemmas Spec SpecLemmas Flopoco FlopocoLemmas AddLemmas AddSingleProofs AddSingleProofs2 AddDualProofs Div.
Import ListNotations.
Open Scope Z_scope.

(** The signed value of a digit code. *)
Definition dig (q : Z) : Z := q mod 4 - 4 * (q / 4).
(** Value of a digit string, lowest first. *)
Fixpoint dval (qs : list Z) : Z := match qs with [] => 0 | q :: r => dig q + 4 * dval r end.

(** Residual invariant: twice the divisor bounds it strictly; it is not negative when the
    divisor is a power of two. *)
Definition res_inv (P D z : Z) : Prop := - (2 * D) < z < 2 * D /\ (D = 2 * P -> 0 <= z).

Lemma step_residue P D z w dq : 0 < P -> w = z mod (16 * P) ->
  2 * (((2 * w - dq * D) mod (32 * P)) mod (8 * P)) = (4 * z - 2 * dq * D) mod (16 * P).
Proof.
  intros HP ->.
  assert (E1 : ((2 * (z mod (16 * P)) - dq * D) mod (32 * P)) mod (8 * P) = (2 * z - dq * D) mod (8 * P)).
  { rewrite <- (Znumtheory.Zmod_div_mod (8 * P) (32 * P)) by (try lia; exists 4; ring).
    rewrite (Z.mod_eq z (16 * P)) by lia.
    replace (2 * (z - 16 * P * (z / (16 * P))) - dq * D) with (2 * z - dq * D + (-4 * (z / (16 * P))) * (8 * P)) by ring.
    apply Z.mod_add. lia. }
  rewrite E1. replace (16 * P) with (2 * (8 * P)) by ring. replace (4 * z - 2 * dq * D) with (2 * (2 * z - dq * D)) by ring.
  rewrite Z.mul_mod_distr_l by lia. reflexivity.
Qed.

Lemma div_step_ok wF D w z : 1 <= wF -> 2 ^ wF <= D < 2 * 2 ^ wF ->
  w = z mod 2 ^ (wF + 3) -> res_inv (2 ^ (wF - 1)) D z ->
  exists q z', div_step wF D w = (q, z' mod 2 ^ (wF + 3)) /\ 0 <= q < 8 /\ z' = 4 * z - 2 * dig q * D /\ res_inv (2 ^ (wF - 1)) D z'.
Proof.
  intros HF HD Hw HI. remember (2 ^ (wF - 1)) as P eqn:EP.
  assert (PP : 0 < P) by (subst P; apply pow2_pos; lia).
  assert (E0 : 2 ^ wF = 2 * P) by (subst P; rewrite <- pow2_S by lia; f_equal; lia).
  assert (E1 : 2 ^ (wF + 1) = 4 * P) by (rewrite pow2_S by lia; lia).
  assert (E2 : 2 ^ (wF + 2) = 8 * P) by (replace (wF + 2) with (wF + 1 + 1) by lia; rewrite (pow2_S (wF + 1)) by lia; lia).
  assert (E3 : 2 ^ (wF + 3) = 16 * P) by (replace (wF + 3) with (wF + 2 + 1) by lia; rewrite (pow2_S (wF + 2)) by lia; lia).
  assert (E4 : 2 ^ (wF + 4) = 32 * P) by (replace (wF + 4) with (wF + 3 + 1) by lia; rewrite (pow2_S (wF + 3)) by lia; lia).
  rewrite E3 in *. unfold div_step.
  assert (Hw2 : 0 <= w < 16 * P) by (subst w; apply Z.mod_pos_bound; lia).
  (* the digit *)
  remember (z / P) as k eqn:Ek. remember (D / P) as l eqn:El.
  pose proof (div_mod_eq z P PP) as Dz. pose proof (Z.mod_pos_bound z P PP) as Mz.
  pose proof (div_mod_eq D P PP) as DD. pose proof (Z.mod_pos_bound D P PP) as MD.
  rewrite <- Ek in Dz. rewrite <- El in DD. destruct HI as [HI1 HI2].
  assert (Hl : l = 2 \/ l = 3) by nia.
  assert (Hk : -8 <= k <= 7) by nia.
  assert (ES : cat 1 (bits (wF + 2) (wF - 1) w) (bits (wF - 1) (wF - 1) D) = 2 * (k mod 16) + (l - 2)).
  { rewrite (bits_eq (wF + 2)) by lia. replace (wF + 2 - (wF - 1) + 1) with 4 by lia. change (2 ^ 4) with 16.
    rewrite bit_eq by lia. rewrite <- EP, <- El.
    assert (Ew : (w / P) mod 16 = k mod 16).
    { subst w. rewrite (Z.mod_eq z (16 * P)) by lia.
      replace (z - 16 * P * (z / (16 * P))) with (z + (- 16 * (z / (16 * P))) * P) by ring. rewrite Z.div_add by lia. rewrite <- Ek.
      replace (k + - 16 * (z / (16 * P))) with (k + (- (z / (16 * P))) * 16) by ring. apply Z.mod_add. lia. }
    rewrite Ew. rewrite cat_eq by (try lia; change (2 ^ 1) with 2; destruct (Z.odd l); cbn; lia).
    change (2 ^ 1) with 2. destruct Hl as [-> | ->]; cbn [Z.odd Z.b2z]; ring. }
  rewrite ES. clear ES.
  remember (div_digit (2 * (k mod 16) + (l - 2))) as q eqn:Eq.
  (* digit multiples *)
  assert (H3 : fadd (wF + 3) (zpad_hi 2 (wF + 1) D) (cat 1 (cat (wF + 1) (zg 1) D) (zg 1)) = 3 * D).
  { rewrite zpad_hi_eq by lia. rewrite (cat_eq (wF + 1)) by lia. rewrite (cat_eq 1) by (unfold zg; change (2 ^ 1) with 2; lia).
    unfold zg. change (2 ^ 1) with 2. rewrite fadd_eq by lia. rewrite E3. rewrite Z.mod_small; lia. }
  rewrite H3. clear H3.
  assert (HqD : 0 <= q < 8 /\ (if (q =? 1) || (q =? 7) then zpad_hi 3 (wF + 1) D
    else if (q =? 2) || (q =? 6) then cat 1 (cat (wF + 1) (zg 2) D) (zg 1)
    else if (q =? 3) || (q =? 5) then zpad_hi 1 (wF + 3) (3 * D)
    else zg (wF + 4)) = Z.abs (dig q) * D /\ (bits 2 2 q =? 0) = (0 <=? dig q) /\
    (let z' := 4 * z - 2 * dig q * D in - (2 * D) < z' < 2 * D /\ (D = 2 * P -> 0 <= z'))).
  { rewrite !zpad_hi_eq by lia. rewrite (cat_eq (wF + 1)) by lia. rewrite (cat_eq 1) by (unfold zg; change (2 ^ 1) with 2; lia).
    unfold zg. change (2 ^ 1) with 2. clear - Eq Hl Hk PP Dz Mz DD MD HI1 HI2.
    assert (Ck : k = -8 \/ k = -7 \/ k = -6 \/ k = -5 \/ k = -4 \/ k = -3 \/ k = -2 \/ k = -1 \/ k = 0 \/ k = 1 \/ k = 2 \/ k = 3 \/ k = 4 \/ k = 5 \/ k = 6 \/ k = 7) by lia.
    destruct Hl as [-> | ->];
    repeat (destruct Ck as [-> | Ck]; [vm_compute in Eq; subst q; (split; [lia|]); (split; [vm_compute (dig _); cbn [Z.eqb Pos.eqb orb Z.abs]; lia|]); (split; [reflexivity|]); vm_compute (dig _); cbv zeta; lia|]);
    (rewrite Ck in *; vm_compute in Eq; subst q; (split; [lia|]); (split; [vm_compute (dig _); cbn [Z.eqb Pos.eqb orb Z.abs]; lia|]); (split; [reflexivity|]); vm_compute (dig _); cbv zeta; lia). }
  destruct HqD as (Hq & HqD & Hs & HI'). rewrite HqD, Hs. clear HqD Hs.
  exists q, (4 * z - 2 * dig q * D). split; [|split; [exact Hq|split; [reflexivity|exact HI']]].
  f_equal. rewrite (zpad_lo_eq 1 (wF + 2)), zpad_lo_eq by lia. change (2 ^ 1) with 2. replace (wF + 1) with (wF + 2 - 1) by lia. rewrite take_low by lia. rewrite E2.
  assert (EF : (if 0 <=? dig q then fsub (wF + 4) (w * 2) (Z.abs (dig q) * D) else fadd (wF + 4) (w * 2) (Z.abs (dig q) * D)) = (2 * w - dig q * D) mod (32 * P)).
  { destruct (Z.leb_spec 0 (dig q)).
    - rewrite fsub_eq, E4 by lia. f_equal. rewrite Z.abs_eq by lia. ring.
    - rewrite fadd_eq, E4 by lia. f_equal. rewrite Z.abs_neq by lia. ring. }
  rewrite EF. rewrite Z.mul_comm. apply step_residue; assumption.
Qed.

Definition code (q : Z) : Prop := 0 <= q < 8.

Lemma dval_app a b : dval (a ++ b) = dval a + 4 ^ Z.of_nat (length a) * dval b.
Proof.
  induction a as [|q a IH]; [cbn; destruct (dval b); reflexivity|].
  cbn [app dval length]. rewrite IH, Nat2Z.inj_succ, Z.pow_succ_r by lia. ring.
Qed.

Lemma div_loop_ok wF D n : 1 <= wF -> 2 ^ wF <= D < 2 * 2 ^ wF -> forall z acc,
  res_inv (2 ^ (wF - 1)) D z -> exists ds z', div_loop wF D n (z mod 2 ^ (wF + 3)) acc = (ds ++ acc, z' mod 2 ^ (wF + 3)) /\
  length ds = n /\ Forall code ds /\ z' = 4 ^ Z.of_nat n * z - 2 * D * dval ds /\ res_inv (2 ^ (wF - 1)) D z'.
Proof.
  intros HF HD. induction n as [|n IH]; intros z acc HI.
  - exists [], z. split; [reflexivity|]. split; [reflexivity|]. split; [constructor|]. split; [|exact HI]. cbn [Z.of_nat dval]. change (4 ^ 0) with 1. ring.
  - cbn [div_loop]. destruct (div_step_ok wF D _ z HF HD eq_refl HI) as (q & z1 & Es & Hq & Ez & HI1). rewrite Es.
    destruct (IH z1 (q :: acc) HI1) as (ds & z' & E1 & EL & EC & Ez' & HI'). rewrite E1.
    exists (ds ++ [q]), z'. split; [rewrite <- app_assoc; reflexivity|]. split; [rewrite app_length, EL; cbn; lia|].
    split; [apply Forall_app; split; [exact EC|constructor; [exact Hq|constructor]]|]. split; [|exact HI'].
    rewrite Ez', Ez, dval_app, EL, Nat2Z.inj_succ, Z.pow_succ_r by lia. cbn [dval]. ring.
Qed.

Fixpoint pval (xs : list Z) : Z := match xs with [] => 0 | x :: r => x + 4 * pval r end.

Lemma pval_bound xs : Forall (fun x => 0 <= x < 4) xs -> 0 <= pval xs < 4 ^ Z.of_nat (length xs).
Proof.
  induction 1 as [|x xs Hx _ IH]; [cbn; lia|]. cbn [pval length]. rewrite Nat2Z.inj_succ, Z.pow_succ_r by lia. lia.
Qed.

Lemma concat_pval xs : Forall (fun x => 0 <= x < 4) xs -> concat_array 2 xs = pval xs.
Proof.
  induction 1 as [|x xs Hx HF IH]; [reflexivity|]. destruct xs as [|y xs]; [cbn [concat_array pval]; lia|].
  change (concat_array 2 (x :: y :: xs)) with (cat 2 (concat_array 2 (y :: xs)) x). rewrite IH.
  rewrite cat_eq by (change (2 ^ 2) with 4; lia). change (2 ^ 2) with 4. cbn [pval]. ring.
Qed.

Lemma pval_app a b : pval (a ++ b) = pval a + 4 ^ Z.of_nat (length a) * pval b.
Proof.
  induction a as [|q a IH]; [cbn; destruct (pval b); reflexivity|].
  cbn [app pval length]. rewrite IH, Nat2Z.inj_succ, Z.pow_succ_r by lia. ring.
Qed.

Lemma code_parts q : code q -> bits 1 0 q = q mod 4 /\ zpad_lo 1 1 (bits 2 2 q) = 2 * (q / 4).
Proof.
  intros H. unfold code in H.
  assert (C : q = 0 \/ q = 1 \/ q = 2 \/ q = 3 \/ q = 4 \/ q = 5 \/ q = 6 \/ q = 7) by lia.
  repeat (destruct C as [-> | C]; [split; reflexivity|]). subst q. split; reflexivity.
Qed.

Lemma dval_parts qs : Forall code qs ->
  dval qs = pval (map (fun q => bits 1 0 q) qs) - 2 * pval (map (fun q => zpad_lo 1 1 (bits 2 2 q)) qs).
Proof.
  induction 1 as [|q qs Hq _ IH]; [reflexivity|]. cbn [dval map pval]. destruct (code_parts q Hq) as [-> ->]. rewrite IH. unfold dig. ring.
Qed.

Lemma div_fR0_ok n qs : Z.of_nat (length qs) = n -> 1 <= n -> Forall code qs ->
  div_fR0 n qs = dval qs mod 2 ^ (2 * n).
Proof.
  intros HL Hn HC. unfold div_fR0.
  rewrite (dval_parts qs HC). remember (map (fun q => bits 1 0 q) qs) as qP eqn:EP. remember (map (fun q => zpad_lo 1 1 (bits 2 2 q)) qs) as qM eqn:EM.
  assert (BP : Forall (fun x => 0 <= x < 4) qP).
  { subst qP. clear - HC. induction HC as [|q qs Hq _ IH]; cbn [map]; constructor; [|exact IH].
    destruct (code_parts q Hq) as [-> _]. apply Z.mod_pos_bound. lia. }
  assert (BM : Forall (fun x => x = 0 \/ x = 2) qM).
  { subst qM. clear - HC. induction HC as [|q qs Hq _ IH]; cbn [map]; constructor; [|exact IH].
    destruct (code_parts q Hq) as [_ ->]. unfold code in Hq.
    assert (q / 4 = 0 \/ q / 4 = 1) by (pose proof (div_mod_eq q 4); pose proof (Z.mod_pos_bound q 4); lia). lia. }
  assert (LM : length qM = length qs) by (subst qM; apply map_length).
  assert (NE : qM <> []) by (intro E; rewrite E in LM; cbn in LM; lia).
  rewrite (concat_pval qP BP).
  pose proof (app_removelast_last 0 NE) as EL. remember (removelast qM) as M0 eqn:E0. remember (last qM 0) as l eqn:El. clear E0 El.
  subst qM. rewrite EL in *. apply Forall_app in BM. destruct BM as [B0 Bl]. inversion Bl as [|? ? Hl _]; subst.
  assert (B0' : Forall (fun x => 0 <= x < 4) M0) by (eapply Forall_impl; [|exact B0]; cbn; intros; lia).
  assert (E00 : bits 0 0 l = 0) by (destruct Hl as [-> | ->]; reflexivity).
  rewrite E00, (concat_pval M0 B0').
  assert (L0 : Z.of_nat (length M0) = Z.of_nat (length qs) - 1) by (rewrite app_length in LM; cbn [length] in LM; lia).
  pose proof (pval_bound M0 B0') as PM. rewrite L0 in PM.
  remember (Z.of_nat (length qs)) as n eqn:En.
  assert (E4 : 4 ^ (n - 1) = 2 ^ (2 * (n - 1))) by (rewrite Z.pow_mul_r by lia; reflexivity).
  rewrite E4 in PM. rewrite (cat_eq (2 * (n - 1))), (cat_eq 1) by (unfold zg; change (2 ^ 1) with 2; lia).
  unfold zg. change (2 ^ 1) with 2. rewrite fsub_eq by lia. rewrite pval_app, L0, E4. cbn [pval].
  replace (2 * n) with (2 * (n - 1) + 2) by lia. rewrite Z.pow_add_r by lia. change (2 ^ 2) with 4.
  assert (HP : 0 < 2 ^ (2 * (n - 1))) by (apply pow2_pos; lia). remember (2 ^ (2 * (n - 1))) as T eqn:ET.
  destruct Hl as [-> | ->].
  - f_equal. ring.
  - replace (pval (map (fun q => bits 1 0 q) qs) - 2 * (pval M0 + T * (2 + 4 * 0))) with (pval (map (fun q => bits 1 0 q) qs) - ((0 * T + pval M0) * 2 + 0) + (-1) * (T * 4)) by ring.
    rewrite Z.mod_add by lia. reflexivity.
Qed.

Lemma div_q0_ok wF D z : 1 <= wF -> D < 2 * 2 ^ wF -> - (2 * D) < z < 2 * D ->
  code (div_q0 wF (z mod 2 ^ (wF + 3))) /\ dig (div_q0 wF (z mod 2 ^ (wF + 3))) = 2 * Z.sgn z.
Proof.
  intros HF HD Hz. unfold div_q0.
  assert (P0 : 0 < 2 ^ wF) by (apply pow2_pos; lia).
  assert (E3 : 2 ^ (wF + 3) = 8 * 2 ^ wF) by (apply (pow2_shift 3); [reflexivity|lia|lia]).
  assert (E2 : 2 ^ (wF + 2) = 4 * 2 ^ wF) by (apply (pow2_shift 2); [reflexivity|lia|lia]).
  assert (EB : bits (wF + 2) 0 (z mod 2 ^ (wF + 3)) = z mod 2 ^ (wF + 3)) by (replace (wF + 2) with (wF + 3 - 1) by lia; rewrite take_low, Z.mod_mod by lia; reflexivity).
  rewrite EB, bit_eq by lia. rewrite E3, E2. remember (2 ^ wF) as P eqn:EP. clear EP E2 E3.
  destruct (Z.lt_trichotomy z 0) as [N | [-> | N]].
  - rewrite (Z.sgn_neg z N). replace (z mod (8 * P)) with (z + 8 * P) by (replace (z mod (8 * P)) with ((z + 1 * (8 * P)) mod (8 * P)) by (apply Z.mod_add; lia); rewrite Z.mod_small; lia).
    replace (z + 8 * P =? 0) with false by (symmetry; apply Z.eqb_neq; lia).
    replace ((z + 8 * P) / (4 * P)) with 1 by (apply (Z.div_unique _ _ _ (z + 4 * P)); lia).
    split; [cbv; split; congruence|reflexivity].
  - rewrite Z.mod_0_l by lia. split; [cbv; split; congruence|reflexivity].
  - rewrite (Z.sgn_pos z N). rewrite Z.mod_small by lia. replace (z =? 0) with false by (symmetry; apply Z.eqb_neq; lia).
    rewrite Z.div_small by lia. split; [cbv; split; congruence|reflexivity].
Qed.

(** The quotient string read as a number is the exact quotient with a sticky bit. *)
Lemma sticky_signed A B Q z : 0 < B -> z = A - B * Q -> - B < z < B -> 4 * Q + 2 * Z.sgn z = 2 * sticky_form A B.
Proof.
  intros HB Hz Hr. unfold sticky_form. destruct (Z.lt_trichotomy z 0) as [N | [N | N]].
  - rewrite (Z.sgn_neg z N). assert (E : A / B = Q - 1 /\ A mod B = z + B) by (split; [symmetry; apply (Z.div_unique _ _ _ (z + B)); nia|symmetry; apply (Z.mod_unique _ _ (Q - 1)); nia]).
    destruct E as [-> ->]. replace (z + B =? 0) with false by (symmetry; apply Z.eqb_neq; lia). cbn [negb Z.b2z]. lia.
  - assert (E : A / B = Q /\ A mod B = 0) by (split; [symmetry; apply (Z.div_unique _ _ _ 0); nia|symmetry; apply (Z.mod_unique _ _ Q); nia]).
    destruct E as [-> ->]. rewrite N. cbn [Z.sgn Z.eqb negb Z.b2z]. lia.
  - rewrite (Z.sgn_pos z N). assert (E : A / B = Q /\ A mod B = z) by (split; [symmetry; apply (Z.div_unique _ _ _ z); nia|symmetry; apply (Z.mod_unique _ _ Q); nia]).
    destruct E as [-> ->]. replace (z =? 0) with false by (symmetry; apply Z.eqb_neq; lia). cbn [negb Z.b2z]. lia.
Qed.

Lemma sticky_scale A B k : 0 < B -> 0 < k -> sticky_form (A * k) (B * k) = sticky_form A B.
Proof.
  intros HB Hk. unfold sticky_form. rewrite Z.div_mul_cancel_r by lia. rewrite Z.mul_mod_distr_r by lia. do 3 f_equal.
  destruct (Z.eqb_spec (A mod B) 0) as [E|E], (Z.eqb_spec (A mod B * k) 0) as [E'|E']; try reflexivity; exfalso; [rewrite E in E'; lia|nia].
Qed.

(** Dropping one bit into the sticky bit. *)
Lemma sticky_half A B : 0 < B ->
  sticky_form A (2 * B) = 2 * (sticky_form A B / 4) + Z.b2z (Z.odd (sticky_form A B / 2) || Z.odd (sticky_form A B)).
Proof.
  intros HB. unfold sticky_form at 2 3 4. remember (A / B) as q eqn:Eq. remember (Z.b2z (negb (A mod B =? 0))) as st eqn:Est.
  assert (Hst : 0 <= st <= 1) by (subst st; destruct (A mod B =? 0); cbn; lia).
  replace ((2 * q + st) / 2) with q by (apply (Z.div_unique _ _ _ st); lia).
  replace ((2 * q + st) / 4) with (q / 2).
  2:{ apply (Z.div_unique _ _ _ (2 * (q mod 2) + st)); pose proof (Z.mod_pos_bound q 2); pose proof (div_mod_eq q 2); lia. }
  rewrite Z.odd_add, Z.odd_mul. cbn [Z.odd andb xorb].
  unfold sticky_form. rewrite (Z.mul_comm 2 B), <- Z.div_div, <- Eq by lia. f_equal. f_equal.
  rewrite Z.rem_mul_r by lia. rewrite <- Eq.
  pose proof (Z.mod_pos_bound A B HB). rewrite (Zmod_odd q).
  rewrite Est. destruct (Z.odd q); destruct (Z.eqb_spec (A mod B) 0); cbn [negb Z.b2z Z.odd orb].
  all: match goal with |- negb (?x =? 0) = _ => destruct (Z.eqb_spec x 0) end; cbn; try reflexivity; try nia.
Qed.
