From Coq Require Import ZArith List Bool Lia Reals Lra.
From Flocq Require Import Core Relative.
From Verif Require Import Fw FwLemmas Spec Spec754 SpecLemmas ValueLemmas Flopoco FlopocoLemmas AddSingle AddSingleProofs3 AddSingleProofs4 CompareProofs AddDual AddDualProofs Mul MulProofs SpecFlocq SpecReal SpecFlocq754 RealProofs SoftFloat SfProofs10 SpecApp App AppProofs AppProofs2 AppProofs3 AppProofs4 AppProofs6 AppProofs7.
From Verif Require PropsSoftFloat.
Import ListNotations.
Open Scope Z_scope.

(** A rounded product added with an error of its own. *)
Lemma compose_err a m p r d d' e e' : (0 <= d)%R -> (Rabs (p - m) <= d' * Rabs m + e')%R -> (Rabs (r - (a + p)) <= d * Rabs (a + p) + e)%R ->
  (Rabs (r - (a + m)) <= d * Rabs a + ((1 + d) * (1 + d') - 1) * Rabs m + ((1 + d) * e' + e))%R.
Proof.
  intros Hd H1 H2. assert (P : (Rabs p <= Rabs m + (d' * Rabs m + e'))%R). { replace p with (m + (p - m))%R at 1 by ring. eapply Rle_trans; [apply Rabs_triang|lra]. }
  pose proof (Rabs_triang a p) as T. replace (r - (a + m))%R with ((r - (a + p)) + (p - m))%R by ring. eapply Rle_trans; [apply Rabs_triang|].
  assert (B : (d * Rabs (a + p) <= d * (Rabs a + (Rabs m + (d' * Rabs m + e'))))%R) by (apply Rmult_le_compat_l; lra).
  remember (Rabs a) as A. remember (Rabs m) as M. replace ((1 + d) * (1 + d') - 1)%R with (d + d' + d * d')%R by ring. lra.
Qed.

(** Products. *)
Lemma mul_err E F LF RF x y : 2 <= E -> 1 <= LF -> 1 <= RF -> 1 <= F < LF + RF + 1 -> wf (E + LF + 3) x -> wf (E + RF + 3) y ->
  exists p, mul E F E LF RF x y = Some p /\ wf (E + F + 3) p /\ decode E F p = mul_spec E F (decode E LF x) (decode E RF y) /\
  (finite_v (decode E F p) -> finite_v (decode E LF x) /\ finite_v (decode E RF y) /\
    let m := (rv (decode E LF x) * rv (decode E RF y))%R in (Rabs (rv (decode E F p) - m) <= bpow radix2 (- (F + 1)) * Rabs m + bpow radix2 (emin E))%R).
Proof.
  intros HE HL HR HF Hx Hy. destruct (mul_round_correct E F LF RF x y HE HL HR HF Hx Hy) as (p & P1 & P2 & P3). exists p. split; [exact P1|]. split; [exact P2|]. split; [exact P3|].
  intros Fp. rewrite P3 in *. destruct (mul_finite _ _ _ _ Fp) as [F1 F2]. split; [exact F1|]. split; [exact F2|]. cbv zeta.
  apply (rounded_err (emin E) (emax E) F); [lia| |exact Fp]. apply mul_real; [lia|apply em; lia|apply decode_number; (assumption || lia)|apply decode_number; (assumption || lia)].
Qed.

(** ** The traits that round the products to the wider operand fraction and use the single-path adder *)
Lemma round_mac E F LF RF a x y : add_ok_width E F -> 1 <= LF <= F -> 1 <= RF <= F -> wf (E + F + 3) a -> wf (E + LF + 3) x -> wf (E + RF + 3) y ->
  let d := bpow radix2 (- F) in let d' := bpow radix2 (- (Z.max LF RF + 1)) in let eta := bpow radix2 (emin E) in
  let m := (rv (decode E LF x) * rv (decode E RF y))%R in
  exists r, round_add_mul E F E LF E RF a x y = Some r /\ wf (E + F + 3) r /\
  (finite_v (decode E F r) -> finite_v (decode E F a) /\
    (Rabs (rv (decode E F r) - (rv (decode E F a) + m)) <= d * Rabs (rv (decode E F a)) + ((1 + d) * (1 + d') - 1) * Rabs m + ((1 + d) * eta + eta))%R).
Proof.
  intros W HL HR Ha Hx Hy d d' eta m. pose proof W as (HE & HF & HEF & _). assert (HE2 : 2 <= E) by (destruct (Z.eq_dec E 1) as [->|]; [cbn in HEF; lia|lia]).
  destruct (mul_err E (Z.max LF RF) LF RF x y HE2 ltac:(lia) ltac:(lia) ltac:(lia) Hx Hy) as (p & P1 & P2 & _ & P3).
  destruct (single_narrow E F (Z.max LF RF) a p HE ltac:(lia) Ha P2) as (p' & N1 & N2 & N3). destruct (single_err E F a p' W Ha N1) as (r & R1 & R2 & R3 & _). cbv zeta in R3.
  exists r. unfold round_add_mul. rewrite Z.eqb_refl. cbn [assert_ bind]. rewrite P1. cbn [bind]. rewrite N3. split; [exact R1|]. split; [exact R2|].
  intros Fr. destruct (R3 Fr) as (F1 & F2 & R4). split; [exact F1|]. rewrite (veq_rv _ _ N2) in R4. apply (veq_fin _ _ N2) in F2. destruct (P3 F2) as (_ & _ & P4). cbv zeta in P4. fold m in P4.
  apply (compose_err _ m (rv (decode E (Z.max LF RF) p))); [apply bpow_ge_0|exact P4|exact R4].
Qed.

Theorem mat_mul_round E F LF RF N left right : add_ok_width E F -> 1 <= LF <= F -> 1 <= RF <= F ->
  (forall i j, (i < N)%nat -> (j < N)%nat -> wf (E + LF + 3) (left i j) /\ wf (E + RF + 3) (right i j)) ->
  exists m, mat_mul (round_add_mul E F E LF E RF) fl_default N left right = Some m /\
  entries N m (fun r c z => wf (E + F + 3) z /\
    let xys := row_col N (fun i j => decode E LF (left i j)) (fun i j => decode E RF (right i j)) r c in
    let d := bpow radix2 (- F) in let d' := bpow radix2 (- (Z.max LF RF + 1)) in
    (finite_v (decode E F z) -> (Rabs (rv (decode E F z) - Rdot xys) <= ((1 + d) ^ N * (1 + d') - 1) * Rabsdot xys + INR N * (1 + d) ^ S N * bpow radix2 (emin E + 1))%R)).
Proof.
  intros W HL HR H. pose proof W as (HE & HF & _). apply mat_mul_cells. intros r c Hr Hc. rewrite cell_loop.
  assert (HW : Forall (wf2 E LF RF) (row_col N left right r c)). { apply row_col_all. intros i Hi. split; [apply (proj1 (H r i Hr Hi))|apply (proj2 (H i c Hi Hc))]. }
  pose proof (bpow_ge_0 radix2 (- F)) as P1. pose proof (bpow_ge_0 radix2 (- (Z.max LF RF + 1))) as P2. pose proof (bpow_ge_0 radix2 (emin E)) as P3. assert (P4 : (0 <= bpow radix2 (- F) * bpow radix2 (emin E))%R) by (apply Rmult_le_pos; assumption).
  assert (W0 : wf (E + F + 3) fl_default) by (unfold wf, fl_default; split; [lia|apply Z.pow_pos_nonneg; lia]).
  destruct (gen_loop (fun a xy => round_add_mul E F E LF E RF a (fst xy) (snd xy)) (wf (E + F + 3)) (wf2 E LF RF) (fun z => finite_v (decode E F z)) (fun z => rv (decode E F z))
    (fun xy => rv (decode E LF (fst xy)) * rv (decode E RF (snd xy)))%R (bpow radix2 (- F)) (bpow radix2 (- (Z.max LF RF + 1))) ((1 + bpow radix2 (- F)) * bpow radix2 (emin E) + bpow radix2 (emin E)) P1 P2 ltac:(lra)
    ltac:(intros acc [x y] Ha [Hx Hy]; cbn [fst snd] in *; exact (round_mac E F LF RF acc x y W HL HR Ha Hx Hy)) _ HW fl_default W0) as (z & Z1 & Z2 & Z3).
  { unfold fl_default. rewrite decode_zero by lia. reflexivity. }
  exists z. split; [exact Z1|]. split; [exact Z2|]. cbv zeta. intros Fz. destruct (Z3 Fz) as [_ Z4]. rewrite row_col_len in Z4. unfold Rdot, Rabsdot.
  rewrite <- (row_col_map (decode E LF) (decode E RF)). rewrite !map_map. cbn [fst snd]. eapply Rle_trans; [exact Z4|]. apply Rplus_le_compat_l.
  cbn [pow]. replace (emin E + 1) with (1 + emin E) by lia. rewrite (bpow_plus radix2 1). change (bpow radix2 1) with 2%R.
  assert (PW : (0 <= (1 + bpow radix2 (- F)) ^ N)%R) by (apply pow_le; lra).
  rewrite !Rmult_assoc. apply Rmult_le_compat_l; [apply pos_INR|].
  replace ((1 + bpow radix2 (- F)) * ((1 + bpow radix2 (- F)) ^ N * (2 * bpow radix2 (emin E))))%R with ((1 + bpow radix2 (- F)) ^ N * ((1 + bpow radix2 (- F)) * (2 * bpow radix2 (emin E))))%R by ring.
  apply Rmult_le_compat_l; [exact PW|]. lra.
Qed.

(** ** SoftFloat *)
Lemma rounded754_err E F x v : 2 <= E -> 1 <= F -> rounded754 E F x v -> finite_v v -> (Rabs (rv v - x) <= bpow radix2 (- (F + 1)) * Rabs x + bpow radix2 (- bias E - F))%R.
Proof.
  intros HE HF R Fv. destruct (error_N_FLT radix2 (1 - bias E - F) (F + 1) ltac:(lia) (fun z => negb (Z.even z)) x) as (eps & eta & B1 & B2 & _ & B3).
  replace (/ 2 * bpow radix2 (- (F + 1) + 1))%R with (bpow radix2 (- (F + 1))) in B1 by (replace (- (F + 1) + 1) with (1 + - (F + 1)) by lia; rewrite (bpow_plus radix2 1); change (bpow radix2 1) with 2%R; field).
  replace (/ 2 * bpow radix2 (1 - bias E - F))%R with (bpow radix2 (- bias E - F)) in B2 by (replace (1 - bias E - F) with (1 + (- bias E - F)) by lia; rewrite (bpow_plus radix2 1); change (bpow radix2 1) with 2%R; field).
  assert (Ev : rv v = (x * (1 + eps) + eta)%R).
  { unfold rounded754 in R. rewrite <- B3. destruct v as [|t|t|t m e]; try contradiction; [destruct R as [_ R]; rewrite R; reflexivity|destruct R as (_ & R & _); exact R]. }
  rewrite Ev. replace (x * (1 + eps) + eta - x)%R with (x * eps + eta)%R by ring. eapply Rle_trans; [apply Rabs_triang|]. rewrite Rabs_mult.
  assert (Rabs x * Rabs eps <= Rabs x * bpow radix2 (- (F + 1)))%R by (apply Rmult_le_compat_l; [apply Rabs_pos|exact B1]). lra.
Qed.

Lemma add754_finite E F x y : finite_v (add754 E F x y) -> finite_v x /\ finite_v y.
Proof. unfold add754, add_gen. destruct x as [|s|s|s m e], y as [|t|t|t n f]; cbn; try tauto. destruct (Bool.eqb s t); cbn; tauto. Qed.
Lemma mul754_finite E F x y : finite_v (mul754 E F x y) -> finite_v x /\ finite_v y.
Proof. unfold mul754, mul_gen. destruct x as [|s|s|s m e], y as [|t|t|t n f]; cbn; tauto. Qed.

Definition w32 (x : Z) : Prop := 0 <= x < 2 ^ 32.
Lemma f32_add_err U a b : 32 <= U -> w32 a -> w32 b -> exists r, f32_add U a b = Some r /\ w32 r /\ decode754 8 23 r = add754 8 23 (decode754 8 23 a) (decode754 8 23 b) /\
  (finite_v (decode754 8 23 r) -> finite_v (decode754 8 23 a) /\ finite_v (decode754 8 23 b) /\
   let s := (rv (decode754 8 23 a) + rv (decode754 8 23 b))%R in (Rabs (rv (decode754 8 23 r) - s) <= bpow radix2 (-24) * Rabs s + bpow radix2 (-150))%R).
Proof.
  intros HU Ha Hb. destruct (PropsSoftFloat.C58_f32_add U a b HU Ha Hb) as (r & R1 & R2 & R3). exists r. split; [exact R1|]. split; [exact R2|]. split; [exact R3|]. rewrite R3. intros Fr.
  destruct (add754_finite _ _ _ _ Fr) as [F1 F2]. split; [exact F1|]. split; [exact F2|]. cbv zeta. apply (rounded754_err 8 23); [lia|lia| |exact Fr].
  apply add754_real; [lia|lia|apply decode754_number; [lia| |exact F1]|apply decode754_number; [lia| |exact F2]]; unfold w32 in *; lia.
Qed.
Lemma f32_mul_err U a b : 32 <= U -> w32 a -> w32 b -> exists r, f32_mul U a b = Some r /\ w32 r /\ decode754 8 23 r = mul754 8 23 (decode754 8 23 a) (decode754 8 23 b) /\
  (finite_v (decode754 8 23 r) -> finite_v (decode754 8 23 a) /\ finite_v (decode754 8 23 b) /\
   let s := (rv (decode754 8 23 a) * rv (decode754 8 23 b))%R in (Rabs (rv (decode754 8 23 r) - s) <= bpow radix2 (-24) * Rabs s + bpow radix2 (-150))%R).
Proof.
  intros HU Ha Hb. destruct (PropsSoftFloat.C58_f32_mul U a b HU Ha Hb) as (r & R1 & R2 & R3). exists r. split; [exact R1|]. split; [exact R2|]. split; [exact R3|]. rewrite R3. intros Fr.
  destruct (mul754_finite _ _ _ _ Fr) as [F1 F2]. split; [exact F1|]. split; [exact F2|]. cbv zeta. apply (rounded754_err 8 23); [lia|lia| |exact Fr].
  apply mul754_real; [lia|lia|apply decode754_number; [lia| |exact F1]|apply decode754_number; [lia| |exact F2]]; unfold w32 in *; lia.
Qed.
