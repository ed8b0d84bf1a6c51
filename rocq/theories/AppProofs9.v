From Coq Require Import ZArith List Bool Lia Reals Lra.
From Flocq Require Import Core Relative.
From Verif Require Import Fw FwLemmas Spec Spec754 SpecLemmas ValueLemmas Flopoco FlopocoLemmas AddSingle AddSingleProofs3 AddSingleProofs4 CompareProofs AddDual AddDualProofs Mul MulProofs SpecFlocq SpecReal SpecFlocq754 RealProofs SoftFloat SpecApp App AppProofs AppProofs2 AppProofs3 AppProofs4 AppProofs6 AppProofs7 AppProofs8.
Import ListNotations.
Open Scope Z_scope.

Lemma soft_mac U a x y : 32 <= U -> w32 a -> w32 x -> w32 y ->
  let d := bpow radix2 (-24) in let eta := bpow radix2 (-150) in let m := (rv (decode754 8 23 x) * rv (decode754 8 23 y))%R in
  exists r, soft_add_mul U a x y = Some r /\ w32 r /\
  decode754 8 23 r = add754 8 23 (decode754 8 23 a) (mul754 8 23 (decode754 8 23 x) (decode754 8 23 y)) /\
  (finite_v (decode754 8 23 r) -> finite_v (decode754 8 23 a) /\
    (Rabs (rv (decode754 8 23 r) - (rv (decode754 8 23 a) + m)) <= d * Rabs (rv (decode754 8 23 a)) + ((1 + d) * (1 + d) - 1) * Rabs m + ((1 + d) * eta + eta))%R).
Proof.
  intros HU Ha Hx Hy d eta m. destruct (f32_mul_err U x y HU Hx Hy) as (p & P1 & P2 & P3 & P4). destruct (f32_add_err U a p HU Ha P2) as (r & R1 & R2 & R3 & R4).
  exists r. unfold soft_add_mul. rewrite P1. cbn [bind]. split; [exact R1|]. split; [exact R2|]. split; [rewrite R3, P3; reflexivity|].
  intros Fr. destruct (R4 Fr) as (F1 & F2 & R5). destruct (P4 F2) as (_ & _ & P5). split; [exact F1|]. exact (compose_err _ m (rv (decode754 8 23 p)) _ _ _ _ _ (bpow_ge_0 _ _) P5 R5).
Qed.

Lemma soft_loop U l : 32 <= U -> Forall (fun xy => w32 (fst xy) /\ w32 (snd xy)) l -> forall a, w32 a ->
  exists r, loop (fun a xy => soft_add_mul U a (fst xy) (snd xy)) a l = Some r /\
    decode754 8 23 r = fold_left (add754 8 23) (map (fun xy => mul754 8 23 (fst xy) (snd xy)) (map (fun xy => (decode754 8 23 (fst xy), decode754 8 23 (snd xy))) l)) (decode754 8 23 a).
Proof.
  intros HU. induction 1 as [|[x y] l [Hx Hy] _ IH]; intros a Ha; [exists a; split; reflexivity|]. cbn [fst snd] in *.
  destruct (soft_mac U a x y HU Ha Hx Hy) as (a1 & A1 & A2 & A3 & _). destruct (IH a1 A2) as (r & R1 & R2). exists r. cbn [loop fst snd]. rewrite A1. cbn [bind]. split; [exact R1|]. cbn [map fold_left fst snd]. rewrite <- A3. exact R2.
Qed.

Theorem mat_mul_soft U N left right : 32 <= U ->
  (forall i j, (i < N)%nat -> (j < N)%nat -> w32 (left i j) /\ w32 (right i j)) ->
  exists m, mat_mul (soft_add_mul U) 0 N left right = Some m /\
  entries N m (fun r c z => w32 z /\
    let xys := row_col N (fun i j => decode754 8 23 (left i j)) (fun i j => decode754 8 23 (right i j)) r c in
    let u := bpow radix2 (-24) in
    decode754 8 23 z = dot754 8 23 xys /\
    (finite_v (decode754 8 23 z) -> (Rabs (rv (decode754 8 23 z) - Rdot xys) <= ((1 + u) ^ S N - 1) * Rabsdot xys + INR N * (1 + u) ^ S N * bpow radix2 (-149))%R)).
Proof.
  intros HU H. apply mat_mul_cells. intros r c Hr Hc. rewrite cell_loop.
  assert (HW : Forall (fun xy => w32 (fst xy) /\ w32 (snd xy)) (row_col N left right r c)). { apply row_col_all. intros i Hi. split; [apply (proj1 (H r i Hr Hi))|apply (proj2 (H i c Hi Hc))]. }
  assert (W0 : w32 0) by (unfold w32; lia).
  pose proof (bpow_ge_0 radix2 (-24)) as P1. pose proof (bpow_ge_0 radix2 (-150)) as P3. assert (P4 : (0 <= bpow radix2 (-24) * bpow radix2 (-150))%R) by (apply Rmult_le_pos; assumption).
  destruct (gen_loop (fun a xy => soft_add_mul U a (fst xy) (snd xy)) w32 (fun xy => w32 (fst xy) /\ w32 (snd xy)) (fun z => finite_v (decode754 8 23 z)) (fun z => rv (decode754 8 23 z))
    (fun xy => rv (decode754 8 23 (fst xy)) * rv (decode754 8 23 (snd xy)))%R (bpow radix2 (-24)) (bpow radix2 (-24)) ((1 + bpow radix2 (-24)) * bpow radix2 (-150) + bpow radix2 (-150)) P1 P1 ltac:(lra)) with (l := row_col N left right r c) (acc := 0) as (z & Z1 & Z2 & Z3).
  { intros acc [x y] Ha [Hx Hy]. cbn [fst snd] in *. destruct (soft_mac U acc x y HU Ha Hx Hy) as (q & Q1 & Q2 & _ & Q3). exists q. split; [exact Q1|]. split; [exact Q2|exact Q3]. }
  { exact HW. } { exact W0. } { reflexivity. }
  destruct (soft_loop U _ HU HW 0 W0) as (z' & Z1' & Z4). rewrite Z1 in Z1'. injection Z1' as <-.
  exists z. split; [exact Z1|]. split; [exact Z2|]. cbv zeta. rewrite (row_col_map (decode754 8 23) (decode754 8 23)) in Z4. split; [exact Z4|].
  intros Fz. destruct (Z3 Fz) as [_ Z5]. rewrite row_col_len in Z5. unfold Rdot, Rabsdot.
  rewrite <- (row_col_map (decode754 8 23) (decode754 8 23)). rewrite !map_map. cbn [fst snd]. cbn [pow]. replace (bpow radix2 (-149)) with (2 * bpow radix2 (-150))%R by (change (-149) with (1 + -150); rewrite (bpow_plus radix2 1); reflexivity).
  rewrite (Rmult_comm (1 + bpow radix2 (-24)) (_ ^ N)). eapply Rle_trans; [exact Z5|]. apply Rplus_le_compat_l.
  assert (PW : (0 <= (1 + bpow radix2 (-24)) ^ N)%R) by (apply pow_le; lra).
  rewrite !Rmult_assoc. apply Rmult_le_compat_l; [apply pos_INR|]. apply Rmult_le_compat_l; [exact PW|]. lra.
Qed.

(** ** The balanced product sum *)
Lemma par4_err d d' e m0 m1 m2 m3 p0 p1 p2 p3 s0 s1 r : (0 <= d)%R -> (0 <= d')%R -> (0 <= e)%R ->
  (Rabs (p0 - m0) <= d' * Rabs m0 + e)%R -> (Rabs (p1 - m1) <= d' * Rabs m1 + e)%R -> (Rabs (p2 - m2) <= d' * Rabs m2 + e)%R -> (Rabs (p3 - m3) <= d' * Rabs m3 + e)%R ->
  (Rabs (s0 - (p0 + p1)) <= d * Rabs (p0 + p1) + e)%R -> (Rabs (s1 - (p2 + p3)) <= d * Rabs (p2 + p3) + e)%R -> (Rabs (r - (s0 + s1)) <= d * Rabs (s0 + s1) + e)%R ->
  (Rabs (r - (m0 + m1 + m2 + m3)) <= ((1 + d) ^ 2 * (1 + d') - 1) * (Rabs m0 + Rabs m1 + Rabs m2 + Rabs m3) + 7 * (1 + d) ^ 2 * e)%R.
Proof.
  intros Hd Hd' He H0 H1 H2 H3 H4 H5 H6.
  assert (T : forall a b k, (Rabs (a - b) <= k)%R -> (Rabs a <= Rabs b + k)%R). { intros a b k H. replace a with (b + (a - b))%R by ring. eapply Rle_trans; [apply Rabs_triang|lra]. }
  pose proof (T _ _ _ H0) as A0. pose proof (T _ _ _ H1) as A1. pose proof (T _ _ _ H2) as A2. pose proof (T _ _ _ H3) as A3. pose proof (T _ _ _ H4) as A4. pose proof (T _ _ _ H5) as A5.
  pose proof (Rabs_triang p0 p1) as B0. pose proof (Rabs_triang p2 p3) as B1. pose proof (Rabs_triang s0 s1) as B2.
  replace (r - (m0 + m1 + m2 + m3))%R with ((r - (s0 + s1)) + ((s0 - (p0 + p1)) + (s1 - (p2 + p3)) + ((p0 - m0) + (p1 - m1) + ((p2 - m2) + (p3 - m3)))))%R by ring.
  eapply Rle_trans; [apply Rabs_triang|]. pose proof (Rabs_triang ((s0 - (p0 + p1)) + (s1 - (p2 + p3))) ((p0 - m0) + (p1 - m1) + ((p2 - m2) + (p3 - m3)))) as C0.
  pose proof (Rabs_triang (s0 - (p0 + p1)) (s1 - (p2 + p3))) as C1. pose proof (Rabs_triang ((p0 - m0) + (p1 - m1)) ((p2 - m2) + (p3 - m3))) as C2.
  pose proof (Rabs_triang (p0 - m0) (p1 - m1)) as C3. pose proof (Rabs_triang (p2 - m2) (p3 - m3)) as C4.
  remember (Rabs m0 + Rabs m1 + Rabs m2 + Rabs m3)%R as M.
  assert (PP : (Rabs (p0 + p1) + Rabs (p2 + p3) <= (1 + d') * M + 4 * e)%R) by (subst M; lra).
  assert (D1 : (d * (Rabs (p0 + p1) + Rabs (p2 + p3)) <= d * ((1 + d') * M + 4 * e))%R) by (apply Rmult_le_compat_l; lra).
  assert (SS : (Rabs (s0 + s1) <= (1 + d) * ((1 + d') * M + 4 * e) + 2 * e)%R) by lra.
  assert (D2 : (d * Rabs (s0 + s1) <= d * ((1 + d) * ((1 + d') * M + 4 * e) + 2 * e))%R) by (apply Rmult_le_compat_l; lra).
  assert (G : (d * ((1 + d) * ((1 + d') * M + 4 * e) + 2 * e) + e + (d * ((1 + d') * M + 4 * e) + 2 * e) + (d' * M + 4 * e) <= ((1 + d) ^ 2 * (1 + d') - 1) * M + 7 * (1 + d) ^ 2 * e)%R).
  { replace (((1 + d) ^ 2 * (1 + d') - 1) * M)%R with (d * (1 + d) * (1 + d') * M + d * (1 + d') * M + d' * M)%R by ring.
    assert (0 <= d * e)%R by (apply Rmult_le_pos; assumption). assert (0 <= d * (d * e))%R by (apply Rmult_le_pos; assumption). 
    replace (7 * (1 + d) ^ 2 * e)%R with (7 * e + 14 * (d * e) + 7 * (d * (d * e)))%R by ring.
    replace (d * ((1 + d) * ((1 + d') * M + 4 * e) + 2 * e))%R with (d * (1 + d) * (1 + d') * M + 6 * (d * e) + 4 * (d * (d * e)))%R by ring. lra. }
  subst M. lra.
Qed.


Lemma dual_err E F a b : dual_ok_width E F -> wf (E + F + 3) a -> wf (E + F + 3) b ->
  exists r, full_add E F a b = Some r /\ wf (E + F + 3) r /\ decode E F r = add_spec E F (decode E F a) (decode E F b) /\
  (finite_v (decode E F r) -> finite_v (decode E F a) /\ finite_v (decode E F b) /\
   let s := (rv (decode E F a) + rv (decode E F b))%R in (Rabs (rv (decode E F r) - s) <= bpow radix2 (- (F + 1)) * Rabs s + bpow radix2 (emin E))%R).
Proof.
  intros W Ha Hb. destruct (dual_pos E F W) as [HE HF]. destruct (fl_add_ok E F a b W Ha Hb) as (r & R1 & R2 & R3). exists r. split; [exact R1|]. split; [exact R2|]. split; [exact R3|]. rewrite R3. intros Fr.
  destruct (add_finite _ _ _ _ Fr) as [F1 F2]. split; [exact F1|]. split; [exact F2|]. cbv zeta. apply (rounded_err (emin E) (emax E) F); [lia| |exact Fr].
  apply add_real; [lia|apply em; lia|apply decode_number; (assumption || lia)|apply decode_number; (assumption || lia)].
Qed.

Theorem par4_full E F LF RF x0 y0 x1 y1 x2 y2 x3 y3 : dual_ok_width E F -> 1 <= LF -> 1 <= RF -> F < LF + RF + 1 ->
  wf2 E LF RF (x0, y0) -> wf2 E LF RF (x1, y1) -> wf2 E LF RF (x2, y2) -> wf2 E LF RF (x3, y3) ->
  exists z, dot_par4 (full_dot2 E F E LF E RF) (full_add E F) x0 y0 x1 y1 x2 y2 x3 y3 = Some z /\ wf (E + F + 3) z /\
  decode E F z = par4 (add_spec E F) (mul_spec E F) (decode E LF x0) (decode E RF y0) (decode E LF x1) (decode E RF y1) (decode E LF x2) (decode E RF y2) (decode E LF x3) (decode E RF y3) /\
  let u := bpow radix2 (- (F + 1)) in
  (finite_v (decode E F z) ->
   (Rabs (rv (decode E F z) - Rdot4 (decode E LF x0) (decode E RF y0) (decode E LF x1) (decode E RF y1) (decode E LF x2) (decode E RF y2) (decode E LF x3) (decode E RF y3)) <=
     ((1 + u) ^ 3 - 1) * Rabsdot4 (decode E LF x0) (decode E RF y0) (decode E LF x1) (decode E RF y1) (decode E LF x2) (decode E RF y2) (decode E LF x3) (decode E RF y3) + 7 * (1 + u) ^ 2 * bpow radix2 (emin E))%R).
Proof.
  intros W HL HR HF [A0 B0] [A1 B1] [A2 B2] [A3 B3]. cbn [fst snd] in *. destruct (dual_pos E F W) as [HE HF1].
  destruct (mul_err E F LF RF x0 y0 ltac:(lia) HL HR ltac:(lia) A0 B0) as (p0 & P0 & W0 & D0 & E0). destruct (mul_err E F LF RF x1 y1 ltac:(lia) HL HR ltac:(lia) A1 B1) as (p1 & P1 & W1 & D1 & E1).
  destruct (mul_err E F LF RF x2 y2 ltac:(lia) HL HR ltac:(lia) A2 B2) as (p2 & P2 & W2 & D2 & E2). destruct (mul_err E F LF RF x3 y3 ltac:(lia) HL HR ltac:(lia) A3 B3) as (p3 & P3 & W3 & D3 & E3).
  destruct (dual_err E F p0 p1 W W0 W1) as (s0 & S0 & V0 & T0 & G0). destruct (dual_err E F p2 p3 W W2 W3) as (s1 & S1 & V1 & T1 & G1). destruct (dual_err E F s0 s1 W V0 V1) as (z & S2 & V2 & T2 & G2).
  exists z. unfold dot_par4, full_dot2, full_mul. rewrite Z.eqb_refl. cbn [assert_ bind]. rewrite P0, P1, P2, P3. cbn [bind]. rewrite S0. cbn [bind]. rewrite S1. cbn [bind]. split; [exact S2|]. split; [exact V2|].
  split; [rewrite T2, T0, T1, D0, D1, D2, D3; reflexivity|]. cbv zeta; set (u := bpow radix2 (- (F + 1))); intros Fz. destruct (G2 Fz) as (F0 & F1 & Q2). destruct (G0 F0) as (F2 & F3 & Q0). destruct (G1 F1) as (F4 & F5 & Q1).
  destruct (E0 F2) as (_ & _ & M0). destruct (E1 F3) as (_ & _ & M1). destruct (E2 F4) as (_ & _ & M2). destruct (E3 F5) as (_ & _ & M3). unfold Rdot4, Rabsdot4.
  replace ((1 + u) ^ 3)%R with ((1 + u) ^ 2 * (1 + u))%R by ring. refine (par4_err u u _ _ _ _ _ _ _ _ _ _ _ _ _ _ _ M0 M1 M2 M3 Q0 Q1 Q2); apply bpow_ge_0.
Qed.

Theorem par4_soft U x0 y0 x1 y1 x2 y2 x3 y3 : 32 <= U -> w32 x0 -> w32 y0 -> w32 x1 -> w32 y1 -> w32 x2 -> w32 y2 -> w32 x3 -> w32 y3 ->
  let D := decode754 8 23 in
  exists z, dot_par4 (soft_dot2 U) (f32_add U) x0 y0 x1 y1 x2 y2 x3 y3 = Some z /\ w32 z /\
  D z = par4 (add754 8 23) (mul754 8 23) (D x0) (D y0) (D x1) (D y1) (D x2) (D y2) (D x3) (D y3) /\
  let u := bpow radix2 (-24) in
  (finite_v (D z) ->
   (Rabs (rv (D z) - Rdot4 (D x0) (D y0) (D x1) (D y1) (D x2) (D y2) (D x3) (D y3)) <=
     ((1 + u) ^ 3 - 1) * Rabsdot4 (D x0) (D y0) (D x1) (D y1) (D x2) (D y2) (D x3) (D y3) + 7 * (1 + u) ^ 2 * bpow radix2 (-150))%R).
Proof.
  intros HU A0 B0 A1 B1 A2 B2 A3 B3 D.
  destruct (f32_mul_err U x0 y0 HU A0 B0) as (p0 & P0 & W0 & D0 & E0). destruct (f32_mul_err U x1 y1 HU A1 B1) as (p1 & P1 & W1 & D1 & E1).
  destruct (f32_mul_err U x2 y2 HU A2 B2) as (p2 & P2 & W2 & D2 & E2). destruct (f32_mul_err U x3 y3 HU A3 B3) as (p3 & P3 & W3 & D3 & E3).
  destruct (f32_add_err U p0 p1 HU W0 W1) as (s0 & S0 & V0 & T0 & G0). destruct (f32_add_err U p2 p3 HU W2 W3) as (s1 & S1 & V1 & T1 & G1). destruct (f32_add_err U s0 s1 HU V0 V1) as (z & S2 & V2 & T2 & G2).
  exists z. unfold dot_par4, soft_dot2. rewrite P0, P1, P2, P3. cbn [bind]. rewrite S0. cbn [bind]. rewrite S1. cbn [bind]. split; [exact S2|]. split; [exact V2|]. unfold D.
  split; [rewrite T2, T0, T1, D0, D1, D2, D3; reflexivity|]. cbv zeta; set (u := bpow radix2 (-24)); intros Fz. destruct (G2 Fz) as (F0 & F1 & Q2). destruct (G0 F0) as (F2 & F3 & Q0). destruct (G1 F1) as (F4 & F5 & Q1).
  destruct (E0 F2) as (_ & _ & M0). destruct (E1 F3) as (_ & _ & M1). destruct (E2 F4) as (_ & _ & M2). destruct (E3 F5) as (_ & _ & M3). unfold Rdot4, Rabsdot4.
  replace ((1 + u) ^ 3)%R with ((1 + u) ^ 2 * (1 + u))%R by ring. refine (par4_err u u _ _ _ _ _ _ _ _ _ _ _ _ _ _ _ M0 M1 M2 M3 Q0 Q1 Q2); apply bpow_ge_0.
Qed.

(** The traits with promoted operands and the single-path adder. *)
Lemma round_prod AE AF LE LF RE RF x y : add_ok_width AE AF -> 1 <= LE <= AE -> 1 <= RE <= AE -> 1 <= LF <= AF -> 1 <= RF <= AF -> wf (LE + LF + 3) x -> wf (RE + RF + 3) y ->
  exists x' y' p p', promote AE LF LE LF x = Some x' /\ promote AE RF RE RF y = Some y' /\ mul AE (Z.max LF RF) AE LF RF x' y' = Some p /\ promote AE AF AE (Z.max LF RF) p = Some p' /\
  wf (AE + AF + 3) p' /\
  (finite_v (decode AE AF p') -> let m := (rv (decode LE LF x) * rv (decode RE RF y))%R in
    (Rabs (rv (decode AE AF p') - m) <= bpow radix2 (- (Z.max LF RF + 1)) * Rabs m + bpow radix2 (emin AE))%R).
Proof.
  intros W HLE HRE HL HR Hx Hy. pose proof W as (HE & HF & HEF & _). assert (HE2 : 2 <= AE) by (destruct (Z.eq_dec AE 1) as [->|]; [cbn in HEF; lia|lia]).
  destruct (promote_correct AE LF LE LF x HLE ltac:(lia) Hx) as (x' & X1 & X2 & X3). destruct (promote_correct AE RF RE RF y HRE ltac:(lia) Hy) as (y' & Y1 & Y2 & Y3).
  destruct (mul_err AE (Z.max LF RF) LF RF x' y' HE2 ltac:(lia) ltac:(lia) ltac:(lia) X2 Y2) as (p & P1 & P2 & _ & P3).
  destruct (promote_correct AE AF AE (Z.max LF RF) p ltac:(lia) ltac:(lia) P2) as (p' & Q1 & Q2 & Q3). exists x', y', p, p'. repeat (split; [assumption|]).
  intros Fp. apply (veq_fin _ _ Q3) in Fp. destruct (P3 Fp) as (_ & _ & P4). cbv zeta in *. rewrite (veq_rv _ _ Q3). rewrite (veq_rv _ _ X3), (veq_rv _ _ Y3) in P4. exact P4.
Qed.

Theorem par4_round AE AF LE LF RE RF x0 y0 x1 y1 x2 y2 x3 y3 : add_ok_width AE AF -> 1 <= LE <= AE -> 1 <= RE <= AE -> 1 <= LF <= AF -> 1 <= RF <= AF ->
  wf (LE + LF + 3) x0 -> wf (RE + RF + 3) y0 -> wf (LE + LF + 3) x1 -> wf (RE + RF + 3) y1 -> wf (LE + LF + 3) x2 -> wf (RE + RF + 3) y2 -> wf (LE + LF + 3) x3 -> wf (RE + RF + 3) y3 ->
  let L := decode LE LF in let R := decode RE RF in
  exists z, dot_par4 (round_dot2 AE AF LE LF RE RF) (round_add AE AF) x0 y0 x1 y1 x2 y2 x3 y3 = Some z /\ wf (AE + AF + 3) z /\
  let d := bpow radix2 (- AF) in let d' := bpow radix2 (- (Z.max LF RF + 1)) in
  (finite_v (decode AE AF z) ->
   (Rabs (rv (decode AE AF z) - Rdot4 (L x0) (R y0) (L x1) (R y1) (L x2) (R y2) (L x3) (R y3)) <=
     ((1 + d) ^ 2 * (1 + d') - 1) * Rabsdot4 (L x0) (R y0) (L x1) (R y1) (L x2) (R y2) (L x3) (R y3) + 7 * (1 + d) ^ 2 * bpow radix2 (emin AE))%R).
Proof.
  intros W HLE HRE HL HR A0 B0 A1 B1 A2 B2 A3 B3 L R.
  destruct (round_prod AE AF LE LF RE RF x0 y0 W HLE HRE HL HR A0 B0) as (u0 & v0 & q0 & p0 & U0 & N0 & K0 & P0 & W0 & E0). destruct (round_prod AE AF LE LF RE RF x1 y1 W HLE HRE HL HR A1 B1) as (u1 & v1 & q1 & p1 & U1 & N1 & K1 & P1 & W1 & E1).
  destruct (round_prod AE AF LE LF RE RF x2 y2 W HLE HRE HL HR A2 B2) as (u2 & v2 & q2 & p2 & U2 & N2 & K2 & P2 & W2 & E2). destruct (round_prod AE AF LE LF RE RF x3 y3 W HLE HRE HL HR A3 B3) as (u3 & v3 & q3 & p3 & U3 & N3 & K3 & P3 & W3 & E3).
  destruct (single_err AE AF p0 p1 W W0 W1) as (s0 & S0 & V0 & G0 & _). destruct (single_err AE AF p2 p3 W W2 W3) as (s1 & S1 & V1 & G1 & _). destruct (single_err AE AF s0 s1 W V0 V1) as (z & S2 & V2 & G2 & _).
  exists z. unfold dot_par4, round_dot2, round_add. cbv zeta. rewrite U0, U1, U2, U3, N0, N1, N2, N3. cbn [bind]. rewrite K0, K1, K2, K3. cbn [bind]. rewrite P0, P1, P2, P3. cbn [bind]. rewrite S0. cbn [bind]. rewrite S1. cbn [bind]. split; [exact S2|]. split; [exact V2|].
  cbv zeta; set (d := bpow radix2 (- AF)); set (d' := bpow radix2 (- (Z.max LF RF + 1))); intros Fz. destruct (G2 Fz) as (F0 & F1 & Q2). destruct (G0 F0) as (F2 & F3 & Q0). destruct (G1 F1) as (F4 & F5 & Q1).
  pose proof (E0 F2) as M0. pose proof (E1 F3) as M1. pose proof (E2 F4) as M2. pose proof (E3 F5) as M3. unfold Rdot4, Rabsdot4.
  refine (par4_err d d' _ _ _ _ _ _ _ _ _ _ _ _ _ _ _ M0 M1 M2 M3 Q0 Q1 Q2); apply bpow_ge_0.
Qed.
