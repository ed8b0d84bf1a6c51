(** Bit-heap multiplication and row heaps. *)
From Coq Require Import ZArith Bool List Lia.
From Verif Require Import Fw FwLemmas SpecHeap Heap HeapProofs HeapProofs2.
Import ListNotations.
Open Scope Z_scope.

Lemma mul_bound a b A B : 0 <= A -> 0 <= B -> 0 <= a < 2 ^ A -> 0 <= b < 2 ^ B -> 0 <= a * b < 2 ^ (A + B).
Proof. intros. rewrite pow2_add by lia. nia. Qed.
Lemma mul_tile_ok WA WB a b : 0 <= WA -> 0 <= WB -> 1 <= WA + WB -> 0 <= a < 2 ^ WA -> 0 <= b < 2 ^ WB ->
  exists h, mul_tile WA WB a b = Some h /\ heap_ok h /\ width h = WA + WB /\ total h = a * b.
Proof.
  intros HA HB HAB Ha Hb. unfold mul_tile. replace ((0 <=? WA) && (0 <=? WB)) with true by lia. cbn [assert_ bind].
  destruct (uint_to_bit_heap_ok (Z.to_nat (WA + WB)) (a * b)) as [h [E [Ok [L [_ T]]]]]; [lia|rewrite Z2Nat.id by lia; apply mul_bound; assumption|].
  exists h. split; [exact E|]. split; [exact Ok|]. split; [unfold width; lia|exact T].
Qed.
Lemma print_ok h : heap_ok h -> 2 <= width h -> heap_print h = Some tt.
Proof. intros Ok W. unfold heap_print. change (hwidth h) with (width h). replace (2 <=? width h) with true by lia. cbn [assert_ bind]. rewrite to_mpz_ok by exact Ok. reflexivity. Qed.
Lemma print_root h : width h < 2 -> heap_print h = None.
Proof. intros W. unfold heap_print. change (hwidth h) with (width h). replace (2 <=? width h) with false by lia. reflexivity. Qed.
Lemma split_value b W T : 0 <= T <= W -> 0 <= b < 2 ^ W ->
  0 <= b / 2 ^ (W - T) < 2 ^ T /\ 0 <= b mod 2 ^ (W - T) < 2 ^ (W - T) /\ b = b / 2 ^ (W - T) * 2 ^ (W - T) + b mod 2 ^ (W - T).
Proof.
  intros HT Hb. split; [apply div_pow_lt; try lia; replace (W - T + T) with W by lia; exact Hb|]. split; [apply mod_pow_bound; lia|].
  rewrite Z.mul_comm. apply div_mod_eq, pow2_pos. lia.
Qed.
Lemma mul_split_b_S f TILE WA WB sB a b : mul_split_b (S f) TILE WA WB sB a b =
  if negb sB then mul_tile WA WB a b
  else
    do bh <- take_msbs WB TILE b; do hi_orig <- mul_tile WA TILE a bh; do _ <- heap_print hi_orig; do hi <- shift_left (WB - TILE) hi_orig; do _ <- heap_print hi;
    do bl <- drop_msbs WB TILE b; do lo <- mul_split_b f TILE WA (WB - TILE) (TILE <? WB - TILE) a bl; do _ <- heap_print lo;
    do res <- merge_bit_heaps hi lo; do _ <- heap_print res; Some res.
Proof. reflexivity. Qed.
Lemma mul_split_b_ok TILE WA a : 1 <= TILE -> 1 <= WA -> 0 <= a < 2 ^ WA -> forall f WB b, (Z.to_nat WB <= f)%nat -> 1 <= WB -> 0 <= b < 2 ^ WB ->
  exists h, mul_split_b f TILE WA WB (TILE <? WB) a b = Some h /\ heap_ok h /\ width h = WA + WB /\ total h = a * b.
Proof.
  intros HT HA Ha. induction f as [|f IH]; intros WB b Hf HB Hb; [lia|]. rewrite mul_split_b_S. destruct (TILE <? WB) eqn:Q; cbn [negb]; [|apply mul_tile_ok; lia].
  destruct (split_value b WB TILE ltac:(lia) Hb) as [Bh [Bl Eb]]. rewrite take_msbs_ok by lia. rewrite drop_msbs_ok by lia. cbn [bind].
  destruct (mul_tile_ok WA TILE a (b / 2 ^ (WB - TILE))) as [ho [Eo [Oo [Wo To]]]]; try lia. rewrite Eo. cbn [bind].
  rewrite (print_ok ho) by (assumption || lia). cbn [bind]. destruct (shift_left_ok (WB - TILE) ho ltac:(lia) Oo) as [hi [Eh [Oh [Wh [Th _]]]]]. rewrite Eh. cbn [bind].
  rewrite (print_ok hi) by (assumption || lia). cbn [bind].
  destruct (IH (WB - TILE) (b mod 2 ^ (WB - TILE))) as [lo [El [Ol [Wl Tl]]]]; [lia|lia|exact Bl|]. rewrite El. cbn [bind].
  rewrite (print_ok lo) by (assumption || lia). cbn [bind]. destruct (merge_ok hi lo Oh Ol) as [r [Er [Or [Wr Tr]]]]. rewrite Er. cbn [bind].
  rewrite (print_ok r) by (assumption || lia). cbn [bind]. exists r. split; [reflexivity|]. split; [exact Or|]. split; [lia|].
  rewrite Tr, Th, To, Tl. rewrite Eb at 3. ring.
Qed.
Lemma mul_split_a_S f TILE WA WB sA a b : mul_split_a (S f) TILE WA WB sA a b =
  if negb sA then mul_split_b (Z.to_nat WB) TILE WA WB true a b
  else
    do ah <- take_msbs WA TILE a; do hi_orig <- mul_split_b (Z.to_nat WB) TILE TILE WB true ah b; do hi <- shift_left (WA - TILE) hi_orig;
    do al <- drop_msbs WA TILE a; do lo <- mul_split_a f TILE (WA - TILE) WB (TILE <? WA - TILE) al b; merge_bit_heaps hi lo.
Proof. reflexivity. Qed.
Lemma mul_split_a_ok TILE WB b : 1 <= TILE < WB -> 0 <= b < 2 ^ WB -> forall f WA a, (Z.to_nat WA <= f)%nat -> 1 <= WA -> 0 <= a < 2 ^ WA ->
  exists h, mul_split_a f TILE WA WB (TILE <? WA) a b = Some h /\ heap_ok h /\ width h = WA + WB /\ total h = a * b.
Proof.
  intros HT Hb. assert (QB : (TILE <? WB) = true) by lia. induction f as [|f IH]; intros WA a Hf HA Ha; [lia|]. rewrite mul_split_a_S. destruct (TILE <? WA) eqn:Q; cbn [negb].
  2:{ rewrite <- QB. apply mul_split_b_ok; lia. }
  destruct (split_value a WA TILE ltac:(lia) Ha) as [Bh [Bl Ea]]. rewrite take_msbs_ok by lia. rewrite drop_msbs_ok by lia. cbn [bind].
  destruct (mul_split_b_ok TILE TILE (a / 2 ^ (WA - TILE)) ltac:(lia) ltac:(lia) Bh (Z.to_nat WB) WB b) as [ho [Eo [Oo [Wo To]]]]; [lia|lia|exact Hb|]. rewrite QB in Eo. rewrite Eo. cbn [bind].
  destruct (shift_left_ok (WA - TILE) ho ltac:(lia) Oo) as [hi [Eh [Oh [Wh [Th _]]]]]. rewrite Eh. cbn [bind].
  destruct (IH (WA - TILE) (a mod 2 ^ (WA - TILE))) as [lo [El [Ol [Wl Tl]]]]; [lia|lia|exact Bl|]. rewrite El. cbn [bind].
  destruct (merge_ok hi lo Oh Ol) as [r [Er [Or [Wr Tr]]]]. exists r. split; [exact Er|]. split; [exact Or|]. split; [lia|].
  rewrite Tr, Th, To, Tl. rewrite Ea at 3. ring.
Qed.
Lemma mul_ok TILE WA WB a b : 1 <= TILE -> 1 <= WA -> 1 <= WB -> 0 <= a < 2 ^ WA -> 0 <= b < 2 ^ WB ->
  exists h, bit_heap_mul TILE WA WB a b = Some h /\ heap_ok h /\ width h = WA + WB /\ total h = a * b.
Proof.
  intros HT HA HB Ha Hb. unfold bit_heap_mul. replace ((0 <=? WA) && (0 <=? WB)) with true by lia. replace (0 <? TILE) with true by lia. cbn [assert_ bind].
  destruct (TILE <? WA) eqn:QA; destruct (TILE <? WB) eqn:QB.
  - rewrite <- QA. apply mul_split_a_ok; lia.
  - rewrite <- QA. destruct (mul_split_b_ok TILE WB b ltac:(lia) HB Hb (Z.to_nat WA) WA a) as [h [E [O [W T]]]]; [lia|lia|exact Ha|]. exists h. split; [exact E|]. split; [exact O|]. split; lia.
  - rewrite <- QB. apply mul_split_b_ok; lia.
  - apply mul_tile_ok; lia.
Qed.
Lemma mul_value TILE WA WB a b : 1 <= TILE -> 1 <= WA -> 1 <= WB -> 0 <= a < 2 ^ WA -> 0 <= b < 2 ^ WB ->
  exists h, bit_heap_mul TILE WA WB a b = Some h /\ heap_ok h /\ width h = WA + WB /\ total h = a * b /\ bit_heap_to_mpz h = Some (a * b) /\
    forall n, max_height h <= levels_height n -> exists r, compress n h = Some r /\ bit_heap_collapse r = Some (a * b).
Proof.
  intros HT HA HB Ha Hb. destruct (mul_ok TILE WA WB a b HT HA HB Ha Hb) as [h [E [O [W T]]]]. exists h. split; [exact E|]. split; [exact O|]. split; [exact W|]. split; [exact T|].
  assert (M : bit_heap_to_mpz h = Some (a * b)).
  { rewrite to_mpz_ok by exact O. rewrite T, W. f_equal. apply Z.mod_small. apply mul_bound; lia. }
  split; [exact M|]. intros n Hn. destruct (compress_levels n h O Hn) as [r Er]. exists r. split; [exact Er|].
  destruct (compress_any n h r O Er) as [_ [_ [_ [_ C]]]]. rewrite C. exact M.
Qed.
(** An operand of no bits: the debugging output has no operator for a heap of one column. *)
Lemma mul_empty_operand TILE WB b : 1 <= TILE -> TILE < WB -> WB mod TILE = 1 mod TILE -> 0 <= b < 2 ^ WB -> bit_heap_mul TILE 0 WB 0 b = None.
Proof.
  intros HT HB HM Hb. unfold bit_heap_mul. replace ((0 <=? 0) && (0 <=? WB)) with true by lia. replace (0 <? TILE) with true by lia. cbn [assert_ bind].
  replace (TILE <? 0) with false by lia. replace (TILE <? WB) with true by lia.
  assert (G : forall f WB b, (Z.to_nat WB <= f)%nat -> TILE < WB -> WB mod TILE = 1 mod TILE -> 0 <= b < 2 ^ WB -> mul_split_b f TILE 0 WB true 0 b = None).
  { clear WB b HB HM Hb. induction f as [|f IH]; intros WB b Hf HB HM Hb; [lia|]. rewrite mul_split_b_S. cbn [negb].
    destruct (split_value b WB TILE ltac:(lia) Hb) as [Bh [Bl Eb]]. rewrite take_msbs_ok by lia. rewrite drop_msbs_ok by lia. cbn [bind].
    destruct (mul_tile_ok 0 TILE 0 (b / 2 ^ (WB - TILE))) as [ho [Eo [Oo [Wo To]]]]; try lia. rewrite Eo. cbn [bind].
    destruct (Z.eq_dec TILE 1) as [->|N1]; [rewrite print_root by lia; reflexivity|].
    rewrite (print_ok ho) by (assumption || lia). cbn [bind]. destruct (shift_left_ok (WB - TILE) ho ltac:(lia) Oo) as [hi [Eh [Oh [Wh [Th _]]]]]. rewrite Eh. cbn [bind].
    rewrite (print_ok hi) by (assumption || lia). cbn [bind].
    assert (HM' : (WB - TILE) mod TILE = 1 mod TILE). { rewrite <- HM. replace (WB - TILE) with (WB + (-1) * TILE) by lia. apply Z.mod_add. lia. }
    destruct (TILE <? WB - TILE) eqn:Q.
    - rewrite IH; [reflexivity|lia|lia|exact HM'|exact Bl].
    - destruct f as [|f]; [reflexivity|]. rewrite mul_split_b_S. cbn [negb]. destruct (mul_tile_ok 0 (WB - TILE) 0 (b mod 2 ^ (WB - TILE))) as [lo [El [Ol [Wl Tl]]]]; try lia.
      rewrite El. cbn [bind]. rewrite print_root; [reflexivity|]. rewrite (Z.mod_small 1) in HM' by lia.
      destruct (Z.eq_dec (WB - TILE) TILE) as [Q1|Q1]; [rewrite Q1, Z.mod_same in HM' by lia; lia|]. rewrite Z.mod_small in HM' by lia. lia. }
  apply G; lia || assumption.
Qed.

(** ** Row heaps *)
Lemma full_adder W A B C : 0 <= W -> wf W A -> wf W B -> wf W C ->
  A + B + C = Z.lxor (Z.lxor A B) C + 2 * Z.lor (Z.lor (Z.land A B) (Z.land B C)) (Z.land A C).
Proof.
  intros HW HA HB HC. rewrite <- (Z2Nat.id W) in * by lia. revert A B C HA HB HC. generalize (Z.to_nat W) as n. clear W HW. unfold wf.
  induction n as [|n IH]; intros A B C HA HB HC.
  - change (2 ^ Z.of_nat 0) with 1 in *. assert (A = 0 /\ B = 0 /\ C = 0) as [-> [-> ->]] by lia. reflexivity.
  - rewrite Nat2Z.inj_succ, <- Z.add_1_r, pow2_S in * by lia.
    assert (D : forall x, x = 2 * Z.div2 x + Z.b2z (Z.odd x)) by (intros x; apply Z.div2_odd).
    assert (R : forall x, 0 <= x < 2 * 2 ^ Z.of_nat n -> 0 <= Z.div2 x < 2 ^ Z.of_nat n).
    { intros x Hx. rewrite Z.div2_div. split; [apply Z.div_pos; lia|apply Z.div_lt_upper_bound; lia]. }
    pose proof (IH (Z.div2 A) (Z.div2 B) (Z.div2 C) (R A HA) (R B HB) (R C HC)) as E.
    rewrite (D (Z.lxor (Z.lxor A B) C)), (D (Z.lor (Z.lor (Z.land A B) (Z.land B C)) (Z.land A C))).
    rewrite !Z.div2_spec, !Z.shiftr_lxor, !Z.shiftr_lor, !Z.shiftr_land, <- !Z.div2_spec.
    rewrite <- !Z.bit0_odd, !Z.lxor_spec, !Z.lor_spec, !Z.land_spec, !Z.bit0_odd.
    rewrite (D A) at 1. rewrite (D B) at 1. rewrite (D C) at 1.
    destruct (Z.odd A), (Z.odd B), (Z.odd C); cbn [Z.b2z xorb orb andb]; lia.
Qed.
Definition rows_ok (W : Z) (rows : list Z) : Prop := Forall (wf W) rows.
Lemma lor_wf W a b : 0 <= W -> wf W a -> wf W b -> wf W (Z.lor a b).
Proof.
  intros HW [a0 a1] [b0 b1]. split; [apply Z.lor_nonneg; lia|]. rewrite <- (Z.mod_small a (2 ^ W)), <- (Z.mod_small b (2 ^ W)) by lia.
  rewrite <- !Z.land_ones by lia. rewrite <- Z.land_lor_distr_l. rewrite Z.land_ones by lia. apply mod_pow_bound. lia.
Qed.
Lemma lxor_wf W a b : 0 <= W -> wf W a -> wf W b -> wf W (Z.lxor a b).
Proof.
  intros HW [a0 a1] [b0 b1]. split; [apply Z.lxor_nonneg; lia|].
  assert (E : Z.lxor a b = Z.land (Z.lxor a b) (Z.ones W)).
  { apply Z.bits_inj'. intros i Hi. rewrite Z.land_spec, Z.lxor_spec. destruct (Z.ltb_spec i W).
    - rewrite Z.ones_spec_low by lia. rewrite andb_true_r. reflexivity.
    - rewrite !(testbit_small W) by lia. reflexivity. }
  rewrite E, Z.land_ones by lia. apply mod_pow_bound. lia.
Qed.
Lemma land_wf W a b : 0 <= W -> wf W a -> wf W b -> wf W (Z.land a b).
Proof.
  intros HW [a0 a1] [b0 b1]. split; [apply Z.land_nonneg; lia|].
  rewrite <- (Z.mod_small b (2 ^ W)) by lia. rewrite <- Z.land_ones by lia. rewrite Z.land_assoc, Z.land_ones by lia. apply mod_pow_bound. lia.
Qed.
Lemma row_total_cons a l : row_total (a :: l) = a + row_total l.
Proof. reflexivity. Qed.
Lemma row_compressor_ok W : 0 <= W -> forall n rows, (length rows <= n)%nat -> rows_ok W rows ->
  exists r k, row_compressor W rows = Some r /\ rows_ok W r /\ length r = (length rows / 3 * 2 + length rows mod 3)%nat /\
    row_total rows = row_total r + k * 2 ^ W.
Proof.
  intros HW. induction n as [|n IH]; intros rows L F.
  - destruct rows; [|cbn in L; lia]. exists [], 0. repeat split. constructor.
  - destruct rows as [|A [|B [|C rest]]].
    + exists [], 0. repeat split. constructor.
    + exists [A], 0. split; [reflexivity|]. split; [exact F|]. split; [reflexivity|]. lia.
    + exists [A; B], 0. split; [reflexivity|]. split; [exact F|]. split; [reflexivity|]. lia.
    + apply Forall_cons_iff in F as [HA F]. apply Forall_cons_iff in F as [HB F]. apply Forall_cons_iff in F as [HC F].
      destruct (IH rest) as [r [k [E [Fr [Lr T]]]]]; [cbn in L; lia|exact F|].
      pose proof (full_adder W A B C HW HA HB HC) as FA. pose proof (pow2_pos W HW) as P.
      remember (Z.lxor (Z.lxor A B) C) as s eqn:Es. remember (Z.lor (Z.lor (Z.land A B) (Z.land B C)) (Z.land A C)) as c eqn:Ec.
      assert (Ws : wf W s) by (subst s; apply lxor_wf; try assumption; apply lxor_wf; assumption).
      assert (Wc : wf W c) by (subst c; apply lor_wf; [lia| |apply land_wf; assumption]; apply lor_wf; [lia| |]; apply land_wf; assumption).
      assert (Xs : fxor W (fxor W A B) C = s).
      { unfold fxor. rewrite (land_mask_id W (Z.lxor A B)) by (try lia; apply lxor_wf; assumption). rewrite <- Es. apply land_mask_id; assumption. }
      assert (Xc : for_ W (for_ W (fand A B) (fand B C)) (fand A C) = c).
      { unfold for_, fand. rewrite (land_mask_id W (Z.lor (Z.land A B) (Z.land B C))) by (try lia; apply lor_wf; try lia; apply land_wf; assumption). rewrite <- Ec. apply land_mask_id; assumption. }
      exists (s :: (2 * c) mod 2 ^ W :: r), (2 * c / 2 ^ W + k).
      assert (Sh : (if 1 <? W then fshl W c 1 else Some (zg W)) = Some ((2 * c) mod 2 ^ W)).
      { destruct (1 <? W) eqn:Q.
        - rewrite fshl_ok by lia. change (2 ^ 1) with 2. do 2 f_equal. lia.
        - unfold zg. f_equal. assert (W = 0 \/ W = 1) as [->| ->] by lia.
          + change (2 ^ 0) with 1. rewrite Z.mod_1_r. reflexivity.
          + change (2 ^ 1) with 2. rewrite Z.mul_comm, Z.mod_mul by lia. reflexivity. }
      split; [|split; [|split]].
      * cbn [row_compressor]. rewrite Xs, Xc, Sh. cbn [bind]. rewrite E. reflexivity.
      * constructor; [exact Ws|]. constructor; [|exact Fr]. apply mod_pow_bound. lia.
      * cbn [length]. rewrite Lr. replace (S (S (S (length rest)))) with (length rest + 1 * 3)%nat by lia. rewrite Nat.div_add, Nat.mod_add by lia. lia.
      * rewrite !row_total_cons, T. pose proof (div_mod_eq (2 * c) (2 ^ W) P). lia.
Qed.
Lemma row_compress_ok W n : 0 <= W -> forall rows, (2 <= length rows <= n + 2)%nat -> rows_ok W rows ->
  exists a b k, row_compress n W rows = Some [a; b] /\ wf W a /\ wf W b /\ row_total rows = a + b + k * 2 ^ W.
Proof.
  intros HW. induction n as [|n IH]; intros rows L F.
  - destruct rows as [|a [|b [|c t]]]; cbn [length] in L; try lia. apply Forall_cons_iff in F as [HA F]. apply Forall_cons_iff in F as [HB F].
    exists a, b, 0. split; [reflexivity|]. split; [exact HA|]. split; [exact HB|]. cbn. lia.
  - destruct rows as [|a [|b [|c t]]]; cbn [length] in L; try lia.
    + apply Forall_cons_iff in F as [HA F]. apply Forall_cons_iff in F as [HB F]. exists a, b, 0. split; [reflexivity|]. split; [exact HA|]. split; [exact HB|]. cbn. lia.
    + remember (a :: b :: c :: t) as rows eqn:Er. destruct (row_compressor_ok W HW (length rows) rows ltac:(lia) F) as [r [k [E [Fr [Lr T]]]]].
      assert (Ln : length rows = S (S (S (length t)))) by (subst rows; reflexivity).
      assert (R : (2 <= length r <= n + 2)%nat).
      { rewrite Lr. pose proof (Nat.div_mod (length rows) 3 ltac:(lia)) as DM. pose proof (Nat.mod_upper_bound (length rows) 3 ltac:(lia)). lia. }
      destruct (IH r R Fr) as [x [y [j [E2 [Hx [Hy T2]]]]]]. exists x, y, (j + k). split; [|split; [exact Hx|split; [exact Hy|lia]]].
      transitivity (do r <- row_compressor W rows; row_compress n W r); [subst rows; reflexivity|]. rewrite E. exact E2.
Qed.
Lemma fold_left_sum l : forall a, fold_left Z.add l a = a + row_total l.
Proof. induction l as [|x l IH]; intros a; cbn [fold_left]; [cbn; lia|]. rewrite IH, row_total_cons. lia. Qed.
Lemma row_total_nonneg W rows : rows_ok W rows -> 0 <= row_total rows.
Proof. induction rows as [|x t IH]; intros F; [cbn; lia|]. apply Forall_cons_iff in F as [[H _] F]. rewrite row_total_cons. pose proof (IH F). lia. Qed.
Lemma row_to_mpz_ok W rows : 0 <= W -> rows_ok W rows -> row_heap_to_mpz W rows = row_total rows mod 2 ^ W.
Proof.
  intros HW F. unfold row_heap_to_mpz. rewrite fold_left_sum, Z.add_0_l. apply Z.rem_mod_nonneg; [apply (row_total_nonneg W), F|apply pow2_pos; lia].
Qed.
Lemma row_collapse_ok W n rows : 0 <= W -> (2 <= length rows <= n + 2)%nat -> rows_ok W rows ->
  exists r, row_compress n W rows = Some r /\ rows_ok W r /\ length r = 2%nat /\ row_heap_to_mpz W r = row_heap_to_mpz W rows /\ row_collapse W r = Some (row_heap_to_mpz W rows).
Proof.
  intros HW L F. destruct (row_compress_ok W n HW rows L F) as [a [b [k [E [Ha [Hb T]]]]]]. exists [a; b].
  assert (F2 : rows_ok W [a; b]) by (repeat constructor; apply Ha || apply Hb).
  pose proof (pow2_pos W HW). split; [exact E|]. split; [exact F2|]. split; [reflexivity|]. rewrite !row_to_mpz_ok by assumption. cbn [row_collapse]. rewrite fadd_eq by lia.
  rewrite T, Z.mod_add by lia. cbn [row_total fold_right]. rewrite Z.add_0_r. split; reflexivity.
Qed.
Lemma row_compress_short n W rows : (length rows < 2)%nat -> row_compress n W rows = None.
Proof. destruct rows as [|a [|b t]]; cbn [length]; intros; try lia; destruct n; reflexivity. Qed.
Lemma row_collapse_other W rows : length rows <> 2%nat -> row_collapse W rows = None.
Proof. destruct rows as [|a [|b [|c t]]]; cbn [length]; intros; try reflexivity; lia. Qed.
Lemma wf_wider W B x : W <= B -> wf W x -> wf B x.
Proof. intros L [H1 H2]. split; [lia|]. pose proof (pow2_le W B L). lia. Qed.
Lemma extu_rows_ok W B rows : 0 <= W <= B -> rows_ok W rows -> extu_rows W B rows = Some rows.
Proof.
  intros HW F. induction rows as [|x t IH]; [reflexivity|]. apply Forall_cons_iff in F as [Hx F]. cbn [extu_rows]. unfold extu. replace (W <=? B) with true by lia. cbn [bind].
  rewrite zpad_hi_eq by (lia || exact Hx). rewrite IH by exact F. reflexivity.
Qed.
Lemma rows_wider W B rows : W <= B -> rows_ok W rows -> rows_ok B rows.
Proof. intros L F. eapply Forall_impl; [|exact F]. intros x. apply wf_wider, L. Qed.
Lemma row_add_ok WA WB a b : 0 <= WA -> 0 <= WB -> rows_ok WA a -> rows_ok WB b ->
  row_add WA WB a b = Some (Z.max WA WB, a ++ b) /\ rows_ok (Z.max WA WB) (a ++ b) /\ row_total (a ++ b) = row_total a + row_total b.
Proof.
  intros HA HB Fa Fb. unfold row_add. rewrite ctMax_max. rewrite !extu_rows_ok by (assumption || lia). split; [reflexivity|]. split; [|apply sum_app].
  apply Forall_app. split; [apply (rows_wider WA); [lia|exact Fa]|apply (rows_wider WB); [lia|exact Fb]].
Qed.
Lemma row_add_uint_ok WA WB a b : 0 <= WA -> 0 <= WB -> rows_ok WA a -> wf WB b ->
  row_add_uint WA WB a b = Some (Z.max WA WB, a ++ [b]) /\ rows_ok (Z.max WA WB) (a ++ [b]) /\ row_total (a ++ [b]) = row_total a + b.
Proof.
  intros HA HB Fa Hb. unfold row_add_uint. rewrite ctMax_max. rewrite extu_rows_ok by (assumption || lia). cbn [bind]. unfold extu. replace (WB <=? Z.max WA WB) with true by lia. cbn [bind].
  rewrite zpad_hi_eq by (lia || exact Hb). split; [reflexivity|]. split; [|unfold row_total; rewrite sum_app; cbn; lia].
  apply Forall_app. split; [apply (rows_wider WA); [lia|exact Fa]|]. constructor; [apply (wf_wider WB); [lia|exact Hb]|constructor].
Qed.

(** ** Statements on what bit_heap_to_mpz shows *)
Lemma width_nonneg h : 0 <= width h.
Proof. unfold width. lia. Qed.
Lemma width_pos h : heap_ok h -> 1 <= width h.
Proof. intros [Ne _]. unfold width. destruct h; [contradiction|cbn [length]; lia]. Qed.
Lemma mod_wider x w W : 0 <= w <= W -> (x mod 2 ^ W) mod 2 ^ w = x mod 2 ^ w.
Proof.
  intros H. replace W with (w + (W - w)) by lia. rewrite pow2_add by lia. pose proof (pow2_pos w ltac:(lia)). pose proof (pow2_pos (W - w) ltac:(lia)).
  rewrite Z.rem_mul_r by lia. rewrite Z.mul_comm, Z.mod_add by lia. apply Z.mod_mod. lia.
Qed.
Lemma pad_observed W a : heap_ok a -> width a <= W -> exists h x y, pad_bit_heap W a = Some h /\
  bit_heap_to_mpz a = Some x /\ bit_heap_to_mpz h = Some y /\ y mod 2 ^ width a = x /\ (total a < 2 ^ width a -> y = x).
Proof.
  intros Ok HW. destruct (pad_ok W a Ok HW) as [h [E [Oh [Wh [Th _]]]]]. exists h, (total a mod 2 ^ width a), (total a mod 2 ^ W).
  split; [exact E|]. split; [apply to_mpz_ok, Ok|]. split; [rewrite to_mpz_ok by exact Oh; rewrite Wh, Th; reflexivity|]. pose proof (width_nonneg a). split; [apply mod_wider; lia|].
  intros Hs. pose proof (total_nonneg a). pose proof (pow2_le (width a) W HW). rewrite !Z.mod_small by lia. reflexivity.
Qed.
Lemma merge_observed a b : heap_ok a -> heap_ok b -> width a = width b ->
  exists h x y, merge_bit_heaps a b = Some h /\ bit_heap_to_mpz a = Some x /\ bit_heap_to_mpz b = Some y /\ bit_heap_to_mpz h = Some ((x + y) mod 2 ^ width a).
Proof.
  intros Oa Ob W. destruct (merge_ok a b Oa Ob) as [h [E [Oh [Wh Th]]]]. exists h, (total a mod 2 ^ width a), (total b mod 2 ^ width b).
  split; [exact E|]. split; [apply to_mpz_ok, Oa|]. split; [apply to_mpz_ok, Ob|]. rewrite to_mpz_ok by exact Oh. rewrite Wh, Th, <- W, Z.max_id.
  f_equal. apply Z.add_mod. pose proof (pow2_pos (width a) (width_nonneg a)). lia.
Qed.
Lemma shift_observed k a : 0 <= k -> heap_ok a -> exists h x, shift_left k a = Some h /\ heap_ok h /\ width h = width a + k /\
  bit_heap_to_mpz a = Some x /\ bit_heap_to_mpz h = Some (x * 2 ^ k).
Proof.
  intros Hk Ok. destruct (shift_left_ok k a Hk Ok) as [h [E [Oh [Wh [Th _]]]]]. exists h, (total a mod 2 ^ width a).
  split; [exact E|]. split; [exact Oh|]. split; [exact Wh|]. split; [apply to_mpz_ok, Ok|]. rewrite to_mpz_ok by exact Oh. rewrite Wh, Th. f_equal.
  pose proof (width_nonneg a). rewrite pow2_add by lia. pose proof (pow2_pos k Hk). pose proof (pow2_pos (width a) ltac:(lia)). apply Z.mul_mod_distr_r; lia.
Qed.
Lemma build_observed W x : 1 <= W -> 0 <= x < 2 ^ W -> exists h, uint_to_bit_heap (Z.to_nat W) x = Some h /\ heap_ok h /\ width h = W /\
  (forall H, In H (heights h) -> H = 1) /\ bit_heap_to_mpz h = Some x.
Proof.
  intros HW Hx. destruct (uint_to_bit_heap_ok (Z.to_nat W) x) as [h [E [Ok [L [Hh T]]]]]; [lia|rewrite Z2Nat.id by lia; exact Hx|].
  exists h. assert (Wh : width h = W) by (unfold width; lia). split; [exact E|]. split; [exact Ok|]. split; [exact Wh|]. split; [intros H; rewrite Hh; apply repeat_spec|].
  rewrite to_mpz_ok by exact Ok. rewrite Wh, T, Z.mod_small by lia. reflexivity.
Qed.
Lemma step_observed h : heap_ok h -> exists c h', compress_step h = Some (c, h') /\ heap_ok h' /\ width h' = width h /\
  bit_heap_to_mpz h' = bit_heap_to_mpz h /\ heights h' = next_heights (heights h) /\ total h = total h' + ones (fst c) (snd c) * 2 ^ width h.
Proof.
  intros Ok. destruct (compress_step_ok h Ok) as [c [h' [E [_ [_ [Ok' [L [T Hh]]]]]]]]. eexists _, h'. split; [exact E|]. split; [exact Ok'|].
  assert (W : width h' = width h) by (unfold width; lia). split; [exact W|]. split; [|split; [exact Hh|exact T]].
  rewrite !to_mpz_ok by assumption. rewrite W, T, Z.mod_add; [reflexivity|]. pose proof (pow2_pos (width h) (width_nonneg h)). lia.
Qed.
Lemma step_max_observed h c h' : heap_ok h -> compress_step h = Some (c, h') -> max_height h' <= Z.max (max_height h) 2 /\ (3 <= max_height h -> max_height h' < max_height h).
Proof.
  intros Ok E. pose proof (compress_step_max h c h' Ok E) as M. pose proof (step_keeps_two (max_height h) (max_height_nonneg h Ok)).
  split; [lia|]. intros H3. pose proof (step_shrinks (max_height h) H3). lia.
Qed.
Lemma compress_total h : heap_ok h -> exists n r, compress n h = Some r.
Proof. intros Ok. destruct (compress_ok (Z.to_nat (max_height h)) h Ok ltac:(lia)) as [r [E _]]. eexists _, r. exact E. Qed.
Lemma compress_done n h : heap_ok h -> max_height h <= 2 -> compress n h = Some h.
Proof. intros Ok M. destruct n; cbn [compress]; replace (max_height h <=? 2) with true by lia; reflexivity. Qed.
Lemma row_add_observed W a b : 0 <= W -> rows_ok W a -> rows_ok W b -> exists r, row_add W W a b = Some (W, r) /\ rows_ok W r /\
  row_heap_to_mpz W r = (row_heap_to_mpz W a + row_heap_to_mpz W b) mod 2 ^ W.
Proof.
  intros HW Fa Fb. destruct (row_add_ok W W a b HW HW Fa Fb) as [E [F T]]. rewrite Z.max_id in *. exists (a ++ b). split; [exact E|]. split; [exact F|].
  rewrite !row_to_mpz_ok by assumption. rewrite T. apply Z.add_mod. pose proof (pow2_pos W HW). lia.
Qed.
