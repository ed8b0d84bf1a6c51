(** Bit heaps: building, counting, merging, padding, shifting, compressing, collapsing. *)
From Coq Require Import ZArith Bool List Lia.
From Verif Require Import Fw FwLemmas SpecHeap Heap.
Import ListNotations.
Open Scope Z_scope.

(** ** Counting ones *)
Definition ones_n (n : nat) (x : Z) : Z := fold_right Z.add 0 (map (fun i => Z.b2z (Z.testbit x (Z.of_nat i))) (seq 0 n)).
Lemma ones_ones_n H x : ones H x = ones_n (Z.to_nat H) x.
Proof. reflexivity. Qed.
Lemma sum_app l l' : fold_right Z.add 0 (l ++ l') = fold_right Z.add 0 l + fold_right Z.add 0 l'.
Proof. induction l as [|a l IH]; cbn; [reflexivity|rewrite IH; lia]. Qed.
Lemma ones_n_0 x : ones_n 0 x = 0.
Proof. reflexivity. Qed.
Lemma testbit_shift_sum a b w i : 0 <= b < 2 ^ w -> 0 <= w -> 0 <= i -> Z.testbit (a * 2 ^ w + b) (w + i) = Z.testbit a i.
Proof.
  intros Hb Hw Hi. rewrite (Z.add_comm w i), <- (Z.div_pow2_bits (a * 2 ^ w + b) w i) by lia. rewrite join_div by lia. reflexivity.
Qed.
Lemma testbit_low_sum a b w i : 0 <= b < 2 ^ w -> 0 <= w -> 0 <= i < w -> Z.testbit (a * 2 ^ w + b) i = Z.testbit b i.
Proof.
  intros Hb Hw Hi. rewrite <- (Z.mod_pow2_bits_low (a * 2 ^ w + b) w i) by lia. rewrite join_mod by lia. reflexivity.
Qed.
Lemma ones_n_join n m a b : 0 <= b < 2 ^ Z.of_nat m -> ones_n (m + n) (a * 2 ^ Z.of_nat m + b) = ones_n n a + ones_n m b.
Proof.
  intros Hb. unfold ones_n. rewrite seq_app, map_app, sum_app. rewrite Z.add_comm. f_equal.
  - cbn [Nat.add]. replace (seq m n) with (map (Nat.add m) (seq 0 n)).
    + rewrite map_map. f_equal. apply map_ext_in. intros i Hi. f_equal. rewrite Nat2Z.inj_add. apply testbit_shift_sum; lia.
    + clear. rewrite <- (Nat.add_0_r m) at 2. generalize 0%nat as k. induction n as [|n IH]; intros k; cbn; [reflexivity|].
      f_equal. rewrite IH. f_equal. lia.
  - f_equal. apply map_ext_in. intros i Hi. f_equal. apply in_seq in Hi. apply testbit_low_sum; lia.
Qed.
Lemma ones_join H1 H2 a b : 0 <= H1 -> 0 <= H2 -> 0 <= b < 2 ^ H2 -> ones (H1 + H2) (a * 2 ^ H2 + b) = ones H1 a + ones H2 b.
Proof.
  intros h1 h2 Hb. rewrite !ones_ones_n. replace (Z.to_nat (H1 + H2)) with (Z.to_nat H2 + Z.to_nat H1)%nat by lia.
  pose proof (ones_n_join (Z.to_nat H1) (Z.to_nat H2) a b) as E. rewrite Z2Nat.id in E by lia. apply E, Hb.
Qed.
Lemma ones_cat H1 H2 a b : 0 <= H1 -> 0 <= H2 -> 0 <= b < 2 ^ H2 -> ones (H1 + H2) (cat H2 a b) = ones H1 a + ones H2 b.
Proof. intros. rewrite cat_eq by lia. apply ones_join; assumption. Qed.
Lemma b2z_range (b : bool) : 0 <= Z.b2z b <= 1.
Proof. destruct b; cbn; lia. Qed.
Lemma ones_bounds x l : 0 <= fold_right Z.add 0 (map (fun i => Z.b2z (Z.testbit x (Z.of_nat i))) l) <= Z.of_nat (length l).
Proof.
  induction l as [|i l IH]; [cbn; lia|]. cbn [map fold_right length]. rewrite Nat2Z.inj_succ. pose proof (b2z_range (Z.testbit x (Z.of_nat i))). lia.
Qed.
Lemma ones_nonneg H x : 0 <= ones H x.
Proof. apply ones_bounds. Qed.
Lemma ones_le H x : 0 <= H -> ones H x <= H.
Proof. intros Hh. unfold ones. pose proof (ones_bounds x (seq 0 (Z.to_nat H))) as B. rewrite seq_length in B. lia. Qed.
Lemma ones_0 x : ones 0 x = 0.
Proof. reflexivity. Qed.
Lemma ones_1 x : 0 <= x < 2 -> ones 1 x = x.
Proof. intros H. assert (x = 0 \/ x = 1) as [->| ->] by lia; reflexivity. Qed.
Lemma ones_S H x : 0 <= H -> 0 <= x -> ones (H + 1) x = ones H (x / 2) + x mod 2.
Proof.
  intros h Hx. rewrite (div_mod_eq x 2) at 1 by lia. pose proof (Z.mod_pos_bound x 2 ltac:(lia)).
  replace (2 * (x / 2) + x mod 2) with ((x / 2) * 2 ^ 1 + x mod 2) by lia. rewrite ones_join by lia. rewrite (ones_1 (x mod 2)) by lia. reflexivity.
Qed.

(** ** to_mpz *)
Lemma count_bits_ok n H x dst : 0 <= x -> (Z.of_nat n <= H) -> 1 <= H \/ n = O -> count_bits n H x dst = Some (dst + ones_n n x).
Proof.
  revert x dst. induction n as [|n IH]; intros x dst Hx Hn HH; [cbn; f_equal; lia|].
  assert (H1 : 1 <= H) by lia. pose proof (ones_S (Z.of_nat n) x ltac:(lia) Hx) as E. rewrite !ones_ones_n in E.
  replace (Z.to_nat (Z.of_nat n + 1)) with (S n) in E by lia. rewrite Nat2Z.id in E.
  cbn [count_bits]. unfold take_lsb. rewrite get_bit_ok by lia. cbn [bind]. change (2 ^ 0) with 1. rewrite Z.div_1_r.
  assert (A : (if to_bool (x mod 2) then dst + 1 else dst) = dst + x mod 2).
  { unfold to_bool. pose proof (Z.mod_pos_bound x 2 ltac:(lia)). destruct (x mod 2 =? 1) eqn:Q; lia. }
  rewrite A. clear A. destruct (1 <? H) eqn:Q.
  - rewrite fshr_ok by lia. cbn [bind]. change (2 ^ 1) with 2. rewrite IH; [f_equal; lia| |lia|lia]. apply Z.div_pos; lia.
  - cbn [bind]. assert (n = O) as -> by lia. cbn [count_bits]. rewrite ones_n_0 in E. f_equal. lia.
Qed.
Definition col_ok (c : Z * Z) : Prop := 0 <= fst c /\ 0 <= snd c < 2 ^ fst c.
Lemma count_col H x dst : col_ok (H, x) -> count_bits (Z.to_nat H) H x dst = Some (dst + ones H x).
Proof. intros [h Hx]. cbn in *. rewrite count_bits_ok; [reflexivity|lia|lia|]. destruct (Z.eq_dec H 0); [right; lia|left; lia]. Qed.
Lemma to_mpz_build_ok h dst : h <> [] -> Forall col_ok h -> to_mpz_build dst h = Some (dst * 2 ^ (hwidth h - 1) + total h).
Proof.
  revert dst. induction h as [|[H x] t IH]; intros dst Ne F; [contradiction|]. apply Forall_cons_iff in F as [C F].
  cbn [to_mpz_build]. rewrite (count_col H x dst C). destruct t as [|c t].
  - cbn [total]. f_equal. unfold hwidth. cbn. lia.
  - cbn [bind]. rewrite IH by (discriminate || exact F). f_equal. remember (c :: t) as u eqn:Eu. cbn [total].
    change (hwidth ((H, x) :: u)) with (Z.of_nat (S (length u))). change (hwidth u) with (Z.of_nat (length u)).
    assert (L : 1 <= Z.of_nat (length u)) by (subst u; cbn [length]; lia).
    replace (Z.of_nat (S (length u)) - 1) with (Z.of_nat (length u)) by lia.
    assert (P : 2 ^ Z.of_nat (length u) = 2 * 2 ^ (Z.of_nat (length u) - 1)) by (rewrite <- pow2_S by lia; f_equal; lia). rewrite P. lia.
Qed.
Lemma total_nonneg h : 0 <= total h.
Proof. induction h as [|[H x] t IH]; cbn [total]; [lia|]. pose proof (ones_nonneg H x). pose proof (pow2_pos (Z.of_nat (length t)) ltac:(lia)). nia. Qed.
Lemma to_mpz_ok h : heap_ok h -> bit_heap_to_mpz h = Some (total h mod 2 ^ width h).
Proof.
  intros [Ne F]. unfold bit_heap_to_mpz. rewrite to_mpz_build_ok by assumption. cbn [bind]. f_equal. change (hwidth h) with (width h).
  rewrite Z.mul_0_l, Z.add_0_l. apply Z.rem_mod_nonneg; [apply total_nonneg|apply pow2_pos; unfold width; lia].
Qed.

(** ** Building *)
Lemma uint_to_bit_heap_ok n x : (1 <= n)%nat -> 0 <= x < 2 ^ Z.of_nat n ->
  exists h, uint_to_bit_heap n x = Some h /\ heap_ok h /\ length h = n /\ heights h = repeat 1 n /\ total h = x.
Proof.
  revert x. induction n as [|n IH]; intros x Hn Hx; [lia|]. destruct n as [|m].
  - exists [(1, x)]. change (2 ^ Z.of_nat 1) with 2 in Hx. split; [reflexivity|]. split; [|split; [reflexivity|split; [reflexivity|]]; cbn [total length]; rewrite ones_1 by lia; change (2 ^ Z.of_nat 0) with 1; lia].
    split; [discriminate|]. constructor; [|constructor]. cbn. change (2 ^ 1) with 2. lia.
  - remember (S m) as k eqn:Ek. assert (Pk := pow2_pos (Z.of_nat k) ltac:(lia)).
    assert (PS : 2 ^ Z.of_nat (S k) = 2 * 2 ^ Z.of_nat k) by (rewrite Nat2Z.inj_succ, <- Z.add_1_r; apply pow2_S; lia).
    destruct (IH (x mod 2 ^ Z.of_nat k)) as [h [E [[Ne F] [L [Hh T]]]]]; [lia|apply mod_pow_bound; lia|].
    assert (B : 0 <= x / 2 ^ Z.of_nat k < 2) by (split; [apply Z.div_pos; lia|apply Z.div_lt_upper_bound; lia]).
    exists ((1, x / 2 ^ Z.of_nat k) :: h). split; [|split; [|split; [|split]]].
    + transitivity (do t <- take_msb (Z.of_nat (S k)) x; do r <- drop_msb (Z.of_nat (S k)) x; do h <- uint_to_bit_heap k r; Some ((1, t) :: h)); [subst k; reflexivity|].
      unfold take_msb, drop_msb. rewrite get_bit_ok by lia. replace (Z.of_nat (S k) - 1) with (Z.of_nat k) by lia. cbn [bind].
      rewrite (get_bits_w _ _ _ (Z.of_nat k)) by lia. change (2 ^ 0) with 1. rewrite Z.div_1_r. cbn [bind]. rewrite E. cbn [bind].
      rewrite (Z.mod_small (x / 2 ^ Z.of_nat k) 2) by lia. reflexivity.
    + split; [discriminate|]. constructor; [|exact F]. cbn. change (2 ^ 1) with 2. lia.
    + cbn [length]. lia.
    + unfold heights in *. cbn [map repeat fst]. rewrite Hh. reflexivity.
    + cbn [total]. rewrite L, T, ones_1 by lia. pose proof (div_mod_eq x (2 ^ Z.of_nat k) Pk). lia.
Qed.
Lemma uint_to_bit_heap_zero x : uint_to_bit_heap 0 x = None.
Proof. reflexivity. Qed.

(** ** Merging, padding, shifting *)
Lemma merge_equal_ok a : forall b, length a = length b -> heap_ok a -> heap_ok b ->
  exists h, merge_equal a b = Some h /\ heap_ok h /\ length h = length a /\ total h = total a + total b /\
    heights h = map (fun p => fst p + snd p) (combine (heights a) (heights b)).
Proof.
  induction a as [|[HA x] ta IH]; intros [|[HB y] tb] L [Na Fa] [Nb Fb]; try contradiction; try discriminate.
  apply Forall_cons_iff in Fa as [[ca1 ca2] Fa]. apply Forall_cons_iff in Fb as [[cb1 cb2] Fb]. cbn [fst snd] in *.
  assert (CO : col_ok (HA + HB, cat HB x y)).
  { split; cbn [fst snd]; [lia|]. rewrite cat_eq by lia. apply join_bound; lia. }
  destruct ta as [|c ta], tb as [|d tb]; try discriminate.
  - exists [(HA + HB, cat HB x y)]. split; [reflexivity|]. split; [split; [discriminate|constructor; [exact CO|constructor]]|]. split; [reflexivity|]. split; [|reflexivity].
    cbn [total length]. rewrite ones_cat by lia. change (2 ^ Z.of_nat 0) with 1. lia.
  - destruct (IH (d :: tb)) as [h [E [[Nh Fh] [Lh [Th Hh]]]]]; [cbn [length] in *; lia|split; [discriminate|exact Fa]|split; [discriminate|exact Fb]|].
    exists ((HA + HB, cat HB x y) :: h). split; [|split; [|split; [|split]]].
    + transitivity (do r <- merge_equal (c :: ta) (d :: tb); Some ((HA + HB, cat HB x y) :: r)); [destruct c, d; reflexivity|]. rewrite E. reflexivity.
    + split; [discriminate|]. constructor; assumption.
    + cbn [length] in *. lia.
    + remember (c :: ta) as u. remember (d :: tb) as v. cbn [total]. rewrite Th, Lh, ones_cat by lia. assert (length u = length v) as -> by (cbn [length] in L; lia). lia.
    + unfold heights in *. remember (c :: ta) as u. remember (d :: tb) as v. cbn [map combine fst snd]. rewrite Hh. reflexivity.
Qed.
Lemma pad_impl_len n a : length (pad_impl n a) = (n + length a)%nat.
Proof. induction n as [|n IH]; cbn; [reflexivity|]. rewrite IH. reflexivity. Qed.
Lemma pad_impl_total n a : total (pad_impl n a) = total a.
Proof. induction n as [|n IH]; [reflexivity|]. cbn [pad_impl total]. rewrite ones_0, IH. lia. Qed.
Lemma pad_impl_ok n a : heap_ok a -> heap_ok (pad_impl n a).
Proof.
  intros Ha. induction n as [|n IH]; [exact Ha|]. cbn [pad_impl]. split; [discriminate|]. constructor; [|apply IH]. unfold zg. cbn. lia.
Qed.
Lemma pad_impl_heights n a : heights (pad_impl n a) = repeat 0 n ++ heights a.
Proof. induction n as [|n IH]; [reflexivity|]. unfold heights in *. cbn [pad_impl map repeat app fst]. rewrite IH. reflexivity. Qed.
Lemma pad_ok W a : heap_ok a -> width a <= W ->
  exists h, pad_bit_heap W a = Some h /\ heap_ok h /\ width h = W /\ total h = total a /\ heights h = repeat 0 (Z.to_nat (W - width a)) ++ heights a.
Proof.
  intros Ha HW. exists (pad_impl (Z.to_nat (W - width a)) a). unfold pad_bit_heap. change (hwidth a) with (width a).
  replace (0 <=? W - width a) with true by lia. split; [reflexivity|]. split; [apply pad_impl_ok, Ha|]. split; [|split].
  - unfold width in *. rewrite pad_impl_len. lia.
  - apply pad_impl_total.
  - apply pad_impl_heights.
Qed.
Lemma pad_narrower W a : W < width a -> pad_bit_heap W a = None.
Proof. intros H. unfold pad_bit_heap. change (hwidth a) with (width a). replace (0 <=? W - width a) with false by lia. reflexivity. Qed.
Lemma heap_zeros_ok n : (1 <= n)%nat -> exists h, heap_zeros n = Some h /\ heap_ok h /\ length h = n /\ total h = 0 /\ heights h = repeat 0 n.
Proof.
  induction n as [|n IH]; intros Hn; [lia|]. destruct n as [|m].
  - exists [(0, zg 0)]. split; [reflexivity|]. split; [|repeat split]. split; [discriminate|]. constructor; [|constructor]. unfold zg. cbn. lia.
  - destruct IH as [h [E [[Nh Fh] [L [T Hh]]]]]; [lia|]. exists ((0, zg 0) :: h). split; [|split; [|split; [|split]]].
    + transitivity (do r <- heap_zeros (S m); Some ((0, zg 0) :: r)); [reflexivity|]. rewrite E. reflexivity.
    + split; [discriminate|]. constructor; [|exact Fh]. unfold zg. cbn. lia.
    + cbn [length]. lia.
    + cbn [total]. rewrite ones_0, T. lia.
    + unfold heights in *. cbn [map repeat fst]. rewrite Hh. reflexivity.
Qed.
Lemma shift_left_ok k h : 0 <= k -> heap_ok h ->
  exists r, shift_left k h = Some r /\ heap_ok r /\ width r = width h + k /\ total r = total h * 2 ^ k /\ heights r = heights h ++ repeat 0 (Z.to_nat k).
Proof.
  intros Hk. induction h as [|c t IH]; intros [Ne F]; [contradiction|]. destruct (Z.eq_dec k 0) as [->|Nk].
  - exists (c :: t). split; [destruct t; reflexivity|]. split; [split; assumption|]. split; [lia|]. split; [change (2 ^ 0) with 1; lia|]. cbn [Z.to_nat repeat]. rewrite app_nil_r. reflexivity.
  - apply Forall_cons_iff in F as [C F]. destruct t as [|d t].
    + destruct (heap_zeros_ok (Z.to_nat k)) as [z [E [[Nz Fz] [L [T Hz]]]]]; [lia|]. exists (c :: z). split; [|split; [|split; [|split]]].
      * cbn [shift_left]. replace (k =? 0) with false by lia. rewrite E. reflexivity.
      * split; [discriminate|]. constructor; assumption.
      * unfold width. cbn [length]. lia.
      * destruct c as [H x]. cbn [total]. rewrite T, L. rewrite Z2Nat.id by lia. cbn [length]. change (2 ^ Z.of_nat 0) with 1. lia.
      * unfold heights in *. cbn [map app]. rewrite Hz. reflexivity.
    + destruct IH as [r [E [[Nr Fr] [W [T Hr]]]]]; [split; [discriminate|exact F]|]. exists (c :: r). split; [|split; [|split; [|split]]].
      * transitivity (if k =? 0 then Some (c :: d :: t) else do r <- shift_left k (d :: t); Some (c :: r)); [reflexivity|]. replace (k =? 0) with false by lia. rewrite E. reflexivity.
      * split; [discriminate|]. constructor; assumption.
      * unfold width in *. remember (d :: t) as u. cbn [length]. lia.
      * destruct c as [H x]. remember (d :: t) as u. cbn [total]. rewrite T. unfold width in W. rewrite W. rewrite pow2_add by lia. lia.
      * unfold heights in *. remember (d :: t) as u. cbn [map app]. rewrite Hr. reflexivity.
Qed.
Lemma heap_zeros_none n : heap_zeros n = None -> n = O.
Proof. destruct n as [|n]; [reflexivity|]. intros H. destruct (heap_zeros_ok (S n)) as [h [E _]]; [lia|]. congruence. Qed.
Lemma shift_left_negative k h : k < 0 -> shift_left k h = None.
Proof.
  intros Hk. induction h as [|c t IH]; [reflexivity|]. destruct t as [|d t].
  - cbn [shift_left]. replace (k =? 0) with false by lia. replace (Z.to_nat k) with O by lia. reflexivity.
  - transitivity (if k =? 0 then Some (c :: d :: t) else do r <- shift_left k (d :: t); Some (c :: r)); [reflexivity|]. replace (k =? 0) with false by lia. rewrite IH. reflexivity.
Qed.
Lemma ctMax_max a b : ctMax a b = Z.max a b.
Proof. unfold ctMax. destruct (b <? a) eqn:E; lia. Qed.
Lemma merge_ok a b : heap_ok a -> heap_ok b ->
  exists h, merge_bit_heaps a b = Some h /\ heap_ok h /\ width h = Z.max (width a) (width b) /\ total h = total a + total b.
Proof.
  intros Ha Hb. unfold merge_bit_heaps. change (hwidth a) with (width a). change (hwidth b) with (width b). rewrite ctMax_max.
  destruct (pad_ok (Z.max (width a) (width b)) a Ha) as [pa [Ea [Oa [Wa [Ta _]]]]]; [lia|].
  destruct (pad_ok (Z.max (width a) (width b)) b Hb) as [pb [Eb [Ob [Wb [Tb _]]]]]; [lia|].
  rewrite Ea. cbn [bind]. rewrite Eb. cbn [bind]. destruct (merge_equal_ok pa pb) as [h [E [O [L [T _]]]]]; [unfold width in *; lia|assumption|assumption|].
  exists h. split; [exact E|]. split; [exact O|]. split; [|lia]. unfold width in *. lia.
Qed.
