(** Proofs about sums built with heaps and about the test programs of the heaps. *)
From Coq Require Import ZArith Bool List Lia.
From Verif Require Import Fw FwLemmas SpecHeap Heap HeapProofs HeapProofs2 HeapProofs3 SpecHeapSum HeapTests.
Import ListNotations.
Open Scope Z_scope.

Lemma map2_le l1 : forall l2 A B, Forall (fun H => H <= A) l1 -> Forall (fun H => H <= B) l2 -> Forall (fun H => H <= A + B) (map (fun p => fst p + snd p) (combine l1 l2)).
Proof.
  induction l1 as [|x t IH]; intros l2 A B H1 H2; [constructor|]. destruct l2 as [|y u]; [constructor|]. apply Forall_cons_iff in H1 as [H1 H1']. apply Forall_cons_iff in H2 as [H2 H2'].
  cbn [combine map fst snd]. constructor; [lia|apply IH; assumption].
Qed.
Lemma merge_full a b : heap_ok a -> heap_ok b ->
  exists h, merge_bit_heaps a b = Some h /\ heap_ok h /\ width h = Z.max (width a) (width b) /\ total h = total a + total b /\ max_height h <= max_height a + max_height b.
Proof.
  intros Ha Hb. unfold merge_bit_heaps. change (hwidth a) with (width a). change (hwidth b) with (width b). rewrite ctMax_max.
  destruct (pad_ok (Z.max (width a) (width b)) a Ha) as [pa [Ea [Oa [Wa [Ta Ga]]]]]; [lia|].
  destruct (pad_ok (Z.max (width a) (width b)) b Hb) as [pb [Eb [Ob [Wb [Tb Gb]]]]]; [lia|].
  rewrite Ea. cbn [bind]. rewrite Eb. cbn [bind]. destruct (merge_equal_ok pa pb) as [h [E [O [L [T G]]]]]; [unfold width in *; lia|assumption|assumption|].
  exists h. split; [exact E|]. split; [exact O|]. split; [unfold width in *; lia|]. split; [lia|]. apply max_height_spec; [exact O|]. rewrite G.
  assert (K : forall x n, heap_ok x -> Forall (fun H => H <= max_height x) (repeat 0 n ++ heights x)).
  { intros x n Hx. apply Forall_app. split; [|apply (max_height_spec x Hx); lia]. apply Forall_forall. intros y Hy. apply repeat_spec in Hy. pose proof (max_height_nonneg x Hx). lia. }
  apply map2_le; [rewrite Ga|rewrite Gb]; apply K; assumption.
Qed.
Lemma bit_of_full W x : 1 <= W -> 0 <= x < 2 ^ W -> exists h, bit_of W x = Some h /\ heap_ok h /\ width h = W /\ total h = x /\ max_height h <= 1.
Proof.
  intros HW Hx. destruct (uint_to_bit_heap_ok (Z.to_nat W) x) as [h [E [O [L [G T]]]]]; [lia|rewrite Z2Nat.id by lia; exact Hx|].
  exists h. split; [exact E|]. split; [exact O|]. split; [unfold width; lia|]. split; [exact T|]. apply max_height_spec; [exact O|]. rewrite G. apply Forall_forall. intros y Hy. apply repeat_spec in Hy. lia.
Qed.
Lemma widest_pos t : legal t -> 1 <= widest t.
Proof. induction t as [W x|s IHs t IHt]; cbn [legal widest]; intros [A B]; [exact A|]. specialize (IHs A). lia. Qed.
Lemma bit_run t : legal t -> exists h, run bit_of merge_bit_heaps t = Some h /\ heap_ok h /\ width h = widest t /\ total h = exact t /\ max_height h <= terms t.
Proof.
  induction t as [W x|s IHs t IHt]; cbn [legal run widest exact terms].
  - intros [A B]. exact (bit_of_full W x A B).
  - intros [A B]. destruct (IHs A) as [a [-> [Oa [Wa [Ta Ma]]]]]. destruct (IHt B) as [b [-> [Ob [Wb [Tb Mb]]]]].
    destruct (merge_full a b Oa Ob) as [h [E [O [L [T M]]]]]. exists h. split; [exact E|]. split; [exact O|]. split; [lia|]. split; lia.
Qed.
Lemma bit_sum t : legal t -> exists h, run bit_of merge_bit_heaps t = Some h /\ bit_heap_to_mpz h = Some (exact t mod 2 ^ widest t) /\
  (exists n r, compress n h = Some r) /\
  forall n r, compress n h = Some r -> bit_heap_to_mpz r = Some (exact t mod 2 ^ widest t) /\ bit_heap_collapse r = Some (exact t mod 2 ^ widest t).
Proof.
  intros L. destruct (bit_run t L) as [h [E [O [W [T M]]]]]. exists h. split; [exact E|]. assert (Z : bit_heap_to_mpz h = Some (exact t mod 2 ^ widest t)) by (rewrite to_mpz_ok by exact O; rewrite W, T; reflexivity).
  split; [exact Z|]. split; [destruct (compress_ok (Z.to_nat (terms t)) h O ltac:(pose proof (max_height_nonneg h O); lia)) as [r [K _]]; exists (Z.to_nat (terms t)), r; exact K|].
  intros n r K. destruct (compress_any n h r O K) as [_ [_ [_ [A B]]]]. rewrite A, B. split; exact Z.
Qed.

Lemma row_run t : legal t -> exists rows, run row_one row_plus t = Some (widest t, rows) /\ rows_ok (widest t) rows /\ row_total rows = exact t /\ Z.of_nat (length rows) = terms t.
Proof.
  induction t as [W x|s IHs t IHt]; cbn [legal run widest exact terms].
  - intros [A B]. exists [x]. split; [reflexivity|]. split; [constructor; [exact B|constructor]|]. split; [cbn; lia|reflexivity].
  - intros [A B]. destruct (IHs A) as [a [-> [Oa [Ta La]]]]. destruct (IHt B) as [b [-> [Ob [Tb Lb]]]]. pose proof (widest_pos s A). pose proof (widest_pos t B).
    destruct (row_add_ok (widest s) (widest t) a b ltac:(lia) ltac:(lia) Oa Ob) as [E [O T]]. exists (a ++ b). unfold row_plus. cbn [fst snd]. split; [exact E|]. split; [exact O|]. split; [lia|]. rewrite app_length. lia.
Qed.
Lemma row_sum t : legal t -> exists rows, run row_one row_plus t = Some (widest t, rows) /\ row_heap_to_mpz (widest t) rows = exact t mod 2 ^ widest t /\
  (2 <= terms t -> exists n r, row_compress n (widest t) rows = Some r /\
    row_heap_to_mpz (widest t) r = exact t mod 2 ^ widest t /\ row_collapse (widest t) r = Some (exact t mod 2 ^ widest t)).
Proof.
  intros L. destruct (row_run t L) as [rows [E [O [T K]]]]. pose proof (widest_pos t L). exists rows. split; [exact E|].
  assert (Z : row_heap_to_mpz (widest t) rows = exact t mod 2 ^ widest t) by (rewrite row_to_mpz_ok by (lia || exact O); rewrite T; reflexivity).
  split; [exact Z|]. intros N. destruct (row_collapse_ok (widest t) (length rows) rows ltac:(lia) ltac:(lia) O) as [r [A [_ [_ [B C]]]]]. exists (length rows), r. split; [exact A|]. rewrite B, C, Z. split; reflexivity.
Qed.

(** ** The test programs *)
Lemma then_nil a b : a = Some [] -> b = Some [] -> then_ a b = Some [].
Proof. intros -> ->. reflexivity. Qed.
Lemma unless_nil q a : a = Some [] -> unless q a = Some [].
Proof. destruct q; [reflexivity|exact (fun H => H)]. Qed.
Ltac seqs tac := lazymatch goal with |- then_ _ _ = _ => apply then_nil; seqs tac | |- unless _ _ = _ => apply unless_nil; seqs tac | _ => tac end.
Lemma for_up_nil n body : forall i, (forall j, i <= j < i + Z.of_nat n -> body j = Some []) -> for_up n i body = Some [].
Proof. induction n as [|n IH]; intros i H; [reflexivity|]. cbn [for_up]. apply then_nil; [apply H; lia|]. apply IH. intros j Hj. apply H. lia. Qed.
Lemma for_width_nil W body : 0 <= W -> (forall a, 0 <= a < 2 ^ W -> body a = Some []) -> for_width W body = Some [].
Proof.
  intros HW H. unfold for_width. apply for_up_nil. intros j Hj. pose proof (pow2_pos W HW). rewrite Z2Nat.id in Hj by lia. rewrite of_int_ok by lia. cbn [bind]. apply H. lia.
Qed.
Lemma differ_same r : differ r r = [].
Proof. unfold differ. rewrite Z.eqb_refl. reflexivity. Qed.
Lemma ref_sum_ok WT l : 0 <= WT -> Forall (fun p => 0 <= fst p <= WT /\ 0 <= snd p < 2 ^ fst p) l -> forall acc, ref_sum WT (acc mod 2 ^ WT) l = Some ((acc + row_total (map snd l)) mod 2 ^ WT).
Proof.
  intros HW. induction l as [|[W x] t IH]; intros H acc; cbn [ref_sum map snd row_total fold_right]; [rewrite Z.add_0_r; reflexivity|]. apply Forall_cons_iff in H as [[A B] H]. cbn [fst snd] in A, B.
  unfold extu. replace (W <=? WT) with true by lia. cbn [bind]. rewrite zpad_hi_eq by lia. rewrite fadd_eq by lia. rewrite Z.add_mod_idemp_l by (pose proof (pow2_pos WT HW); lia). rewrite IH by exact H. f_equal. f_equal. unfold row_total. lia.
Qed.
Lemma ref_add_ok WT WA a l : 0 <= WA <= WT -> 0 <= a < 2 ^ WA -> Forall (fun p => 0 <= fst p <= WT /\ 0 <= snd p < 2 ^ fst p) l -> ref_add WT WA a l = Some ((a + row_total (map snd l)) mod 2 ^ WT).
Proof.
  intros HW Ha H. unfold ref_add, extu. replace (WA <=? WT) with true by lia. cbn [bind]. rewrite zpad_hi_eq by lia.
  replace a with (a mod 2 ^ WT) at 1 by (apply Z.mod_small; pose proof (Z.pow_le_mono_r 2 WA WT ltac:(lia) ltac:(lia)); lia). apply ref_sum_ok; [lia|exact H].
Qed.

Lemma bit_level_4_ok WA WB WC WD b c d : 1 <= WA -> 1 <= WB -> 1 <= WC -> 1 <= WD -> 0 <= b < 2 ^ WB -> 0 <= c < 2 ^ WC -> 0 <= d < 2 ^ WD ->
  bit_level_4 bit_library WA WB WC WD b c d = Some [].
Proof.
  intros A B C D Hb Hc Hd. apply for_width_nil; [lia|]. intros a Ha. cbv zeta. rewrite !ctMax_max.
  destruct (bit_of_full WA a A Ha) as [ha [-> [Oa [Wa [Ta Ma]]]]]. destruct (bit_of_full WB b B Hb) as [hb [-> [Ob [Wb [Tb Mb]]]]].
  destruct (bit_of_full WC c C Hc) as [hc [-> [Oc [Wc [Tc Mc]]]]]. destruct (bit_of_full WD d D Hd) as [hd [-> [Od [Wd [Td Md]]]]]. cbn [bind bit_library b_merge b_compress b_collapse].
  destruct (merge_full ha hb Oa Ob) as [h1 [-> [O1 [W1 [T1 M1]]]]]. destruct (merge_full hc hd Oc Od) as [h2 [-> [O2 [W2 [T2 M2]]]]]. cbn [bind].
  destruct (merge_full h1 h2 O1 O2) as [h [-> [O [W [T M]]]]]. cbn [bind].
  rewrite ref_add_ok; [|lia|exact Ha|repeat constructor; cbn [fst snd]; lia]. cbn [bind map snd row_total fold_right].
  destruct (compress_ok 8 h O ltac:(lia)) as [r [K [Or [Mr _]]]]. destruct (compress_any 8 h r O K) as [_ [_ [_ [Zr Cr]]]].
  assert (Z : bit_heap_to_mpz h = Some ((a + (b + (c + (d + 0)))) mod 2 ^ Z.max (Z.max WC WD) (Z.max WA WB))).
  { rewrite to_mpz_ok by exact O. f_equal. f_equal; [lia|f_equal; lia]. }
  rewrite Z, K. cbn [bind]. rewrite Zr, Z. cbn [bind]. replace (max_height r <=? 2) with true by lia. cbn [bind assert_]. rewrite Cr, Z. cbn [bind]. rewrite !differ_same. reflexivity.
Qed.
Lemma bit_level_3_ok q WA WB WC b c : 1 <= WA -> 1 <= WB -> 1 <= WC -> 0 <= b < 2 ^ WB -> 0 <= c < 2 ^ WC -> bit_level_3 bit_library q WA WB WC b c = Some [].
Proof.
  intros A B C Hb Hc. apply for_width_nil; [lia|]. intros a Ha. cbv zeta. rewrite !ctMax_max.
  destruct (bit_of_full WA a A Ha) as [ha [-> [Oa [Wa [Ta Ma]]]]]. destruct (bit_of_full WB b B Hb) as [hb [-> [Ob [Wb [Tb Mb]]]]].
  destruct (bit_of_full WC c C Hc) as [hc [-> [Oc [Wc [Tc Mc]]]]]. cbn [bind bit_library b_merge b_compress b_collapse].
  destruct (merge_full ha hb Oa Ob) as [h1 [-> [O1 [W1 [T1 M1]]]]]. cbn [bind].
  destruct (merge_full h1 hc O1 Oc) as [h [-> [O [W [T M]]]]]. cbn [bind].
  rewrite ref_add_ok; [|lia|exact Ha|repeat constructor; cbn [fst snd]; lia]. cbn [bind map snd row_total fold_right]. rewrite to_mpz_ok by exact O. cbn [bind].
  apply then_nil; [|seqs ltac:(apply bit_level_4_ok; lia)]. rewrite W, T, W1, T1, Wa, Wb, Wc, Ta, Tb, Tc.
  replace (Z.max (Z.max WA WB) WC) with (Z.max WC (Z.max WA WB)) by lia. replace (a + b + c) with (a + (b + (c + 0))) by lia. rewrite differ_same. reflexivity.
Qed.
Lemma bit_level_2_ok q WA WB b : 1 <= WA -> 1 <= WB -> 0 <= b < 2 ^ WB -> bit_level_2 bit_library q WA WB b = Some [].
Proof.
  intros A B Hb. apply for_width_nil; [lia|]. intros a Ha. cbv zeta. rewrite !ctMax_max.
  destruct (bit_of_full WA a A Ha) as [ha [-> [Oa [Wa [Ta Ma]]]]]. destruct (bit_of_full WB b B Hb) as [hb [-> [Ob [Wb [Tb Mb]]]]]. cbn [bind bit_library b_merge b_compress b_collapse].
  destruct (merge_full ha hb Oa Ob) as [h [-> [O [W [T M]]]]]. cbn [bind].
  rewrite ref_add_ok; [|lia|exact Ha|repeat constructor; cbn [fst snd]; lia]. cbn [bind map snd row_total fold_right]. rewrite to_mpz_ok by exact O. cbn [bind].
  apply then_nil; [|seqs ltac:(apply bit_level_3_ok; lia)]. rewrite W, T, Wa, Wb, Ta, Tb.
  replace (a + (b + 0)) with (a + b) by lia. rewrite differ_same. reflexivity.
Qed.
Lemma bit_level_1_ok q W : 1 <= W -> bit_level_1 bit_library q W = Some [].
Proof. intros HW. apply for_width_nil; [lia|]. intros x Hx. seqs ltac:(apply bit_level_2_ok; lia). Qed.
Lemma bit_main_ok q : bit_main bit_library q = Some ([], 0).
Proof. unfold bit_main. rewrite then_nil; [reflexivity|seqs ltac:(apply bit_level_1_ok; lia)|seqs ltac:(apply bit_level_1_ok; lia)]. Qed.

Lemma chain_ok l : forall W rows, 1 <= W -> rows_ok W rows -> Forall (fun p => 1 <= fst p /\ 0 <= snd p < 2 ^ fst p) l ->
  let W' := fold_left Z.max (map fst l) W in
  row_chain row_library (W, rows) l = Some (W', rows ++ map snd l) /\ rows_ok W' (rows ++ map snd l) /\ W <= W'.
Proof.
  induction l as [|[B x] t IH]; intros W rows HW O H; cbn [row_chain map fold_left fst snd]; [rewrite app_nil_r; repeat split; [exact O|lia]|].
  apply Forall_cons_iff in H as [[A Hx] H]. cbn [fst snd] in A, Hx. cbn [r_add row_library].
  destruct (row_add_ok W B rows [x] ltac:(lia) ltac:(lia) O ltac:(constructor; [exact Hx|constructor])) as [E [O' _]]. unfold fw_uint_to_row_heap. rewrite E. cbn [bind].
  destruct (IH (Z.max W B) (rows ++ [x]) ltac:(lia) O' H) as [E' [O'' L]]. rewrite <- app_assoc in E', O''. split; [exact E'|]. split; [exact O''|lia].
Qed.
Lemma row_checks_ok W rows ref : 1 <= W -> rows_ok W rows -> (2 <= length rows <= 10)%nat -> ref = row_total rows mod 2 ^ W -> row_checks row_library ref (W, rows) = Some [].
Proof.
  intros HW O L ->. unfold row_checks. cbn [r_compress r_collapse row_library]. destruct (row_collapse_ok W 8 rows ltac:(lia) ltac:(lia) O) as [r [-> [_ [Lr [B C]]]]]. cbn [bind]. rewrite Lr. cbn [bind assert_]. change (Z.of_nat 2 <=? 2) with true. cbn [bind].
  rewrite C. cbn [bind]. rewrite B, row_to_mpz_ok by (lia || exact O). rewrite !differ_same. reflexivity.
Qed.
Lemma rows1 W x : 0 <= x < 2 ^ W -> rows_ok W (fw_uint_to_row_heap x).
Proof. intros H. constructor; [exact H|constructor]. Qed.
Lemma row_level_4_ok WA WB WC WD b c d : 1 <= WA -> 1 <= WB -> 1 <= WC -> 1 <= WD -> 0 <= b < 2 ^ WB -> 0 <= c < 2 ^ WC -> 0 <= d < 2 ^ WD ->
  row_level_4 row_library WA WB WC WD b c d = Some [].
Proof.
  intros A B C D Hb Hc Hd. apply for_width_nil; [lia|]. intros a Ha. cbv zeta. rewrite !ctMax_max.
  destruct (chain_ok [(WB, b); (WC, c); (WD, d)] WA _ A (rows1 WA a Ha) ltac:(repeat constructor; cbn [fst snd]; lia)) as [-> [O _]]. cbn [bind]. cbn [map fst snd fold_left] in O |- *.
  rewrite ref_add_ok; [|lia|exact Ha|repeat constructor; cbn [fst snd]; lia]. cbn [bind]. apply row_checks_ok; [lia|exact O|cbn; lia|]. cbn [map snd app fw_uint_to_row_heap row_total fold_right]. f_equal. f_equal. lia.
Qed.
Lemma row_level_3_ok q WA WB WC b c : 1 <= WA -> 1 <= WB -> 1 <= WC -> 0 <= b < 2 ^ WB -> 0 <= c < 2 ^ WC -> row_level_3 row_library q WA WB WC b c = Some [].
Proof.
  intros A B C Hb Hc. apply for_width_nil; [lia|]. intros a Ha. cbv zeta. rewrite !ctMax_max.
  destruct (chain_ok [(WB, b); (WC, c)] WA _ A (rows1 WA a Ha) ltac:(repeat constructor; cbn [fst snd]; lia)) as [-> [O _]]. cbn [bind]. cbn [map fst snd fold_left] in O |- *.
  rewrite ref_add_ok; [|lia|exact Ha|repeat constructor; cbn [fst snd]; lia]. cbn [bind].
  apply then_nil; [apply row_checks_ok; [lia|exact O|cbn; lia|]; cbn [map snd app fw_uint_to_row_heap row_total fold_right]; f_equal; f_equal; lia|].
  seqs ltac:(apply row_level_4_ok; lia).
Qed.
Lemma row_level_2_ok q WA WB b : 1 <= WA -> 1 <= WB -> 0 <= b < 2 ^ WB -> row_level_2 row_library q WA WB b = Some [].
Proof.
  intros A B Hb. apply for_width_nil; [lia|]. intros a Ha. cbv zeta. rewrite !ctMax_max.
  destruct (chain_ok [(WB, b)] WA _ A (rows1 WA a Ha) ltac:(repeat constructor; cbn [fst snd]; lia)) as [-> [O _]]. cbn [bind]. cbn [map fst snd fold_left] in O |- *.
  rewrite ref_add_ok; [|lia|exact Ha|repeat constructor; cbn [fst snd]; lia]. cbn [bind].
  apply then_nil; [rewrite row_to_mpz_ok by (lia || exact O); rewrite differ_same; reflexivity|].
  seqs ltac:(apply row_level_3_ok; lia).
Qed.
Lemma row_level_1_ok q W : 1 <= W -> row_level_1 row_library q W = Some [].
Proof.
  intros HW. apply for_width_nil; [lia|]. intros x Hx. apply then_nil.
  - rewrite row_to_mpz_ok by (lia || exact (rows1 W x Hx)). cbn [fw_uint_to_row_heap row_total fold_right]. rewrite Z.add_0_r, Z.mod_small by exact Hx. rewrite differ_same. reflexivity.
  - seqs ltac:(apply row_level_2_ok; lia).
Qed.
Lemma row_main_ok q : row_main row_library q = Some ([], 0).
Proof. unfold row_main. rewrite then_nil; [reflexivity|seqs ltac:(apply row_level_1_ok; lia)|seqs ltac:(apply row_level_1_ok; lia)]. Qed.

(** ** With the wrong final adder *)
Definition prints (x : option output) : Prop := exists o, x = Some o /\ o <> [].
Lemma then_prints_l x y o : prints x -> y = Some o -> prints (then_ x y).
Proof. intros [a [-> N]] ->. exists (a ++ o). split; [reflexivity|]. intros H. apply app_eq_nil in H. tauto. Qed.
Lemma then_prints_r x y o : x = Some o -> prints y -> prints (then_ x y).
Proof. intros -> [a [-> N]]. exists (o ++ a). split; [reflexivity|]. intros H. apply app_eq_nil in H. tauto. Qed.
Lemma for_up_prints n body : forall i, (0 < n)%nat -> (forall j, i <= j < i + Z.of_nat n -> prints (body j)) -> prints (for_up n i body).
Proof.
  induction n as [|n IH]; intros i L H; [lia|]. cbn [for_up]. assert (P : prints (body i)) by (apply H; lia). destruct n as [|n]; [apply then_prints_l with []; [exact P|reflexivity]|].
  destruct (IH (i + 1) ltac:(lia)) as [o [E _]]; [intros j Hj; apply H; lia|]. apply then_prints_l with o; assumption.
Qed.
Lemma for_width_prints W body : 0 <= W -> (forall a, 0 <= a < 2 ^ W -> prints (body a)) -> prints (for_width W body).
Proof.
  intros HW H. pose proof (pow2_pos W HW). apply for_up_prints; [lia|]. intros j Hj. rewrite Z2Nat.id in Hj by lia. rewrite of_int_ok by lia. cbn [bind]. apply H. lia.
Qed.
Lemma off_by_one W x : 1 <= W -> fadd W (x mod 2 ^ W) 1 <> x mod 2 ^ W.
Proof.
  intros HW. rewrite fadd_eq by lia. pose proof (Z.pow_le_mono_r 2 1 W ltac:(lia) ltac:(lia)) as P. change (2 ^ 1) with 2 in P. pose proof (Z.mod_pos_bound x (2 ^ W) ltac:(lia)) as B.
  destruct (Z.eq_dec (x mod 2 ^ W) (2 ^ W - 1)) as [E|N]; [rewrite E; replace (2 ^ W - 1 + 1) with (2 ^ W) by lia; rewrite Z.mod_same by lia; lia|rewrite (Z.mod_small (x mod 2 ^ W + 1)) by lia; lia].
Qed.
Lemma differ_off r g : g <> r -> differ r g = [(r, g)].
Proof. intros N. unfold differ. replace (r =? g) with false by (symmetry; apply Z.eqb_neq; congruence). reflexivity. Qed.
Lemma bit_level_4_wrong WA WB WC WD b c d : 1 <= WA -> 1 <= WB -> 1 <= WC -> 1 <= WD -> 0 <= b < 2 ^ WB -> 0 <= c < 2 ^ WC -> 0 <= d < 2 ^ WD ->
  prints (bit_level_4 bit_wrong WA WB WC WD b c d).
Proof.
  intros A B C D Hb Hc Hd. apply for_width_prints; [lia|]. intros a Ha. cbv zeta. rewrite !ctMax_max.
  destruct (bit_of_full WA a A Ha) as [ha [-> [Oa [Wa [Ta Ma]]]]]. destruct (bit_of_full WB b B Hb) as [hb [-> [Ob [Wb [Tb Mb]]]]].
  destruct (bit_of_full WC c C Hc) as [hc [-> [Oc [Wc [Tc Mc]]]]]. destruct (bit_of_full WD d D Hd) as [hd [-> [Od [Wd [Td Md]]]]]. cbn [bind bit_wrong b_merge b_compress b_collapse].
  destruct (merge_full ha hb Oa Ob) as [h1 [-> [O1 [W1 [T1 M1]]]]]. destruct (merge_full hc hd Oc Od) as [h2 [-> [O2 [W2 [T2 M2]]]]]. cbn [bind].
  destruct (merge_full h1 h2 O1 O2) as [h [-> [O [W [T M]]]]]. cbn [bind].
  rewrite ref_add_ok; [|lia|exact Ha|repeat constructor; cbn [fst snd]; lia]. cbn [bind map snd row_total fold_right].
  destruct (compress_ok 8 h O ltac:(lia)) as [r [K [Or [Mr _]]]]. destruct (compress_any 8 h r O K) as [_ [_ [Wr [Zr Cr]]]].
  assert (Z : bit_heap_to_mpz h = Some ((a + (b + (c + (d + 0)))) mod 2 ^ Z.max (Z.max WC WD) (Z.max WA WB))).
  { rewrite to_mpz_ok by exact O. f_equal. f_equal; [lia|f_equal; lia]. }
  rewrite Z, K. cbn [bind]. rewrite Zr, Z. cbn [bind]. replace (max_height r <=? 2) with true by lia. cbn [bind assert_]. rewrite Cr, Z. cbn [bind]. rewrite !differ_same.
  change (hwidth r) with (width r). replace (width r) with (Z.max (Z.max WC WD) (Z.max WA WB)) by lia. rewrite differ_off by (apply off_by_one; lia). eexists. split; [reflexivity|discriminate].
Qed.
Lemma bit_level_3_wrong WA WB WC b c : 1 <= WA -> 1 <= WB -> 1 <= WC -> 0 <= b < 2 ^ WB -> 0 <= c < 2 ^ WC -> prints (bit_level_3 bit_wrong true WA WB WC b c).
Proof.
  intros A B C Hb Hc. apply for_width_prints; [lia|]. intros a Ha. cbv zeta. rewrite !ctMax_max.
  destruct (bit_of_full WA a A Ha) as [ha [-> [Oa [Wa [Ta Ma]]]]]. destruct (bit_of_full WB b B Hb) as [hb [-> [Ob [Wb [Tb Mb]]]]].
  destruct (bit_of_full WC c C Hc) as [hc [-> [Oc [Wc [Tc Mc]]]]]. cbn [bind bit_wrong b_merge b_compress b_collapse].
  destruct (merge_full ha hb Oa Ob) as [h1 [-> [O1 [W1 [T1 M1]]]]]. cbn [bind].
  destruct (merge_full h1 hc O1 Oc) as [h [-> [O [W [T M]]]]]. cbn [bind].
  rewrite ref_add_ok; [|lia|exact Ha|repeat constructor; cbn [fst snd]; lia]. cbn [bind]. rewrite to_mpz_ok by exact O. cbn [bind unless].
  eapply then_prints_r; [reflexivity|]. eapply then_prints_r; [reflexivity|]. eapply then_prints_l; [apply bit_level_4_wrong; lia|reflexivity].
Qed.
Lemma bit_level_2_wrong WA WB b : 1 <= WA -> 1 <= WB -> 0 <= b < 2 ^ WB -> prints (bit_level_2 bit_wrong true WA WB b).
Proof.
  intros A B Hb. apply for_width_prints; [lia|]. intros a Ha. cbv zeta. rewrite !ctMax_max.
  destruct (bit_of_full WA a A Ha) as [ha [-> [Oa [Wa [Ta Ma]]]]]. destruct (bit_of_full WB b B Hb) as [hb [-> [Ob [Wb [Tb Mb]]]]]. cbn [bind bit_wrong b_merge b_compress b_collapse].
  destruct (merge_full ha hb Oa Ob) as [h [-> [O [W [T M]]]]]. cbn [bind].
  rewrite ref_add_ok; [|lia|exact Ha|repeat constructor; cbn [fst snd]; lia]. cbn [bind]. rewrite to_mpz_ok by exact O. cbn [bind unless].
  eapply then_prints_r; [reflexivity|]. eapply then_prints_r; [reflexivity|]. eapply then_prints_r; [reflexivity|]. apply bit_level_3_wrong; lia.
Qed.
Lemma bit_main_wrong : exists out, bit_main bit_wrong true = Some (out, 0) /\ out <> [].
Proof.
  assert (P : prints (bit_level_1 bit_wrong true 5)).
  { apply for_width_prints; [lia|]. intros x Hx. cbn [unless]. eapply then_prints_r; [reflexivity|]. eapply then_prints_l; [apply bit_level_2_wrong; lia|reflexivity]. }
  unfold bit_main. cbn [unless]. destruct P as [o [E N]]. exists o. rewrite E. split; [reflexivity|exact N].
Qed.
Lemma chain_same l : forall s, row_chain row_wrong s l = row_chain row_library s l.
Proof. induction l as [|[W x] t IH]; intros s; [reflexivity|]. cbn [row_chain r_add row_wrong row_library]. destruct (row_add _ _ _ _); [apply IH|reflexivity]. Qed.
Lemma row_checks_wrong W rows ref : 1 <= W -> rows_ok W rows -> (2 <= length rows <= 10)%nat -> ref = row_total rows mod 2 ^ W -> prints (row_checks row_wrong ref (W, rows)).
Proof.
  intros HW O L ->. unfold row_checks. cbn [r_compress r_collapse row_wrong]. destruct (row_collapse_ok W 8 rows ltac:(lia) ltac:(lia) O) as [r [-> [_ [Lr [B C]]]]]. cbn [bind]. rewrite Lr. change (Z.of_nat 2 <=? 2) with true. cbn [bind assert_].
  rewrite C. cbn [bind]. rewrite B, row_to_mpz_ok by (lia || exact O). rewrite !differ_same, (differ_off _ _ (off_by_one _ _ HW)). eexists. split; [reflexivity|discriminate].
Qed.
Lemma row_level_4_wrong WA WB WC WD b c d : 1 <= WA -> 1 <= WB -> 1 <= WC -> 1 <= WD -> 0 <= b < 2 ^ WB -> 0 <= c < 2 ^ WC -> 0 <= d < 2 ^ WD ->
  prints (row_level_4 row_wrong WA WB WC WD b c d).
Proof.
  intros A B C D Hb Hc Hd. apply for_width_prints; [lia|]. intros a Ha. cbv zeta. rewrite !ctMax_max, chain_same.
  destruct (chain_ok [(WB, b); (WC, c); (WD, d)] WA _ A (rows1 WA a Ha) ltac:(repeat constructor; cbn [fst snd]; lia)) as [-> [O _]]. cbn [bind]. cbn [map fst snd fold_left] in O |- *.
  rewrite ref_add_ok; [|lia|exact Ha|repeat constructor; cbn [fst snd]; lia]. cbn [bind]. apply row_checks_wrong; [lia|exact O|cbn; lia|]. cbn [map snd app fw_uint_to_row_heap row_total fold_right]. f_equal. f_equal. lia.
Qed.
Lemma row_level_3_wrong WA WB WC b c : 1 <= WA -> 1 <= WB -> 1 <= WC -> 0 <= b < 2 ^ WB -> 0 <= c < 2 ^ WC -> prints (row_level_3 row_wrong true WA WB WC b c).
Proof.
  intros A B C Hb Hc. apply for_width_prints; [lia|]. intros a Ha. cbv zeta. rewrite !ctMax_max, chain_same.
  destruct (chain_ok [(WB, b); (WC, c)] WA _ A (rows1 WA a Ha) ltac:(repeat constructor; cbn [fst snd]; lia)) as [-> [O _]]. cbn [bind]. cbn [map fst snd fold_left] in O |- *.
  rewrite ref_add_ok; [|lia|exact Ha|repeat constructor; cbn [fst snd]; lia]. cbn [bind unless].
  destruct (row_level_4_wrong 4 WA WB WC a b c) as [o [E _]]; try lia. rewrite E.
  eapply then_prints_l; [apply row_checks_wrong; [lia|exact O|cbn; lia|]; cbn [map snd app fw_uint_to_row_heap row_total fold_right]; f_equal; f_equal; lia|reflexivity].
Qed.
Lemma row_level_2_wrong WA WB b : 1 <= WA -> 1 <= WB -> 0 <= b < 2 ^ WB -> prints (row_level_2 row_wrong true WA WB b).
Proof.
  intros A B Hb. apply for_width_prints; [lia|]. intros a Ha. cbv zeta. rewrite !ctMax_max, chain_same.
  destruct (chain_ok [(WB, b)] WA _ A (rows1 WA a Ha) ltac:(repeat constructor; cbn [fst snd]; lia)) as [-> [O _]]. cbn [bind]. cbn [map fst snd fold_left] in O |- *.
  rewrite ref_add_ok; [|lia|exact Ha|repeat constructor; cbn [fst snd]; lia]. cbn [bind unless].
  eapply then_prints_r; [reflexivity|]. eapply then_prints_r; [reflexivity|]. apply row_level_3_wrong; lia.
Qed.
Lemma row_main_wrong : exists out, row_main row_wrong true = Some (out, 0) /\ out <> [].
Proof.
  assert (P : prints (row_level_1 row_wrong true 3)).
  { apply for_width_prints; [lia|]. intros x Hx. cbn [unless]. eapply then_prints_r; [reflexivity|]. eapply then_prints_r; [reflexivity|]. eapply then_prints_l; [apply row_level_2_wrong; lia|reflexivity]. }
  unfold row_main. cbn [unless]. destruct P as [o [E N]]. rewrite E. exists (o ++ []). split; [reflexivity|]. rewrite app_nil_r. exact N.
Qed.
