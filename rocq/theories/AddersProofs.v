(** The multi-operand adders add. *)
From Coq Require Import ZArith List Lia Bool.
From Verif Require Import Fw FwLemmas FwWord FwWordProofs FwWordProofs2 Heap SpecHeap HeapProofs HeapProofs2 HeapProofs3 Adders.
Import ListNotations.
Open Scope Z_scope.

(** A heap of n columns, each B bits high, of value v. *)
Definition flat (n : nat) (B v : Z) (h : heap) : Prop := heap_ok h /\ length h = n /\ heights h = repeat B n /\ total h = v.
Lemma heap_of_ok W x : 1 <= W -> 0 <= x < 2 ^ W -> exists h, heap_of W x = Some h /\ flat (Z.to_nat W) 1 x h.
Proof. intros H Hx. destruct (uint_to_bit_heap_ok (Z.to_nat W) x) as (h & E & O & L & Hh & T); [lia|rewrite Z2Nat.id by lia; exact Hx|]. exists h. split; [exact E|]. repeat split; (assumption || apply O). Qed.
Lemma combine_repeat {A B} (a : A) (b : B) n : combine (repeat a n) (repeat b n) = repeat (a, b) n.
Proof. induction n as [|n IH]; [reflexivity|]. cbn [repeat combine]. rewrite IH. reflexivity. Qed.
Lemma map_repeat {A B} (f : A -> B) a n : map f (repeat a n) = repeat (f a) n.
Proof. induction n as [|n IH]; [reflexivity|]. cbn [repeat map]. rewrite IH. reflexivity. Qed.
Lemma merge_flat n A B x y a b : flat n A x a -> flat n B y b -> exists h, merge_bit_heaps a b = Some h /\ flat n (A + B) (x + y) h.
Proof.
  intros (Oa & La & Ha & Ta) (Ob & Lb & Hb & Tb). unfold merge_bit_heaps. cbv zeta. rewrite ctMax_max.
  assert (Wa : hwidth a = Z.of_nat n) by (unfold hwidth; lia). assert (Wb : hwidth b = Z.of_nat n) by (unfold hwidth; lia). unfold pad_bit_heap. rewrite Wa, Wb, Z.max_id, Z.sub_diag. cbn [Z.leb Z.compare assert_ bind Z.to_nat pad_impl].
  destruct (merge_equal_ok a b) as (h & E & O & L & T & Hh); [lia|assumption|assumption|]. exists h. split; [exact E|]. split; [exact O|]. split; [lia|]. split; [|lia].
  rewrite Hh, Ha, Hb, combine_repeat, map_repeat. reflexivity.
Qed.
Lemma flat_result W n B v h : n = Z.to_nat W -> 1 <= W -> 0 <= B <= 10 -> flat n B v h -> exists c, compressed h = Some c /\ bit_heap_collapse c = Some (v mod 2 ^ W).
Proof.
  intros -> H HB (O & L & Hh & T). unfold compressed. destruct (compress_collapse 8 h O) as [r [E1 E2]].
  - apply (max_height_spec h O). rewrite Hh. apply Forall_forall. intros y Hy. apply repeat_spec in Hy. subst y. lia.
  - exists r. split; [exact E1|]. rewrite E2, (to_mpz_ok h O), T. unfold width. rewrite L, Z2Nat.id by lia. reflexivity.
Qed.
Ltac heap1 x h Hh := let E := fresh "E" in destruct (heap_of_ok _ x ltac:(eassumption) ltac:(assumption)) as (h & E & Hh); rewrite E; cbn [bind]; clear E.
Ltac merge1 Ha Hb h Hh := let E := fresh "E" in destruct (merge_flat _ _ _ _ _ _ _ Ha Hb) as (h & E & Hh); rewrite E; cbn [bind]; clear E.
Lemma x4_compressor W x0 x1 x2 x3 : 1 <= W -> 0 <= x0 < 2 ^ W -> 0 <= x1 < 2 ^ W -> 0 <= x2 < 2 ^ W -> 0 <= x3 < 2 ^ W ->
  add_x4_compressor W x0 x1 x2 x3 = Some ((x0 + x1 + x2 + x3) mod 2 ^ W).
Proof.
  intros H H0 H1 H2 H3. unfold add_x4_compressor. heap1 x0 h0 K0. heap1 x1 h1 K1. heap1 x2 h2 K2. heap1 x3 h3 K3.
  merge1 K0 K1 h01 K01. merge1 K2 K3 h23 K23. merge1 K01 K23 h K. destruct (flat_result W _ (1 + 1 + (1 + 1)) _ h eq_refl H ltac:(lia) K) as (c & -> & C). cbn [bind]. rewrite C. do 2 f_equal. lia.
Qed.
Lemma x8_compressor W x0 x1 x2 x3 x4 x5 x6 x7 : 1 <= W -> 0 <= x0 < 2 ^ W -> 0 <= x1 < 2 ^ W -> 0 <= x2 < 2 ^ W -> 0 <= x3 < 2 ^ W -> 0 <= x4 < 2 ^ W -> 0 <= x5 < 2 ^ W -> 0 <= x6 < 2 ^ W -> 0 <= x7 < 2 ^ W ->
  add_x8_compressor W x0 x1 x2 x3 x4 x5 x6 x7 = Some ((x0 + x1 + x2 + x3 + x4 + x5 + x6 + x7) mod 2 ^ W).
Proof.
  intros H H0 H1 H2 H3 H4 H5 H6 H7. unfold add_x8_compressor. heap1 x0 h0 K0. heap1 x1 h1 K1. heap1 x2 h2 K2. heap1 x3 h3 K3. heap1 x4 h4 K4. heap1 x5 h5 K5. heap1 x6 h6 K6. heap1 x7 h7 K7.
  merge1 K0 K1 h01 K01. merge1 K2 K3 h23 K23. merge1 K4 K5 h45 K45. merge1 K6 K7 h67 K67. merge1 K01 K23 ha Ka. merge1 K45 K67 hb Kb. merge1 Ka Kb h K.
  destruct (flat_result W _ (1 + 1 + (1 + 1) + (1 + 1 + (1 + 1))) _ h eq_refl H ltac:(lia) K) as (c & -> & C). cbn [bind]. rewrite C. do 2 f_equal. lia.
Qed.
Lemma row_plus_ok W l x : 0 <= W -> rows_ok W l -> wf W x -> row_plus (W, l) (rows_of W x) = Some (W, l ++ [x]) /\ rows_ok W (l ++ [x]).
Proof.
  intros H Hl Hx. unfold row_plus, rows_of, fw_uint_to_row_heap. cbn [fst snd]. destruct (row_add_ok W W l [x] H H Hl) as (E & R & _); [repeat constructor; apply Hx|]. rewrite Z.max_id in E, R. split; assumption.
Qed.
Lemma row_result W n l : 0 <= W -> (2 <= length l <= n + 2)%nat -> rows_ok W l -> (do c <- row_compress n W l; row_collapse W c) = Some (row_total l mod 2 ^ W).
Proof. intros H L R. destruct (row_collapse_ok W n l H L R) as (r & E & _ & _ & _ & C). rewrite E. cbn [bind]. rewrite C, (row_to_mpz_ok W l H R). reflexivity. Qed.
Ltac plus1 x R := let E := fresh "E" in let R' := fresh "R" in
  match type of R with rows_ok ?W ?l => destruct (row_plus_ok W l x ltac:(lia) R ltac:(assumption)) as [E R']; rewrite E; clear E; cbn [bind]; clear R; rename R' into R; cbn [app] in * end.
Lemma x4_row_heap W x0 x1 x2 x3 : 0 <= W -> 0 <= x0 < 2 ^ W -> 0 <= x1 < 2 ^ W -> 0 <= x2 < 2 ^ W -> 0 <= x3 < 2 ^ W ->
  add_x4_row_heap W x0 x1 x2 x3 = Some ((x0 + x1 + x2 + x3) mod 2 ^ W).
Proof.
  intros H H0 H1 H2 H3. unfold add_x4_row_heap. assert (R : rows_ok W [x0]) by (repeat constructor; apply H0). unfold rows_of at 1. unfold fw_uint_to_row_heap at 1.
  plus1 x1 R. plus1 x2 R. plus1 x3 R. cbn [fst snd]. rewrite row_result; [|exact H|cbn [length]; lia|exact R]. cbn [row_total fold_right]. do 2 f_equal. lia.
Qed.
Lemma x8_row_heap W x0 x1 x2 x3 x4 x5 x6 x7 : 0 <= W -> 0 <= x0 < 2 ^ W -> 0 <= x1 < 2 ^ W -> 0 <= x2 < 2 ^ W -> 0 <= x3 < 2 ^ W -> 0 <= x4 < 2 ^ W -> 0 <= x5 < 2 ^ W -> 0 <= x6 < 2 ^ W -> 0 <= x7 < 2 ^ W ->
  add_x8_row_heap W x0 x1 x2 x3 x4 x5 x6 x7 = Some ((x0 + x1 + x2 + x3 + x4 + x5 + x6 + x7) mod 2 ^ W).
Proof.
  intros H H0 H1 H2 H3 H4 H5 H6 H7. unfold add_x8_row_heap. assert (R : rows_ok W [x0]) by (repeat constructor; apply H0). unfold rows_of at 1. unfold fw_uint_to_row_heap at 1.
  plus1 x1 R. plus1 x2 R. plus1 x3 R. plus1 x4 R. plus1 x5 R. plus1 x6 R. plus1 x7 R. cbn [fst snd]. rewrite row_result; [|exact H|cbn [length]; lia|exact R]. cbn [row_total fold_right]. do 2 f_equal. lia.
Qed.
Lemma x8_plain W x0 x1 x2 x3 x4 x5 x6 x7 : 0 <= W -> add_x8 W x0 x1 x2 x3 x4 x5 x6 x7 = (x0 + x1 + x2 + x3 + x4 + x5 + x6 + x7) mod 2 ^ W.
Proof. intros H. unfold add_x8. rewrite (fadd_eq W x0 x1 H). rewrite (fadd_eq W _ x2 H), Zplus_mod_idemp_l. rewrite (fadd_eq W _ x3 H), Zplus_mod_idemp_l. rewrite (fadd_eq W _ x4 H), Zplus_mod_idemp_l. rewrite (fadd_eq W _ x5 H), Zplus_mod_idemp_l. rewrite (fadd_eq W _ x6 H), Zplus_mod_idemp_l. rewrite (fadd_eq W _ x7 H), Zplus_mod_idemp_l. reflexivity. Qed.
Lemma mul_main_wide a b : ~ 0 <= a < 2 ^ 17 -> - 2 ^ 31 <= a < 2 ^ 31 -> bit_heap_mul_main a b = None.
Proof. intros H Hi. unfold bit_heap_mul_main. rewrite m_of_int_bad by lia. reflexivity. Qed.
(** ** The height of a product's heap *)
Definition low (B : Z) (h : heap) : Prop := Forall (fun H => H <= B) (heights h).
Lemma low_weaken A B h : A <= B -> low A h -> low B h.
Proof. intros L H. eapply Forall_impl; [|exact H]. cbv beta. intros. lia. Qed.
Lemma low_combine A B l : forall m, Forall (fun H => H <= A) l -> Forall (fun H => H <= B) m -> Forall (fun H => H <= A + B) (map (fun p => fst p + snd p) (combine l m)).
Proof. induction l as [|x l IH]; intros [|y m] P Q; cbn [combine map]; try constructor; inversion P; inversion Q; subst; cbn [fst snd]; [lia|auto]. Qed.
Lemma repeat_low n B : 0 <= B -> Forall (fun H => H <= B) (repeat 0 n).
Proof. intros. induction n; cbn [repeat]; constructor; assumption. Qed.
Lemma merge_low A B a b h : heap_ok a -> heap_ok b -> 0 <= A -> 0 <= B -> low A a -> low B b -> merge_bit_heaps a b = Some h -> low (A + B) h.
Proof.
  intros Oa Ob HA HB La Lb. unfold merge_bit_heaps. change (hwidth a) with (width a). change (hwidth b) with (width b). rewrite ctMax_max.
  destruct (pad_ok (Z.max (width a) (width b)) a Oa) as (pa & Ea & Pa & Wa & Ta & Ha); [lia|].
  destruct (pad_ok (Z.max (width a) (width b)) b Ob) as (pb & Eb & Pb & Wb & Tb & Hb); [lia|]. rewrite Ea, Eb. cbn [bind].
  destruct (merge_equal_ok pa pb) as (r & E & O & L & T & Hh); [unfold width in *; lia|assumption|assumption|]. rewrite E. intros Q. injection Q as <-.
  unfold low. rewrite Hh. apply low_combine; [rewrite Ha|rewrite Hb]; apply Forall_app; split; (apply repeat_low; assumption) || assumption.
Qed.
Lemma shift_low B k h r : 0 <= k -> 0 <= B -> heap_ok h -> low B h -> shift_left k h = Some r -> low B r.
Proof.
  intros Hk HB O L E. destruct (shift_left_ok k h Hk O) as (r' & E' & _ & _ & _ & Hh). rewrite E' in E. injection E as <-. unfold low. rewrite Hh. apply Forall_app. split; [exact L|apply repeat_low; exact HB].
Qed.
Lemma tile_low WA WB a b h : 0 <= WA -> 0 <= WB -> 1 <= WA + WB -> 0 <= a < 2 ^ WA -> 0 <= b < 2 ^ WB -> mul_tile WA WB a b = Some h -> low 1 h.
Proof.
  intros HA HB HAB Ha Hb. unfold mul_tile. replace ((0 <=? WA) && (0 <=? WB))%bool with true by lia. cbn [assert_ bind].
  destruct (uint_to_bit_heap_ok (Z.to_nat (WA + WB)) (a * b)) as (r & E & Ok & L & Hh & T); [lia|rewrite Z2Nat.id by lia; apply mul_bound; assumption|].
  unfold fmul. rewrite E. intros Q. injection Q as <-. unfold low. rewrite Hh. clear. induction (Z.to_nat (WA + WB)); cbn [repeat]; constructor; [lia|assumption].
Qed.
(** The number of tiles a width is cut into. *)
Definition tiles (TILE W : Z) : Z := (W + TILE - 1) / TILE.
Lemma tiles_step TILE W : 1 <= TILE -> tiles TILE W = tiles TILE (W - TILE) + 1.
Proof. intros H. unfold tiles. replace (W + TILE - 1) with (W - TILE + TILE - 1 + 1 * TILE) by lia. rewrite Z.div_add by lia. reflexivity. Qed.
Lemma tiles_pos TILE W : 1 <= TILE -> 1 <= W -> 1 <= tiles TILE W.
Proof. intros H HW. unfold tiles. apply Z.div_le_lower_bound; lia. Qed.
Lemma split_b_low TILE WA a : 1 <= TILE -> 1 <= WA -> 0 <= a < 2 ^ WA -> forall f WB b h, (Z.to_nat WB <= f)%nat -> 1 <= WB -> 0 <= b < 2 ^ WB ->
  mul_split_b f TILE WA WB (TILE <? WB) a b = Some h -> low (tiles TILE WB) h.
Proof.
  intros HT HA Ha. induction f as [|f IH]; intros WB b h Hf HB Hb; [lia|]. rewrite mul_split_b_S. destruct (TILE <? WB) eqn:Q; cbn [negb].
  2:{ intros E. eapply low_weaken; [apply (tiles_pos TILE WB); lia|]. eapply tile_low; [| | | | |exact E]; lia. }
  destruct (split_value b WB TILE ltac:(lia) Hb) as [Bh [Bl Eb]]. rewrite take_msbs_ok by lia. rewrite drop_msbs_ok by lia. cbn [bind].
  destruct (mul_tile_ok WA TILE a (b / 2 ^ (WB - TILE))) as [ho [Eo [Oo [Wo To]]]]; try lia. pose proof (tile_low WA TILE a (b / 2 ^ (WB - TILE)) ho ltac:(lia) ltac:(lia) ltac:(lia) Ha Bh Eo) as Lo. rewrite Eo. cbn [bind].
  rewrite (print_ok ho) by (assumption || lia). cbn [bind]. destruct (shift_left_ok (WB - TILE) ho ltac:(lia) Oo) as [hi [Eh [Oh [Wh [Th _]]]]]. pose proof (shift_low 1 (WB - TILE) ho hi ltac:(lia) ltac:(lia) Oo Lo Eh) as Lh. rewrite Eh. cbn [bind].
  rewrite (print_ok hi) by (assumption || lia). cbn [bind].
  destruct (mul_split_b_ok TILE WA a HT HA Ha f (WB - TILE) (b mod 2 ^ (WB - TILE))) as [lo [El [Ol [Wl Tl]]]]; [lia|lia|exact Bl|].
  pose proof (IH (WB - TILE) (b mod 2 ^ (WB - TILE)) lo ltac:(lia) ltac:(lia) Bl El) as Ll. rewrite El. cbn [bind].
  rewrite (print_ok lo) by (assumption || lia). cbn [bind]. destruct (merge_ok hi lo Oh Ol) as [r [Er [Or [Wr Tr]]]]. pose proof (tiles_pos TILE (WB - TILE) HT ltac:(lia)). pose proof (merge_low 1 (tiles TILE (WB - TILE)) hi lo r Oh Ol ltac:(lia) ltac:(lia) Lh Ll Er) as Lr. rewrite Er. cbn [bind].
  rewrite (print_ok r) by (assumption || lia). cbn [bind]. intros E. injection E as <-. rewrite (tiles_step TILE WB HT). eapply low_weaken; [|exact Lr]. lia.
Qed.
Lemma split_a_low TILE WB b : 1 <= TILE < WB -> 0 <= b < 2 ^ WB -> forall f WA a h, (Z.to_nat WA <= f)%nat -> 1 <= WA -> 0 <= a < 2 ^ WA ->
  mul_split_a f TILE WA WB (TILE <? WA) a b = Some h -> low (tiles TILE WA * tiles TILE WB) h.
Proof.
  intros HT Hb. assert (QB : (TILE <? WB) = true) by lia. pose proof (tiles_pos TILE WB ltac:(lia) ltac:(lia)) as PB. induction f as [|f IH]; intros WA a h Hf HA Ha; [lia|]. rewrite mul_split_a_S. destruct (TILE <? WA) eqn:Q; cbn [negb].
  2:{ rewrite <- QB. intros E. pose proof (tiles_pos TILE WA ltac:(lia) HA). eapply low_weaken; [|eapply (split_b_low TILE WA a); [lia|lia|exact Ha| | |exact Hb|exact E]; lia]. clear - PB H. nia. }
  destruct (split_value a WA TILE ltac:(lia) Ha) as [Bh [Bl Ea]]. rewrite take_msbs_ok by lia. rewrite drop_msbs_ok by lia. cbn [bind].
  destruct (mul_split_b_ok TILE TILE (a / 2 ^ (WA - TILE)) ltac:(lia) ltac:(lia) Bh (Z.to_nat WB) WB b) as [ho [Eo [Oo [Wo To]]]]; [lia|lia|exact Hb|].
  pose proof (split_b_low TILE TILE _ ltac:(lia) ltac:(lia) Bh (Z.to_nat WB) WB b ho ltac:(lia) ltac:(lia) Hb Eo) as Lo. rewrite QB in Eo. rewrite Eo. cbn [bind].
  destruct (shift_left_ok (WA - TILE) ho ltac:(lia) Oo) as [hi [Eh [Oh [Wh [Th _]]]]]. pose proof (shift_low (tiles TILE WB) (WA - TILE) ho hi ltac:(lia) ltac:(lia) Oo Lo Eh) as Lh. rewrite Eh. cbn [bind].
  destruct (mul_split_a_ok TILE WB b HT Hb f (WA - TILE) (a mod 2 ^ (WA - TILE))) as [lo [El [Ol [Wl Tl]]]]; [lia|lia|exact Bl|].
  pose proof (IH (WA - TILE) (a mod 2 ^ (WA - TILE)) lo ltac:(lia) ltac:(lia) Bl El) as Ll. rewrite El. cbn [bind]. intros E. pose proof (tiles_pos TILE (WA - TILE) ltac:(lia) ltac:(lia)) as PA.
  eapply low_weaken; [|eapply (merge_low _ _ hi lo); [exact Oh|exact Ol| | |exact Lh|exact Ll|exact E]; clear - PA PB; nia]. rewrite (tiles_step TILE WA) by lia. lia.
Qed.
Lemma mul_height TILE WA WB a b h : 1 <= TILE -> 1 <= WA -> 1 <= WB -> 0 <= a < 2 ^ WA -> 0 <= b < 2 ^ WB -> bit_heap_mul TILE WA WB a b = Some h ->
  max_height h <= tiles TILE WA * tiles TILE WB.
Proof.
  intros HT HA HB Ha Hb E. destruct (mul_ok TILE WA WB a b HT HA HB Ha Hb) as (h' & E' & O & _). rewrite E in E'. injection E' as <-. apply max_height_spec; [exact O|]. change (low (tiles TILE WA * tiles TILE WB) h).
  pose proof (tiles_pos TILE WA HT HA) as PA. pose proof (tiles_pos TILE WB HT HB) as PB.
  revert E. unfold bit_heap_mul. replace ((0 <=? WA) && (0 <=? WB))%bool with true by lia. replace (0 <? TILE) with true by lia. cbn [assert_ bind].
  destruct (TILE <? WA) eqn:QA; destruct (TILE <? WB) eqn:QB; intros E.
  - rewrite <- QA in E. eapply split_a_low; [| | | | |exact E]; lia.
  - rewrite <- QA in E. eapply low_weaken; [|eapply (split_b_low TILE WB b); [exact HT|exact HB|exact Hb| | |exact Ha|exact E]; lia]. clear - PA PB. nia.
  - rewrite <- QB in E. eapply low_weaken; [|eapply (split_b_low TILE WA a); [exact HT|exact HA|exact Ha| | |exact Hb|exact E]; lia]. clear - PA PB. nia.
  - eapply low_weaken; [|eapply tile_low; [| | | | |exact E]; lia]. clear - PA PB. nia.
Qed.
Lemma mul_complete TILE WA WB a b n : 1 <= TILE -> 1 <= WA -> 1 <= WB -> 0 <= a < 2 ^ WA -> 0 <= b < 2 ^ WB -> tiles TILE WA * tiles TILE WB <= levels_height n ->
  (do h <- bit_heap_mul TILE WA WB a b; do r <- compress n h; bit_heap_collapse r) = Some (a * b).
Proof.
  intros HT HA HB Ha Hb Hn. destruct (mul_value TILE WA WB a b HT HA HB Ha Hb) as (h & E & _ & _ & _ & _ & C). pose proof (mul_height TILE WA WB a b h HT HA HB Ha Hb E).
  rewrite E. cbn [bind]. destruct (C n ltac:(lia)) as (r & -> & R). exact R.
Qed.
Lemma mul_main_value a b : 0 <= a < 2 ^ 17 -> 0 <= b < 2 ^ 24 -> bit_heap_mul_main a b = Some ((a * b, a * b), (a * b, a * b)).
Proof.
  intros Ha Hb. unfold bit_heap_mul_main. rewrite !m_of_int_ok by lia. cbn [bind]. destruct (mul_value 3 17 24 a b ltac:(lia) ltac:(lia) ltac:(lia) Ha Hb) as (h & E & O & Wh & T & M & C).
  pose proof (mul_height 3 17 24 a b h ltac:(lia) ltac:(lia) ltac:(lia) Ha Hb E) as L. change (tiles 3 17 * tiles 3 24) with 48 in L. rewrite E. cbn [bind].
  rewrite m_mul_ok by lia. cbn [bind]. rewrite M. cbn [bind]. destruct (C 10%nat) as (c & Ec & Rc); [change (levels_height 10) with 94; lia|].
  assert (Ec' : compress 40 h = Some c) by (apply (compress_mono 10 40); [lia|exact Ec]). rewrite Ec'. cbn [bind]. rewrite Rc. cbn [bind].
  assert (P : m_to_mpz 41 (a * b) = a * b). { pose proof (to_mpz_loop_ok 41 (a * b) 5 0 ltac:(nia) ltac:(lia) ltac:(lia) ltac:(lia)) as L'. change (2 ^ 0) with 1 in L'. rewrite Z.mod_1_r in L'. exact L'. }
  rewrite P. reflexivity.
Qed.
