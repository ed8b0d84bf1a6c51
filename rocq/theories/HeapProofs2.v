(** Bit heaps: compression and collapse. *)
From Coq Require Import ZArith Bool List Lia.
From Verif Require Import Fw FwLemmas SpecHeap Heap HeapProofs.
Import ListNotations.
Open Scope Z_scope.

Lemma compress_3_2_ok x : 0 <= x < 8 -> exists c s, compress_3_2 x = Some (c, s) /\ 0 <= c < 2 /\ 0 <= s < 2 /\ ones 3 x = 2 * c + s.
Proof.
  intros H. assert (x = 0 \/ x = 1 \/ x = 2 \/ x = 3 \/ x = 4 \/ x = 5 \/ x = 6 \/ x = 7) as D by lia.
  destruct D as [->|[->|[->|[->|[->|[->|[->| ->]]]]]]]; vm_compute; eexists _, _; (split; [reflexivity|]); repeat split; discriminate.
Qed.
Lemma div3_S (a : Z) : (a + 3) / 3 = a / 3 + 1.
Proof. replace (a + 3) with (a + 1 * 3) by lia. apply Z.div_add. lia. Qed.
Lemma compress_column_3 m x : compress_column (S (S (S m))) x =
  (do t <- take_lsbs (Z.of_nat (S (S (S m)))) 3 x;
   do local <- compress_3_2 t;
   do d <- drop_lsbs (Z.of_nat (S (S (S m)))) 3 x;
   do next <- compress_column m d;
   let '(lc, ls) := local in let '((cw, c), (sw, s)) := next in Some ((cw + 1, cat cw lc c), (sw + 1, cat sw ls s))).
Proof. reflexivity. Qed.
Lemma compress_column_ok n : forall x, 0 <= x < 2 ^ Z.of_nat n ->
  exists c s, compress_column n x = Some (((Z.of_nat n + 1) / 3, c), ((Z.of_nat n + 2) / 3, s)) /\
    0 <= c < 2 ^ ((Z.of_nat n + 1) / 3) /\ 0 <= s < 2 ^ ((Z.of_nat n + 2) / 3) /\
    ones (Z.of_nat n) x = 2 * ones ((Z.of_nat n + 1) / 3) c + ones ((Z.of_nat n + 2) / 3) s.
Proof.
  induction n as [n IH] using lt_wf_ind. intros x Hx. destruct n as [|[|[|m]]].
  - exists 0, 0. change (2 ^ Z.of_nat 0) with 1 in Hx. assert (x = 0) as -> by lia. vm_compute. split; [reflexivity|]. repeat split; discriminate.
  - change (2 ^ Z.of_nat 1) with 2 in Hx. exists 0, x. assert (x = 0 \/ x = 1) as [->| ->] by lia; vm_compute; (split; [reflexivity|]); repeat split; discriminate.
  - change (2 ^ Z.of_nat 2) with 4 in Hx. assert (x = 0 \/ x = 1 \/ x = 2 \/ x = 3) as [->|[->|[->| ->]]] by lia; vm_compute; eexists _, _; (split; [reflexivity|]); repeat split; discriminate.
  - rewrite compress_column_3. remember (Z.of_nat m) as M eqn:EM. replace (Z.of_nat (S (S (S m)))) with (M + 3) in * by lia. assert (M0 : 0 <= M) by lia.
    rewrite take_lsbs_ok, drop_lsbs_ok by lia. cbn [bind]. change (2 ^ 3) with 8.
    destruct (compress_3_2_ok (x mod 8)) as [lc [ls [E3 [Hlc [Hls O3]]]]]; [apply Z.mod_pos_bound; lia|]. rewrite E3. cbn [bind].
    rewrite pow2_add in Hx by lia. change (2 ^ 3) with 8 in Hx.
    destruct (IH m ltac:(lia) (x / 8)) as [c [s [E [Hc [Hs O]]]]].
    { rewrite <- EM. split; [apply Z.div_pos; lia|]. apply Z.div_lt_upper_bound; lia. }
    rewrite E. cbn [bind]. rewrite <- EM in *.
    replace (M + 3 + 1) with (M + 1 + 3) by lia. replace (M + 3 + 2) with (M + 2 + 3) by lia. rewrite !div3_S.
    assert (C0 : 0 <= (M + 1) / 3) by (apply Z.div_pos; lia). assert (S0 : 0 <= (M + 2) / 3) by (apply Z.div_pos; lia).
    remember ((M + 1) / 3) as cw. remember ((M + 2) / 3) as sw.
    exists (cat cw lc c), (cat sw ls s). split; [reflexivity|]. rewrite !cat_eq by lia. split; [|split].
    + rewrite (Z.add_comm cw 1). apply join_bound; change (2 ^ 1) with 2; lia.
    + rewrite (Z.add_comm sw 1). apply join_bound; change (2 ^ 1) with 2; lia.
    + rewrite (Z.add_comm cw 1), (Z.add_comm sw 1). rewrite !ones_join by lia. rewrite !ones_1 by lia.
      transitivity (ones (M + 3) ((x / 8) * 2 ^ 3 + x mod 8)).
      { f_equal. change (2 ^ 3) with 8. rewrite Z.mul_comm. apply div_mod_eq. lia. }
      rewrite ones_join; [lia|lia|lia|]. change (2 ^ 3) with 8. apply Z.mod_pos_bound. lia.
Qed.
Lemma compress_col H x : col_ok (H, x) -> exists c s, compress_column (Z.to_nat H) x = Some (((H + 1) / 3, c), ((H + 2) / 3, s)) /\
    0 <= (H + 1) / 3 /\ 0 <= (H + 2) / 3 /\
    0 <= c < 2 ^ ((H + 1) / 3) /\ 0 <= s < 2 ^ ((H + 2) / 3) /\ ones H x = 2 * ones ((H + 1) / 3) c + ones ((H + 2) / 3) s.
Proof.
  intros [h Hx]. cbn [fst snd] in *. destruct (compress_column_ok (Z.to_nat H) x) as [c [s R]]; rewrite ?Z2Nat.id in * by lia; [lia|].
  exists c, s. destruct R as [R1 [R2 [R3 R4]]]. split; [exact R1|]. split; [apply Z.div_pos; lia|]. split; [apply Z.div_pos; lia|]. auto.
Qed.

Definition head_height (h : heap) : Z := match h with [] => 0 | (H, _) :: _ => H end.
Lemma compress_step_ok h : heap_ok h -> exists c h', compress_step h = Some (((head_height h + 1) / 3, c), h') /\
  0 <= (head_height h + 1) / 3 /\ 0 <= c < 2 ^ ((head_height h + 1) / 3) /\
  heap_ok h' /\ length h' = length h /\ total h = total h' + ones ((head_height h + 1) / 3) c * 2 ^ width h /\ heights h' = next_heights (heights h).
Proof.
  induction h as [|[H x] t IH]; intros [Ne F]; [contradiction|]. apply Forall_cons_iff in F as [C F].
  destruct (compress_col H x C) as [c [s [E [C0 [S0 [Hc [Hs O]]]]]]]. cbn [head_height].
  destruct t as [|d t].
  - exists c, [((H + 2) / 3, s)]. split; [|split; [exact C0|split; [exact Hc|split; [|split; [reflexivity|split]]]]].
    + cbn [compress_step]. rewrite E. cbn [bind]. rewrite !Z.eqb_refl. reflexivity.
    + split; [discriminate|]. constructor; [split; assumption|constructor].
    + cbn [total length]. unfold width. cbn [length]. change (2 ^ Z.of_nat 0) with 1. change (2 ^ Z.of_nat 1) with 2. lia.
    + unfold heights. cbn [map fst next_heights]. f_equal. lia.
  - destruct IH as [nc [nh [E' [NC0 [Hnc [[Nnh Fnh] [L [T Hh]]]]]]]]; [split; [discriminate|exact F]|].
    remember (d :: t) as u eqn:Eu. remember ((head_height u + 1) / 3) as ncw eqn:Encw.
    exists c, (((H + 2) / 3 + ncw, cat ncw s nc) :: nh). split; [|split; [exact C0|split; [exact Hc|split; [|split; [|split]]]]].
    + transitivity (do cols <- compress_column (Z.to_nat H) x; do next <- compress_step u;
        let '((cw, c), (sw, s)) := cols in let '((ncw, nc), nh) := next in
        do _ <- assert_ ((cw =? (H + 1) / 3) && (sw =? (H + 2) / 3)); Some (((H + 1) / 3, c), ((H + 2) / 3 + ncw, cat ncw s nc) :: nh)); [subst u; reflexivity|].
      rewrite E. cbn [bind]. rewrite E'. cbn [bind]. rewrite !Z.eqb_refl. reflexivity.
    + split; [discriminate|]. constructor; [|exact Fnh]. cbn [fst snd]. split; [lia|]. rewrite cat_eq by lia. apply join_bound; lia.
    + cbn [length]. lia.
    + cbn [total]. rewrite ones_cat by lia. rewrite L, T, O. unfold width. cbn [length]. rewrite Nat2Z.inj_succ, <- Z.add_1_r, pow2_S by lia. lia.
    + unfold heights in *. cbn [map fst next_heights]. rewrite Hh. f_equal. f_equal. subst ncw u. destruct d as [Hd xd]. reflexivity.
Qed.

(** ** Heights *)
Lemma max_height_cons H x t : t <> [] -> max_height ((H, x) :: t) = Z.max H (max_height t).
Proof. intros Ne. destruct t as [|d t]; [contradiction|]. rewrite <- ctMax_max. reflexivity. Qed.
Lemma max_height_spec h : heap_ok h -> forall B, max_height h <= B <-> Forall (fun H => H <= B) (heights h).
Proof.
  induction h as [|[H x] t IH]; intros [Ne F] B; [contradiction|]. apply Forall_cons_iff in F as [C F]. unfold heights in *. cbn [map fst]. rewrite Forall_cons_iff. destruct t as [|d t].
  - cbn [max_height map]. split; [intros; split; [lia|constructor]|intros []; lia].
  - remember (d :: t) as u eqn:Eu. assert (Nu : u <> []) by (subst u; discriminate). rewrite max_height_cons by exact Nu. rewrite <- IH by (split; assumption). lia.
Qed.
Lemma max_height_nonneg h : heap_ok h -> 0 <= max_height h.
Proof.
  induction h as [|[H x] t IH]; intros [Ne F]; [contradiction|]. apply Forall_cons_iff in F as [C F]. destruct C as [C _]. cbn [fst] in C. destruct t as [|d t]; [exact C|].
  remember (d :: t) as u eqn:Eu. assert (Nu : u <> []) by (subst u; discriminate). rewrite max_height_cons by exact Nu. lia.
Qed.
Lemma next_heights_le l B : Forall (fun H => H <= B) l -> 0 <= B -> Forall (fun H => H <= (B + 2) / 3 + (B + 1) / 3) (next_heights l).
Proof.
  intros F HB. induction l as [|h t IH]; [constructor|]. apply Forall_cons_iff in F as [Hh F]. cbn [next_heights]. constructor; [|apply IH, F].
  apply Z.add_le_mono; [apply Z.div_le_mono; lia|]. destruct t as [|h1 t]; [apply Z.div_pos; lia|]. apply Forall_cons_iff in F as [Hh1 _]. apply Z.div_le_mono; lia.
Qed.
Lemma step_shrinks B : 3 <= B -> (B + 2) / 3 + (B + 1) / 3 < B.
Proof.
  intros H. assert (B = 3 \/ 4 <= B) as [->|H4] by lia; [reflexivity|].
  pose proof (Z.mul_div_le (B + 2) 3 ltac:(lia)). pose proof (Z.mul_div_le (B + 1) 3 ltac:(lia)). lia.
Qed.
Lemma step_keeps_two B : 0 <= B -> (B + 2) / 3 + (B + 1) / 3 <= Z.max B 2.
Proof.
  intros H. assert (B = 0 \/ B = 1 \/ B = 2 \/ 3 <= B) as [->|[->|[->|H4]]] by lia; [vm_compute; discriminate|vm_compute; discriminate|vm_compute; discriminate|].
  pose proof (step_shrinks B H4). lia.
Qed.
Lemma compress_step_max h c h' : heap_ok h -> compress_step h = Some (c, h') ->
  max_height h' <= (max_height h + 2) / 3 + (max_height h + 1) / 3.
Proof.
  intros Ok E. destruct (compress_step_ok h Ok) as [c1 [h1 [E1 [_ [_ [Ok1 [_ [_ Hh]]]]]]]]. rewrite E in E1. injection E1 as _ <-.
  apply max_height_spec; [exact Ok1|]. rewrite Hh. apply next_heights_le; [|apply max_height_nonneg, Ok]. apply (max_height_spec h Ok). lia.
Qed.

(** ** Compression to height two *)
Lemma compress_ok n : forall h, heap_ok h -> max_height h <= Z.of_nat n + 2 ->
  exists r, compress n h = Some r /\ heap_ok r /\ max_height r <= 2 /\ width r = width h /\ exists k, 0 <= k /\ total h = total r + k * 2 ^ width h.
Proof.
  induction n as [|n IH]; intros h Ok B.
  - exists h. cbn [compress]. replace (max_height h <=? 2) with true by lia. split; [reflexivity|]. split; [exact Ok|]. split; [lia|]. split; [reflexivity|]. exists 0. lia.
  - cbn [compress]. destruct (max_height h <=? 2) eqn:Q.
    + exists h. split; [reflexivity|]. split; [exact Ok|]. split; [lia|]. split; [reflexivity|]. exists 0. lia.
    + destruct (compress_step_ok h Ok) as [c1 [h1 [E1 [C0 [Hc [Ok1 [L [T Hh]]]]]]]]. pose proof (compress_step_max h _ h1 Ok E1) as M.
      pose proof (step_shrinks (max_height h) ltac:(lia)) as Sh. rewrite E1. cbn [bind snd].
      destruct (IH h1 Ok1 ltac:(lia)) as [r [E [Okr [Mr [Wr [k [Hk Tr]]]]]]]. exists r. split; [exact E|]. split; [exact Okr|]. split; [exact Mr|].
      assert (W1 : width h1 = width h) by (unfold width; lia). split; [lia|].
      exists (k + ones ((head_height h + 1) / 3) c1). split; [pose proof (ones_nonneg ((head_height h + 1) / 3) c1); lia|]. rewrite T, Tr, W1. lia.
Qed.
(** More levels than needed change nothing. *)
Lemma compress_more n : forall h r, compress n h = Some r -> compress (S n) h = Some r.
Proof.
  induction n as [|n IH]; intros h r E.
  - cbn [compress] in *. destruct (max_height h <=? 2); [exact E|discriminate].
  - remember (S n) as m eqn:Em. cbn [compress]. rewrite Em in E. cbn [compress] in E. destruct (max_height h <=? 2); [exact E|].
    destruct (compress_step h) as [[c h1]|]; [|discriminate]. cbn [bind snd] in *. subst m. apply IH, E.
Qed.

(** ** Collapse *)
Lemma two_bits x : 0 <= x < 4 -> exists a b, get_bit 2 0 x = Some a /\ get_bit 2 1 x = Some b /\ 0 <= a < 2 /\ 0 <= b < 2 /\ ones 2 x = a + b.
Proof.
  intros H. assert (x = 0 \/ x = 1 \/ x = 2 \/ x = 3) as [->|[->|[->| ->]]] by lia; vm_compute; eexists _, _; (split; [reflexivity|]); (split; [reflexivity|]); repeat split; discriminate.
Qed.
Lemma collapse_ab h : heap_ok h -> max_height h <= 2 -> exists a b, collapse_a h = Some a /\ collapse_b h = Some b /\
  0 <= a < 2 ^ width h /\ 0 <= b < 2 ^ width h /\ a + b = total h.
Proof.
  induction h as [|[H x] t IH]; intros [Ne F] M; [contradiction|]. apply Forall_cons_iff in F as [[C0 C] F]. cbn [fst snd] in *.
  destruct t as [|d t].
  - cbn [max_height] in M. cbn [collapse_a collapse_b total]. unfold width. cbn [length]. change (2 ^ Z.of_nat 0) with 1. change (2 ^ Z.of_nat 1) with 2. unfold zg.
    assert (H = 0 \/ H = 1 \/ H = 2) as [->|[->| ->]] by lia; cbn [Z.eqb orb Pos.eqb].
    + exists 0, 0. rewrite ones_0. repeat split; lia.
    + change (2 ^ 1) with 2 in C. exists 0, x. rewrite ones_1 by lia. repeat split; lia.
    + change (2 ^ 2) with 4 in C. destruct (two_bits x C) as [a [b [Ea [Eb [Ha [Hb O]]]]]]. exists a, b. rewrite O. split; [exact Ea|]. split; [exact Eb|]. repeat split; lia.
  - remember (d :: t) as u eqn:Eu. assert (Nu : u <> []) by (subst u; discriminate). rewrite max_height_cons in M by exact Nu.
    destruct (IH (conj Nu F) ltac:(lia)) as [a [b [Ea [Eb [Ha [Hb T]]]]]].
    assert (Qa : collapse_a ((H, x) :: u) = (do r <- collapse_a u; if H =? 0 then Some (cat (hwidth u) (zg 1) r) else if (H =? 1) || (H =? 2) then do b <- get_bit H 0 x; Some (cat (hwidth u) b r) else None)) by (subst u; reflexivity).
    assert (Qb : collapse_b ((H, x) :: u) = (do r <- collapse_b u; if (H =? 0) || (H =? 1) then Some (cat (hwidth u) (zg 1) r) else if H =? 2 then do b <- get_bit 2 1 x; Some (cat (hwidth u) b r) else None)) by (subst u; reflexivity).
    rewrite Qa, Qb, Ea, Eb. cbn [bind total]. clear Qa Qb. change (hwidth u) with (width u). unfold zg.
    assert (W : width ((H, x) :: u) = 1 + width u) by (unfold width; cbn [length]; lia). rewrite W. assert (W0 : 0 <= width u) by (unfold width; lia).
    change (Z.of_nat (length u)) with (width u). rewrite <- T. pose proof (pow2_pos (width u) W0) as P.
    assert (J : forall b0 r0, 0 <= b0 < 2 -> 0 <= r0 < 2 ^ width u -> cat (width u) b0 r0 = b0 * 2 ^ width u + r0 /\ 0 <= cat (width u) b0 r0 < 2 ^ (1 + width u)).
    { intros b0 r0 B0 R0. rewrite cat_eq by lia. split; [reflexivity|]. apply join_bound; change (2 ^ 1) with 2; lia. }
    assert (H = 0 \/ H = 1 \/ H = 2) as [->|[->| ->]] by lia; cbn [Z.eqb orb Pos.eqb].
    + destruct (J 0 a ltac:(lia) Ha) as [J1 J2]. destruct (J 0 b ltac:(lia) Hb) as [J3 J4]. eexists _, _. split; [reflexivity|]. split; [reflexivity|]. rewrite ones_0. lia.
    + change (2 ^ 1) with 2 in C. rewrite get_bit_ok by lia. cbn [bind]. change (2 ^ 0) with 1. rewrite Z.div_1_r, Z.mod_small by lia.
      destruct (J x a C Ha) as [J1 J2]. destruct (J 0 b ltac:(lia) Hb) as [J3 J4]. eexists _, _. split; [reflexivity|]. split; [reflexivity|]. rewrite ones_1 by lia. lia.
    + change (2 ^ 2) with 4 in C. destruct (two_bits x C) as [p [q [Ep [Eq [Hp [Hq O]]]]]]. rewrite Ep, Eq. cbn [bind].
      destruct (J p a Hp Ha) as [J1 J2]. destruct (J q b Hq Hb) as [J3 J4]. eexists _, _. split; [reflexivity|]. split; [reflexivity|]. rewrite O. lia.
Qed.
Lemma collapse_ok h : heap_ok h -> max_height h <= 2 -> bit_heap_collapse h = Some (total h mod 2 ^ width h).
Proof.
  intros Ok M. destruct (collapse_ab h Ok M) as [a [b [Ea [Eb [Ha [Hb T]]]]]]. unfold bit_heap_collapse. rewrite Ea. cbn [bind]. rewrite Eb. cbn [bind].
  change (hwidth h) with (width h). rewrite fadd_eq by (unfold width; lia). rewrite T. reflexivity.
Qed.
Lemma collapse_a_high h : heap_ok h -> 2 < max_height h -> collapse_a h = None.
Proof.
  induction h as [|[H x] t IH]; intros [Ne F] M; [contradiction|]. apply Forall_cons_iff in F as [[C0 C] F]. cbn [fst snd] in *. destruct t as [|d t].
  - cbn [max_height] in M. cbn [collapse_a]. replace (H =? 0) with false by lia. replace (H =? 1) with false by lia. replace (H =? 2) with false by lia. reflexivity.
  - remember (d :: t) as u eqn:Eu. assert (Nu : u <> []) by (subst u; discriminate). rewrite max_height_cons in M by exact Nu.
    assert (Qa : collapse_a ((H, x) :: u) = (do r <- collapse_a u; if H =? 0 then Some (cat (hwidth u) (zg 1) r) else if (H =? 1) || (H =? 2) then do b <- get_bit H 0 x; Some (cat (hwidth u) b r) else None)) by (subst u; reflexivity).
    rewrite Qa. clear Qa. destruct (Z.le_gt_cases (max_height u) 2) as [Q|Q].
    + replace (H =? 0) with false by lia. replace (H =? 1) with false by lia. replace (H =? 2) with false by lia. destruct (collapse_a u); reflexivity.
    + rewrite IH; [reflexivity|split; assumption|exact Q].
Qed.
Lemma collapse_high h : heap_ok h -> 2 < max_height h -> bit_heap_collapse h = None.
Proof. intros Ok M. unfold bit_heap_collapse. rewrite collapse_a_high by assumption. reflexivity. Qed.
Lemma compress_collapse n h : heap_ok h -> max_height h <= Z.of_nat n + 2 ->
  exists r, compress n h = Some r /\ bit_heap_collapse r = bit_heap_to_mpz h.
Proof.
  intros Ok M. destruct (compress_ok n h Ok M) as [r [E [Okr [Mr [W [k [Hk T]]]]]]]. exists r. split; [exact E|].
  rewrite collapse_ok, to_mpz_ok by assumption. rewrite W, T. rewrite Z.mod_add by (pose proof (pow2_pos (width h) ltac:(unfold width; lia)); lia). reflexivity.
Qed.

(** ** The number of levels *)
Fixpoint levels_height (n : nat) : Z := match n with O => 2 | S n => 3 * levels_height n / 2 end.
Lemma levels_height_ge n : 2 <= levels_height n.
Proof. induction n as [|n IH]; cbn [levels_height]; [lia|]. apply Z.div_le_lower_bound; lia. Qed.
Lemma step_third B b : 0 <= B -> B <= 3 * b / 2 -> (B + 2) / 3 + (B + 1) / 3 <= b.
Proof.
  intros HB H. pose proof (Z.mul_div_le (3 * b) 2 ltac:(lia)) as P.
  pose proof (Z.mul_div_le (B + 2) 3 ltac:(lia)). pose proof (Z.mul_div_le (B + 1) 3 ltac:(lia)).
  pose proof (Z.mod_pos_bound (B + 2) 3 ltac:(lia)). pose proof (Z.div_mod (B + 2) 3 ltac:(lia)).
  pose proof (Z.mod_pos_bound (B + 1) 3 ltac:(lia)). pose proof (Z.div_mod (B + 1) 3 ltac:(lia)). lia.
Qed.
Lemma compress_levels n : forall h, heap_ok h -> max_height h <= levels_height n -> exists r, compress n h = Some r.
Proof.
  induction n as [|n IH]; intros h Ok B; cbn [compress].
  - cbn [levels_height] in B. replace (max_height h <=? 2) with true by lia. eexists. reflexivity.
  - destruct (max_height h <=? 2) eqn:Q; [eexists; reflexivity|].
    destruct (compress_step_ok h Ok) as [c1 [h1 [E1 [C0 [Hc [Ok1 [L [T Hh]]]]]]]]. pose proof (compress_step_max h _ h1 Ok E1) as M. rewrite E1. cbn [bind snd].
    apply IH; [exact Ok1|]. cbn [levels_height] in B. pose proof (step_third (max_height h) (levels_height n) (max_height_nonneg h Ok) B). lia.
Qed.
Lemma compress_mono n m h r : (n <= m)%nat -> compress n h = Some r -> compress m h = Some r.
Proof. intros L E. induction L as [|m L IH]; [exact E|]. apply compress_more, IH. Qed.
Lemma compress_any n h r : heap_ok h -> compress n h = Some r ->
  heap_ok r /\ max_height r <= 2 /\ width r = width h /\ bit_heap_to_mpz r = bit_heap_to_mpz h /\ bit_heap_collapse r = bit_heap_to_mpz h.
Proof.
  intros Ok E. pose proof (compress_mono n (n + Z.to_nat (max_height h)) h r ltac:(lia) E) as E'.
  destruct (compress_ok (n + Z.to_nat (max_height h)) h Ok ltac:(lia)) as [r' [E1 [Okr [Mr [W [k [Hk T]]]]]]]. rewrite E' in E1. injection E1 as <-.
  split; [exact Okr|]. split; [exact Mr|]. split; [exact W|]. rewrite collapse_ok, !to_mpz_ok by assumption. rewrite W, T.
  rewrite Z.mod_add by (pose proof (pow2_pos (width h) ltac:(unfold width; lia)); lia). split; reflexivity.
Qed.
