From Coq Require Import ZArith Bool List Lia.
From Verif Require Import Fw FwLemmas Flopoco FlopocoLemmas AddSingle AddSingleProofs AddSingleProofs2 AddAltProofs2 Circuit CircuitProofs CircuitMulProofs CircuitAdd.
Open Scope Z_scope.

Lemma gb W hi lo x : 0 <= lo -> hi < W -> get_bits W hi lo x = Some (bits hi lo x).
Proof. intros H1 H2. unfold get_bits, bits. rewrite (proj2 (Z.ltb_lt _ _) H2), (proj2 (Z.leb_le _ _) H1). reflexivity. Qed.
Lemma wf_bits hi lo w x : w = hi - lo + 1 -> 0 <= w -> wf w (bits hi lo x).
Proof. intros -> H. unfold wf, bits. rewrite land_mask by lia. apply Z.mod_pos_bound. apply Z.pow_pos_nonneg; lia. Qed.
Lemma wf_cat WA WB a b : 0 <= WA -> 0 <= WB -> wf WA a -> wf WB b -> wf (WA + WB) (cat WB a b).
Proof. unfold wf. intros HA HB Ha Hb. rewrite cat_eq by lia. rewrite Z.pow_add_r by lia. nia. Qed.
Lemma run_lut WA f a n : 0 <= a < 2 ^ 31 -> 0 <= n -> wf n (f a) -> run fw_sem (p_lut n WA f a) = Some (f a).
Proof. intros H Hn H2. unfold p_lut. cbn [run fw_sem]. rewrite to_int_ok by lia. cbn [run fw_sem]. rewrite of_int_wf by assumption. reflexivity. Qed.
Lemma run_stage WD k x : 0 <= k -> run fw_sem (lzoc_stage_prog WD k x) = lzoc_stage WD k x.
Proof.
  intro Hk. assert (P : 0 < 2 ^ k) by (apply Z.pow_pos_nonneg; lia). unfold lzoc_stage_prog, lzoc_stage, passert, assert_, p_zg. destruct (2 ^ k <=? WD) eqn:C; [|reflexivity]. apply Z.leb_le in C.
  cbn [pbind bind]. st. rewrite run_if. destruct (2 ^ k =? WD) eqn:D; cbn [run fw_sem pbind].
  - rewrite of_int_0 by lia. reflexivity.
  - apply Z.eqb_neq in D. st. rewrite !(of_int_0 WD) by lia. cbn [run fw_sem pbind]. rewrite (of_int_0 (2 ^ k)) by lia. cbn [run fw_sem pbind]. rewrite (of_int_0 (WD - 2 ^ k)) by lia.
    cbn [run fw_sem pbind]. rewrite b2z_is_1. destruct (to_bool _) eqn:T; [|reflexivity]. cbn [run fw_sem pbind bind]. rewrite of_int_0 by lia. st.
    cbn [run fw_sem pbind p_select]. rewrite sel_bool. reflexivity.
Qed.
Lemma run_lzoc WD WC : forall x, run fw_sem (lzoc_prog WD WC x) = lzoc WD WC x.
Proof.
  induction WC as [|k IH]; intro x; [reflexivity|]. cbn [lzoc_prog lzoc]. rewrite run_bind, run_stage by lia. apply bind_ext; [reflexivity|]. intros [mid hi].
  rewrite run_bind, IH. cbn [fst snd]. apply bind_ext; [reflexivity|]. intros [out lo]. reflexivity.
Qed.
Lemma run_shift wE wF ed : 1 <= wE -> 1 <= wF -> run fw_sem (shift_val_prog wE wF (intlog2 (wF + 3)) ed) = add_shiftVal wE wF ed.
Proof.
  intros HE HF. unfold shift_val_prog, add_shiftVal. cbv zeta. cbn [run fw_sem]. rewrite !run_if. destruct (_ <? wE) eqn:A; [|destruct (wE =? _) eqn:B].
  - cbn [run fw_sem]. st. st. cbn [run fw_sem pbind p_select]. rewrite sel_bool. destruct (checked_cast _ _ _); reflexivity.
  - st. cbn [run fw_sem]. destruct (checked_cast _ _ _); reflexivity.
  - apply Z.ltb_ge in A. apply Z.eqb_neq in B. cbn [run fw_sem]. rewrite of_int_0 by lia. cbn [run fw_sem]. destruct (checked_cast _ _ _); reflexivity.
Qed.
Lemma wf_excRt i : wf 2 (excRt_lut i).
Proof. unfold excRt_lut. repeat match goal with |- context [match ?c with _ => _ end] => destruct c end; unfold wf; cbn; lia. Qed.
Lemma wf_excRt2 i : wf 2 (excRt2_lut i).
Proof. unfold excRt2_lut. repeat match goal with |- context [match ?c with _ => _ end] => destruct c end; unfold wf; cbn; lia. Qed.

Lemma run_bind2 {A B C} K (p : prog A) (f : A -> prog B) (g : B -> prog C) : run K (pbind (pbind p f) g) = bind (run K p) (fun a => run K (pbind (f a) g)).
Proof. rewrite !run_bind. destruct (run K p) as [a|]; [|reflexivity]. cbn [bind]. now rewrite run_bind. Qed.
Lemma run_pbind2 {A B C} K (p : prog A) (f : A -> prog B) (g : B -> prog C) r : run K p = Some r -> run K (pbind (pbind p f) g) = run K (pbind (f r) g).
Proof. intro H. rewrite run_bind2, H. reflexivity. Qed.
Ltac ev := cbn [run fw_sem pbind p_zg p_og p_zpad_hi p_zpad_lo p_select p_add_with_cin p_add_cin p_one_of2 p_one_of3].
Ltac hd :=
  match goal with
  | |- match get_bits ?W ?h ?l ?x with Some _ => _ | None => None end = _ => rewrite (gb W h l x) by lia
  | |- match of_int ?W 0 with Some _ => _ | None => None end = _ => rewrite (of_int_0 W) by lia
  | |- match of_int ?W ?n with Some _ => _ | None => None end = _ => rewrite (of_int_wf W n) by (lia || (unfold wf; cbn; lia))
  end.
Ltac rn := repeat (ev; hd); ev.
Lemma six wE wF X Y : 0 <= wE -> 0 <= wF ->
  0 <= cat 4 (cat 1 (bits (wE + wF) (wE + wF) X) (bits (wE + wF) (wE + wF) Y)) (cat 2 (bits (wE + wF + 2) (wE + wF + 1) X) (bits (wE + wF + 2) (wE + wF + 1) Y)) < 2 ^ 31.
Proof.
  intros. assert (W : wf (1 + 1 + (2 + 2)) (cat (2 + 2) (cat 1 (bits (wE + wF) (wE + wF) X) (bits (wE + wF) (wE + wF) Y)) (cat 2 (bits (wE + wF + 2) (wE + wF + 1) X) (bits (wE + wF + 2) (wE + wF + 1) Y)))).
  { repeat (apply wf_cat; [lia|lia| |]); apply wf_bits; lia. }
  unfold wf in W. change (2 ^ (1 + 1 + (2 + 2))) with 64 in W. change (2 + 2) with 4 in W. lia.
Qed.
Definition add_end (wE wF fracGRS expX EffSub excRt signR : Z) : option Z :=
  let extendedExpInc := fadd (wE + 2) (zpad_hi 2 wE expX) 1 in
  let wC := intlog2 (wF + 5) in
  do lz <- lzoc (wF + 5) (Z.to_nat wC) fracGRS;
  let '(shiftedFrac, nZerosNew) := lz in
  let updatedExp := fsub (wE + 2) extendedExpInc (zpad_hi (wE + 2 - wC) wC nZerosNew) in
  let eqdiffsign := feq nZerosNew (og wC) in
  let expFrac := cat (wF + 1) updatedExp (bits (wF + 3) 3 shiftedFrac) in
  let stk := for_ 1 (bits 1 1 shiftedFrac) (bits 0 0 shiftedFrac) in
  let rnd := bits 2 2 shiftedFrac in
  let grd := bits 3 3 shiftedFrac in
  let lsb := bits 4 4 shiftedFrac in
  let addToRoundBit :=
    select (fand (fand (fand (feq lsb 0) (feq grd 1)) (feq rnd 0)) (feq stk 0)) (zg 1) (og 1) in
  let RoundedExpFrac := add_cin (wE + 2 + wF + 1) expFrac addToRoundBit in
  let upExc := bits (wE + wF + 2) (wE + wF + 1) RoundedExpFrac in
  let fracR := bits wF 1 RoundedExpFrac in
  let expR := bits (wF + wE) (wF + 1) RoundedExpFrac in
  let excRt2 := excRt2_lut (cat 2 upExc excRt) in
  let excR := select (fand (fand (feq eqdiffsign 1) (feq EffSub 1)) (feq excRt2 1)) (zg 2) excRt2 in
  let signR2 := select (fand (fand (feq eqdiffsign 1) (feq EffSub 1)) (feq excR 0)) (zg 1) signR in
  Some (cat wF (cat wE (cat 1 excR signR2) expR) fracR).
Lemma fnot_0 W : fnot W 0 = og W.
Proof. reflexivity. Qed.
Lemma run_round wE wF G e s t g : 1 <= wE -> 1 <= wF -> wF + 3 < 2 ^ wE -> wf 2 t -> run fw_sem (add_round_prog wE wF G e s t g) = add_end wE wF G e s t g.
Proof.
  intros HE HF HC Ht. assert (W : 1 <= intlog2 (wF + 5) <= wE + 2). 
  { unfold intlog2. rewrite (proj2 (Z.leb_gt _ _)) by lia. pose proof (Z.log2_nonneg (wF + 5)). assert (Z.log2 (wF + 5) < wE + 1); [|lia]. apply Z.log2_lt_pow2; [lia|]. rewrite Z.pow_add_r by lia. lia. }
  unfold add_round_prog, add_end. cbv zeta. rn. rewrite run_bind, run_lzoc. apply bind_ext; [reflexivity|]. intros [sf nz]. cbn [fst snd]. rn. rewrite !sel_bool.
  match goal with |- run _ (pbind (p_lut 2 4 _ ?a) _) = _ => assert (A4 : 0 <= a < 2 ^ 31); [|rewrite (run_pbind _ _ _ _ (run_lut 4 excRt2_lut a 2 A4 ltac:(lia) (wf_excRt2 _)))] end.
  { match goal with |- 0 <= cat 2 ?a ?b < _ => assert (W4 : wf (2 + 2) (cat 2 a b)) by (apply wf_cat; [lia|lia|apply wf_bits; lia|exact Ht]) end. unfold wf in W4. change (2 ^ (2 + 2)) with 16 in W4. lia. }
  rn. rewrite !sel_bool. f_equal. rewrite (cat_assoc wE wF) by first [lia | apply wf_bits; lia]. reflexivity.
Qed.
Lemma run_align wE wF X Y : 1 <= wE -> 1 <= wF -> wF + 3 < 2 ^ wE ->
  run fw_sem (prg a <- add_align_prog wE wF X Y; let '(fracGRS, (expX, EffSub, excRt, signR)) := a in add_round_prog wE wF fracGRS expX EffSub excRt signR) = add_single_body wE wF X Y.
Proof.
  intros HE HF HC. unfold add_align_prog, add_single_body. cbv zeta. rn. rewrite !sel_bool.
  match goal with |- run _ (pbind (pbind (p_lut 2 6 _ ?a) _) _) = _ => assert (A6 : 0 <= a < 2 ^ 31) by (apply six; lia); rewrite (run_pbind2 _ _ _ _ _ (run_lut 6 excRt_lut a 2 A6 ltac:(lia) (wf_excRt _))) end.
  rn. rewrite !sel_bool. rewrite run_bind2, run_shift by lia. apply bind_ext; [reflexivity|]. intros sv. rn. st. st. rn. rewrite !sel_bool.
  rewrite run_round by (lia || apply wf_excRt). unfold add_end.
  repeat match goal with |- context [cat 4 (cat 1 ?a ?b) (cat 2 ?c ?d)] => replace (cat 4 (cat 1 a b) (cat 2 c d)) with (cat 2 (cat 2 (cat 1 a b) c) d) by (symmetry; apply (cat_assoc 2 2); first [lia | apply wf_bits; lia]) end.
  rewrite (cat_assoc wF 2) by first [lia | apply wf_bits; lia | unfold wf; cbn; lia].
  reflexivity.
Qed.
Lemma run_promote DE DF SE SF x : 1 <= SE -> 1 <= SF -> run fw_sem (promote_prog DE DF SE SF x) = promote DE DF SE SF x.
Proof.
  intros HE HF. unfold promote_prog, promote. rewrite run_if. destruct (_ && _); [reflexivity|]. cbv zeta. rn. unfold promote_exp_prog, promote_exp, promote_frac_prog, promote_frac, get_exp, get_frac.
  destruct (DE =? SE) eqn:A.
  - apply Z.eqb_eq in A. subst DE. rn. destruct (DF =? SF) eqn:B.
    + apply Z.eqb_eq in B. subst DF. rn. unfold mk. rewrite (cat_assoc SE SF) by first [lia | apply wf_bits; lia]. reflexivity.
    + unfold passert, assert_. destruct (SF <=? DF) eqn:C; [|reflexivity]. apply Z.eqb_neq in B. apply Z.leb_le in C. rn. cbn [bind]. unfold mk.
      assert (Wf : wf DF (cat (DF - SF) (bits (SF - 1) 0 x) 0)) by (replace DF with (SF + (DF - SF)) at 1 by lia; apply wf_cat; [lia|lia|apply wf_bits; lia|split; [lia|apply Z.pow_pos_nonneg; lia]]).
      rewrite (cat_assoc SE DF) by first [lia | exact Wf | apply wf_bits; lia]. reflexivity.
  - unfold passert, assert_. destruct (SE <=? DE) eqn:C; [|reflexivity]. apply Z.eqb_neq in A. apply Z.leb_le in C. rn. cbn [bind].
    assert (We : forall n, wf DE (fadd DE (cat SE 0 (bits (SE + SF - 1) SF x)) n)) by (intro n; unfold wf; rewrite fadd_eq by lia; apply Z.mod_pos_bound; apply Z.pow_pos_nonneg; lia).
    destruct (DF =? SF) eqn:B.
    + apply Z.eqb_eq in B. subst DF. rn. cbn [bind]. unfold mk. rewrite (cat_assoc DE SF) by first [lia | apply We | apply wf_bits; lia]. reflexivity.
    + destruct (SF <=? DF) eqn:D; [|reflexivity]. apply Z.eqb_neq in B. apply Z.leb_le in D. rn. cbn [bind]. unfold mk.
      assert (Wf : wf DF (cat (DF - SF) (bits (SF - 1) 0 x) 0)) by (replace DF with (SF + (DF - SF)) at 1 by lia; apply wf_cat; [lia|lia|apply wf_bits; lia|split; [lia|apply Z.pow_pos_nonneg; lia]]).
      rewrite (cat_assoc DE DF) by first [lia | exact Wf | apply We]. reflexivity.
Qed.
Lemma run_passert {A} K c (p : prog A) : run K (prg _ <- passert c; p) = (do _ <- assert_ c; run K p).
Proof. destruct c; reflexivity. Qed.
Lemma run_add wER wFR wEX wFX wEY wFY x y : 1 <= wEX -> 1 <= wFX -> 1 <= wEY -> 1 <= wFY -> ctMax wFX wFY + 3 < 2 ^ ctMax wEX wEY ->
  run fw_sem (add_prog wER wFR wEX wFX wEY wFY x y) = add_single wER wFR wEX wFX wEY wFY x y.
Proof.
  intros H1 H2 H3 H4 H5. unfold add_prog, add_single. cbv zeta.
  assert (1 <= ctMax wEX wEY /\ 1 <= ctMax wFX wFY) by (unfold ctMax; destruct (_ <? _), (_ <? _); lia).
  rewrite run_bind, run_promote by lia. apply bind_ext; [reflexivity|]. intro X. rewrite run_bind, run_promote by lia. apply bind_ext; [reflexivity|]. intro Y.
  rewrite run_passert. apply bind_ext; [reflexivity|]. intros _. now apply run_align.
Qed.

(** ** Every operation is in range *)
Definition post {A} (w : Z) (Q : A -> Prop) (p : prog A) : Prop := along (fits w) p /\ forall a, run fw_sem p = Some a -> Q a.
Lemma post_ret {A} w (Q : A -> Prop) a : Q a -> post w Q (Ret a).
Proof. intro H. split; [exact I|]. intros b E. injection E as <-. exact H. Qed.
Lemma post_fail {A} w (Q : A -> Prop) : post w Q Fail.
Proof. split; [exact I|]. discriminate. Qed.
Lemma post_do {A} w (Q : A -> Prop) o k : fits w o -> (forall r, match o with OToInt _ a => r = a | _ => wf (op_width o) r end -> post w Q (k r)) -> post w Q (Do o k).
Proof.
  intros H Hk. split; [apply walk; [exact H|]; intros r Hr; apply Hk; exact Hr|]. cbn [run]. intros a E. destruct (fw_sem o) as [r|] eqn:Er; [|discriminate].
  refine (proj2 (Hk r _) a E). apply fw_wf; [exact (proj1 H)|exact Er].
Qed.
Lemma post_bind {A B} w (Q : A -> Prop) (R : B -> Prop) p f : post w Q p -> (forall a, Q a -> post w R (f a)) -> post w R (pbind p f).
Proof.
  intros [H1 H2] H. split; [apply along_bind; [exact H1|]; intros a E; apply H, H2, E|]. intros b E. rewrite run_bind in E. destruct (run fw_sem p) as [a|] eqn:Ea; [|discriminate].
  exact (proj2 (H a (H2 a eq_refl)) b E).
Qed.
Lemma post_imp {A} w (Q R : A -> Prop) p : (forall a, Q a -> R a) -> post w Q p -> post w R p.
Proof. intros H [H1 H2]. split; auto. Qed.
Lemma post_assert {A} w (Q : A -> Prop) c p : (c = true -> post w Q p) -> post w Q (prg _ <- passert c; p).
Proof. intro H. destruct c; [now apply H|apply post_fail]. Qed.
Ltac pk :=
  match goal with
  | |- post _ _ (Do _ _) => apply post_do; [fit | let r := fresh "r" in let E := fresh "W" in intros r E; cbn [op_width] in E]
  | |- post _ _ (Ret _) => apply post_ret
  | |- post _ _ (pbind (passert _) _) => apply post_assert; let E := fresh "T" in intro E
  end.
Ltac pks := cbn [pbind p_zg p_og p_zpad_hi p_zpad_lo p_select p_add_with_cin p_add_cin p_one_of2 p_one_of3]; repeat pk.
Lemma post_stage w WD k x : 0 <= k -> 1 <= WD <= w -> wf WD x -> post w (fun p => wf WD (fst p) /\ wf 1 (snd p)) (lzoc_stage_prog WD k x).
Proof.
  intros Hk HD Hx. assert (P : 0 < 2 ^ k) by (apply Z.pow_pos_nonneg; lia). unfold lzoc_stage_prog. cbv zeta. pk. apply Z.leb_le in T. pks. destruct (2 ^ k =? WD) eqn:D; [apply Z.eqb_eq in D|apply Z.eqb_neq in D]; pks.
  - cbn [fst snd]. split; wfs.
  - cbn [fst snd]. split; wfs.
Qed.
Lemma post_lzoc w WD WC : 1 <= WD <= w -> forall x, wf WD x -> Z.of_nat WC <= w -> post w (fun p => wf WD (fst p) /\ wf (Z.of_nat WC) (snd p)) (lzoc_prog WD WC x).
Proof.
  intros HD. induction WC as [|k IH]; intros x Hx HW; cbn [lzoc_prog].
  - apply post_ret. split; [exact Hx|]. unfold wf. cbn. lia.
  - eapply post_bind; [apply post_stage; [lia|lia|exact Hx]|]. intros [m h] [Hm Hh]. cbn [fst snd] in *. eapply post_bind; [apply IH; [exact Hm|lia]|]. intros [o l] [Ho Hl]. cbn [fst snd] in *.
    pks. cbn [fst snd]. split; wfs.
Qed.
Lemma post_shift w wE wF s d : 1 <= wE -> 1 <= wF -> 1 <= s -> wF + 3 < 2 ^ 31 -> Z.max wE s + 1 <= w -> wf (wE + 1) d -> post w (wf s) (shift_val_prog wE wF s d).
Proof.
  intros H1 H2 H3 H4 H5 Hd. unfold shift_val_prog. pks. destruct (s <? wE) eqn:A; [|destruct (wE =? s) eqn:B].
  - apply Z.ltb_lt in A. pks. wfs.
  - pks. wfs.
  - apply Z.ltb_ge in A. apply Z.eqb_neq in B. pks. wfs.
Qed.
Lemma intlog2_lt n k : 0 < n -> 0 <= k -> n < 2 ^ k -> 1 <= intlog2 n <= k.
Proof. intros Hn Hk H. unfold intlog2. rewrite (proj2 (Z.leb_gt _ _)) by lia. pose proof (Z.log2_nonneg n). assert (Z.log2 n < k); [|lia]. apply Z.log2_lt_pow2; lia. Qed.
Lemma post_lut w WD WA f a : 0 <= a < 2 ^ 31 -> 1 <= WD <= w -> WA <= w -> (forall i, 0 <= f i < 2 ^ 31) -> post w (wf WD) (p_lut WD WA f a).
Proof. intros H1 H2 H2' H3. unfold p_lut. pk. subst r. pose proof (H3 a). pks. wfs. Qed.
Definition aligned (wE wF : Z) (p : Z * (Z * Z * Z * Z)) : Prop :=
  let '(g, (e, s, t, r)) := p in wf (wF + 5) g /\ wf wE e /\ wf 1 s /\ wf 2 t /\ wf 1 r.
Lemma post_align w wE wF X Y : 1 <= wE -> 1 <= wF -> wF + 3 < 2 ^ wE -> 2 * wF + 4 < 2 ^ 31 -> Z.max (wE + wF + 3) (2 * wF + 4) <= w -> 6 <= w ->
  wf (wE + wF + 3) X -> wf (wE + wF + 3) Y -> post w (aligned wE wF) (add_align_prog wE wF X Y).
Proof.
  intros HE HF HC HF2 Hw H6 HX HY. pose proof (intlog2_lt (wF + 3) wE ltac:(lia) ltac:(lia) HC) as Hs. pose proof (intlog2_lt (wF + 3) 31 ltac:(lia) ltac:(lia) ltac:(lia)) as Hs'.
  unfold add_align_prog. cbv zeta. generalize dependent (intlog2 (wF + 3)). intros s Hs Hs'. pks.
  eapply post_bind; [apply post_lut; [|lia|lia|]|].
  1: match goal with H : wf (2 + 4) ?x |- 0 <= ?x < _ => unfold wf in H; change (2 ^ (2 + 4)) with 64 in H; lia end.
  1: intro i; pose proof (wf_excRt i) as H; unfold wf in H; lia.
  intros t Wt. pks.
  eapply post_bind; [apply post_shift; first [lia | wfs]|]. intros v Wv. assert (Hv : 0 <= v < 2 ^ 31) by (pose proof (Z.pow_le_mono_r 2 s 31 ltac:(lia) ltac:(lia)); unfold wf in Wv; lia). pks.
  match goal with H : ?x = v |- _ => subst x end. pks. unfold aligned. split; [wfs|split; [wfs|split; [wfs|split; wfs]]].
Qed.
Lemma post_round w wE wF G e s t g : 1 <= wE -> 1 <= wF -> wF + 3 < 2 ^ wE -> wE + wF + 3 <= w -> wF + 5 <= w ->
  wf (wF + 5) G -> wf wE e -> wf 1 s -> wf 2 t -> wf 1 g -> post w (wf (wE + wF + 3)) (add_round_prog wE wF G e s t g).
Proof.
  intros HE HF HC Hw Hw5 HG He Hs Ht Hg. assert (W : 1 <= intlog2 (wF + 5) <= wE + 2) by (apply intlog2_lt; [lia|lia|]; rewrite Z.pow_add_r by lia; lia).
  unfold add_round_prog. cbv zeta. generalize dependent (intlog2 (wF + 5)). intros c W. pks.
  eapply post_bind; [apply post_lzoc; first [lia | wfs]|]. intros [sf nz] [Wsf Wnz]. cbn [fst snd] in *. rewrite Z2Nat.id in Wnz by lia. pks.
  eapply post_bind; [apply post_lut; [|lia|lia|]|].
  1: match goal with H : wf (2 + 2) ?x |- 0 <= ?x < _ => unfold wf in H; change (2 ^ (2 + 2)) with 16 in H; lia end.
  1: intro i; pose proof (wf_excRt2 i) as H; unfold wf in H; lia.
  intros u Wu. pks. wfs.
Qed.
Lemma post_promote w DE DF SE SF x : 1 <= SE -> 1 <= SF -> Z.max DE SE + Z.max DF SF + 3 <= w -> wf (SE + SF + 3) x -> post w (wf (DE + DF + 3)) (promote_prog DE DF SE SF x).
Proof.
  intros HE HF Hw Hx. unfold promote_prog. destruct ((DE =? SE) && (DF =? SF)) eqn:A.
  { apply andb_prop in A. destruct A as [A B]. apply Z.eqb_eq in A. apply Z.eqb_eq in B. apply post_ret. wfs. }
  cbv zeta. pks. unfold promote_exp_prog, promote_frac_prog.
  apply (post_bind w (fun e => wf DE e /\ 1 <= DE)).
  { destruct (DE =? SE) eqn:B; [apply Z.eqb_eq in B|apply Z.eqb_neq in B; pk; apply Z.leb_le in T]; pks; (split; [wfs|lia]). }
  intros e [We HDE]. pks. apply (post_bind w (fun e => wf DF e /\ 1 <= DF)).
  { destruct (DF =? SF) eqn:B; [apply Z.eqb_eq in B|apply Z.eqb_neq in B; pk; apply Z.leb_le in T]; pks; (split; [wfs|lia]). }
  intros f [Wf HDF]. pks. wfs.
Qed.
Definition add_widest (E F : Z) : Z := Z.max (E + F + 3) (2 * F + 4).
Lemma post_add w wER wFR wEX wFX wEY wFY x y : 1 <= wEX -> 1 <= wFX -> 1 <= wEY -> 1 <= wFY -> 
  let E := Z.max wEX wEY in let F := Z.max wFX wFY in F + 3 < 2 ^ E -> 2 * F + 4 < 2 ^ 31 -> add_widest E F <= w ->
  wf (wEX + wFX + 3) x -> wf (wEY + wFY + 3) y -> post w (wf (E + F + 3)) (add_prog wER wFR wEX wFX wEY wFY x y).
Proof.
  intros H1 H2 H3 H4 E F HC HF Hw Hx Hy. unfold add_prog, add_widest in *. cbv zeta. assert (EE : ctMax wEX wEY = E /\ ctMax wFX wFY = F) by (rewrite !ctMax_eq; split; reflexivity).
  destruct EE as [-> ->]. assert (1 <= E /\ 1 <= F /\ wEX <= E /\ wEY <= E /\ wFX <= F /\ wFY <= F) by lia. clearbody E F.
  assert (2 <= E) by (destruct (Z.eq_dec E 1) as [->|]; [cbn in HC; lia|lia]).
  eapply post_bind; [apply post_promote; first [lia | wfs]|]. intros X HX. eapply post_bind; [apply post_promote; first [lia | wfs]|]. intros Y HY. pk.
  eapply post_bind; [apply post_align; first [lia | wfs]|]. intros [G [[[e s] t] g]] (A1 & A2 & A3 & A4 & A5). apply post_round; first [lia | assumption].
Qed.
Lemma add_any w K wER wFR wEX wFX wEY wFY x y : back_end w K -> 1 <= wEX -> 1 <= wFX -> 1 <= wEY -> 1 <= wFY -> 
  let E := Z.max wEX wEY in let F := Z.max wFX wFY in F + 3 < 2 ^ E -> 2 * F + 4 < 2 ^ 31 -> add_widest E F <= w ->
  wf (wEX + wFX + 3) x -> wf (wEY + wFY + 3) y -> run K (add_prog wER wFR wEX wFX wEY wFY x y) = add_single wER wFR wEX wFX wEY wFY x y.
Proof.
  intros HK H1 H2 H3 H4 E F HC HF Hw Hx Hy. rewrite (run_agree w K); [|exact HK|]. 
  - apply run_add; try assumption. rewrite !ctMax_eq. exact HC.
  - eapply proj1. eapply post_add; eassumption.
Qed.
