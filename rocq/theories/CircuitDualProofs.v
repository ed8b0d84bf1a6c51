From Coq Require Import ZArith Bool List Lia.
From Verif Require Import Fw FwLemmas Spec Flopoco FlopocoLemmas Mul MulProofs AddSingle AddSingleProofs AddSingleProofs2 AddAltProofs2 AddDual Fma Circuit CircuitProofs CircuitMul CircuitMulProofs CircuitAdd CircuitAddProofs CircuitCmp CircuitCmpProofs CircuitDual.
Open Scope Z_scope.

Lemma run_dual_shift wE wF d : 1 <= wE -> 1 <= wF -> run fw_sem (dual_shift_prog wE wF (intlog2 (wF + 3)) d) = dual_shiftVal wE wF d.
Proof.
  intros HE HF. assert (S : 1 <= intlog2 (wF + 3)) by (unfold intlog2; rewrite (proj2 (Z.leb_gt _ _)) by lia; pose proof (Z.log2_nonneg (wF + 3)); lia).
  unfold dual_shift_prog, dual_shiftVal. cbv zeta. generalize dependent (intlog2 (wF + 3)). intros s S. rewrite !run_if. destruct (s <? wE) eqn:A; [|ev; rewrite of_int_0 by lia; ev; rewrite run_if; destruct (wE =? s) eqn:B].
  - apply Z.ltb_lt in A. rn. destruct (of_int s _); [|reflexivity]. ev. cbn [bind]. rewrite sel_bool. destruct (checked_cast _ _ _); reflexivity.
  - ev. destruct (checked_cast _ _ _); reflexivity.
  - apply Z.ltb_ge in A. apply Z.eqb_neq in B. rn. destruct (checked_cast _ _ _); reflexivity.
Qed.
Lemma run_close wE wF x y d c : 1 <= wE -> 1 <= wF -> run fw_sem (dual_close_prog wE wF x y d c) = dual_close wE wF x y d c.
Proof.
  intros HE HF. assert (S : 1 <= intlog2 (wF + 2)) by (unfold intlog2; rewrite (proj2 (Z.leb_gt _ _)) by lia; pose proof (Z.log2_nonneg (wF + 2)); lia).
  unfold dual_close_prog, dual_close. cbv zeta. generalize dependent (intlog2 (wF + 2)). intros s S. rn. rewrite !sel_bool. rewrite run_bind, run_lzoc. apply bind_ext; [reflexivity|]. intros [sf nz]. rn.
  rewrite run_passert. unfold assert_. destruct (0 <=? _) eqn:A; [|reflexivity]. apply Z.leb_le in A. cbn [bind]. rn. reflexivity.
Qed.
Lemma run_leading l a b c : run fw_sem (leading_prog l a b c) = Some (select (feq l 0) a (select (feq l 1) b c)).
Proof. unfold leading_prog. rn. rewrite !sel_bool. reflexivity. Qed.
Lemma pad_range wF : 0 <= dual_pad wF <= 2.
Proof. unfold dual_pad. destruct (_ || _); lia. Qed.
Ltac rl := repeat (first [match goal with |- run _ (pbind (leading_prog ?l ?a ?b ?c) _) = _ => rewrite (run_pbind _ _ _ _ (run_leading l a b c)) end | progress rn]).
Lemma run_far wE wF x y e v : 1 <= wE -> 1 <= wF -> run fw_sem (dual_far_prog wE wF x y e v) = dual_far wE wF x y e v.
Proof.
  intros HE HF. pose proof (pad_range wF) as P. unfold dual_far_prog, dual_far. cbv zeta. generalize dependent (dual_pad wF). intros p P.
  unfold drop_lsbs. rewrite (proj2 (Z.leb_le 0 p)), (proj2 (Z.leb_le p (2 * wF + 4 + p))), (proj2 (Z.eqb_neq p (2 * wF + 4 + p))) by lia. cbn [andb].
  unfold zpad_lo, zg. rn. st. st. cbn [run fw_sem]. rewrite !gb by lia. cbn [bind]. rl. rewrite !sel_bool. reflexivity.
Qed.
Lemma run_final wE wF x y e c cl fa : 1 <= wE -> 1 <= wF -> run fw_sem (dual_final_prog wE wF x y e c cl fa) = Some (dual_final wE wF x y e c cl fa).
Proof.
  intros HE HF. destruct cl as [[[bc rc] zc] rs], fa as [bf rf]. unfold dual_final_prog, dual_final. cbv zeta. rn. rewrite !sel_bool. rewrite !b2z_is_1.
  assert (W1 : forall i a b, wf (wE + wF) a -> wf (wE + wF) b -> wf (wE + wF) (select i a b)) by (intros i a b Ha Hb; unfold select; destruct (to_bool i); assumption).
  assert (W2 : forall i a b, wf 1 a -> wf 1 b -> wf 1 (select i a b)) by (intros i a b Ha Hb; unfold select; destruct (to_bool i); assumption).
  repeat match goal with |- run _ (pbind (if ?t then _ else _) _) = _ => destruct t eqn:?; rn; rewrite ?b2z_is_1 end; rewrite !sel_bool; f_equal;
  rewrite (cat_assoc 1 (wE + wF)); try lia; try reflexivity; try (apply W1; apply wf_bits; lia).
  all: apply W2; [apply wf_bits; lia|apply W2; [|apply wf_bits; lia]].
  all: match goal with |- wf 1 (fand ?a ?b) => refine (fw_wf (OAnd 1 a b) _ _ eq_refl); cbn [op_ok]; split; [lia|split; apply wf_bits; lia] end.
Qed.
Lemma run_dual_body wE wF x y : 1 < wE -> 1 <= wF -> run fw_sem (dual_body_prog wE wF x y) = add_dual_body wE wF x y.
Proof.
  intros HE HF. unfold dual_body_prog, add_dual_body. cbv zeta. rn. rewrite !sel_bool. rewrite run_bind, run_dual_shift by lia. apply bind_ext; [reflexivity|]. intro sv. rn. rewrite !sel_bool.
  rewrite run_bind, run_close by lia. apply bind_ext; [reflexivity|]. intros cl. rewrite run_bind, run_far by lia. apply bind_ext; [reflexivity|]. intros fa. apply run_final; lia.
Qed.
Lemma run_dual wER wFR wEX wFX wEY wFY x y : 1 <= wEX -> 1 <= wFX -> 1 <= wEY -> 1 <= wFY ->
  run fw_sem (dual_prog wER wFR wEX wFX wEY wFY x y) = add_dual wER wFR wEX wFX wEY wFY x y.
Proof.
  intros H1 H2 H3 H4. unfold dual_prog, add_dual. cbv zeta. rewrite !ctMax_eq.
  rewrite run_bind, run_promote by lia. apply bind_ext; [reflexivity|]. intro X. rewrite run_bind, run_promote by lia. apply bind_ext; [reflexivity|]. intro Y.
  rewrite run_passert. unfold assert_. destruct (_ && _) eqn:A; [|reflexivity]. apply andb_prop in A. destruct A as [_ A]. apply Z.ltb_lt in A. apply run_dual_body; lia.
Qed.

(** ** Ranges *)
Lemma post_dual_shift w wE wF s d : 1 <= wE -> 1 <= wF -> 1 <= s -> wF + 3 < 2 ^ 31 -> Z.max wE s <= w -> wf wE d -> post w (wf s) (dual_shift_prog wE wF s d).
Proof.
  intros H1 H2 H3 H4 H5 Hd. unfold dual_shift_prog. destruct (s <? wE) eqn:A; [|pks; destruct (wE =? s) eqn:B].
  - apply Z.ltb_lt in A. pks. wfs.
  - pks. wfs.
  - apply Z.ltb_ge in A. apply Z.eqb_neq in B. pks. wfs.
Qed.
Definition closed (wE wF : Z) (p : Z * Z * Z * Z) : Prop := let '(b, r, z, s) := p in wf (2 + wE + wF) b /\ wf 1 r /\ wf 1 z /\ wf 1 s.
Lemma post_close w wE wF x y d c : 1 < wE -> 1 <= wF -> wE + wF + 3 <= w -> wf (wE + wF + 3) x -> wf (wE + wF + 3) y -> wf wE d -> wf 1 c ->
  post w (closed wE wF) (dual_close_prog wE wF x y d c).
Proof.
  intros HE HF Hw Hx Hy Hd Hc. assert (S : 1 <= intlog2 (wF + 2) <= wF + 2).
  { apply intlog2_lt; [lia|lia|]. apply Z.pow_gt_lin_r; lia. }
  unfold dual_close_prog. cbv zeta. generalize dependent (intlog2 (wF + 2)). intros s S. pks.
  eapply post_bind; [apply post_lzoc; first [lia | wfs]|]. intros [sf nz] [Wsf Wnz]. cbn [fst snd] in *. rewrite Z2Nat.id in Wnz by lia. pks. apply Z.leb_le in T. pks.
  unfold closed. split; [wfs|split; [wfs|split; wfs]].
Qed.
Lemma post_leading w k l a b c : 2 <= w -> wf 2 l -> wf k a -> wf k b -> wf k c -> post w (wf k) (leading_prog l a b c).
Proof. intros. unfold leading_prog, p_select. pks. wfs. Qed.
Definition far_ok (wE wF : Z) (p : Z * Z) : Prop := let '(b, r) := p in wf (2 + wE + wF) b /\ wf 1 r.
Lemma post_far w wE wF x y e v : 1 < wE -> 1 <= wF -> wE + wF + 3 <= w -> 2 * wF + 4 + dual_pad wF <= w -> 2 * wF + 4 < 2 ^ 31 -> wf (wE + wF + 3) x -> wf (wE + wF + 3) y -> wf 1 e -> wf (intlog2 (wF + 3)) v ->
  post w (far_ok wE wF) (dual_far_prog wE wF x y e v).
Proof.
  intros HE HF Hw Hw2 HF2 Hx Hy He Hv. pose proof (pad_range wF) as P. pose proof (intlog2_lt (wF + 3) 31 ltac:(lia) ltac:(lia) ltac:(lia)) as Hs.
  assert (Hs2 : intlog2 (wF + 3) <= wF + 3) by (apply intlog2_lt; [lia|lia|]; apply Z.pow_gt_lin_r; lia).
  assert (V : 0 <= v < 2 ^ 31) by (pose proof (Z.pow_le_mono_r 2 (intlog2 (wF + 3)) 31 ltac:(lia) ltac:(lia)); unfold wf in Hv; lia).
  unfold dual_far_prog. cbv zeta. generalize dependent (dual_pad wF). intros p Hw2 P. generalize dependent (intlog2 (wF + 3)). intros s Hv Hs Hs2. pks.
  match goal with H : ?x = v |- _ => subst x end. pks.
  repeat (eapply post_bind; [apply post_leading; first [lia | wfs]|]; intros ? ?; pks).
  unfold far_ok. split; wfs.
Qed.
Lemma post_final w wE wF x y e c cl fa : 1 < wE -> 1 <= wF -> wE + wF + 3 <= w -> wf (wE + wF + 3) x -> wf (wE + wF + 3) y -> wf 1 e -> wf 1 c -> closed wE wF cl -> far_ok wE wF fa ->
  post w (wf (wE + wF + 3)) (dual_final_prog wE wF x y e c cl fa).
Proof.
  intros HE HF Hw Hx Hy He Hc Hcl Hfa. destruct cl as [[[bc rc] zc] rs], fa as [bf rf]. destruct Hcl as (C1 & C2 & C3 & C4). destruct Hfa as [F1 F2].
  unfold dual_final_prog. cbv zeta. pks. eapply (post_bind w (wf 2)).
  - pks. destruct (_ =? 1); pks; [wfs|]. destruct (_ =? 1); pks; [wfs|]. destruct (_ =? 1); pks; wfs.
  - intros ex Wex. pks. wfs.
Qed.
Definition dual_widest (E F : Z) : Z := Z.max (E + F + 3) (2 * F + 4 + dual_pad F).
Lemma post_dual_body w wE wF X Y : 1 < wE -> 1 <= wF -> dual_widest wE wF <= w -> 2 * wF + 4 < 2 ^ 31 -> wf (wE + wF + 3) X -> wf (wE + wF + 3) Y -> post w (wf (wE + wF + 3)) (dual_body_prog wE wF X Y).
Proof.
  intros HE HF Hw HF2 HX HY. unfold dual_widest in Hw. unfold dual_body_prog. cbv zeta. pks.
  pose proof (intlog2_lt (wF + 3) (wF + 3) ltac:(lia) ltac:(lia) ltac:(apply Z.pow_gt_lin_r; lia)) as Hs. pose proof (pad_range wF).
  eapply post_bind; [apply post_dual_shift; first [lia | wfs]|]. intros v Wv. pks.
  eapply post_bind; [apply post_close; first [lia | wfs]|]. intros cl Wc.
  eapply post_bind; [apply post_far; first [lia | wfs]|]. intros fa Wf.
  apply post_final; first [lia | assumption | wfs].
Qed.
Lemma post_dual w wER wFR wEX wFX wEY wFY x y : 1 <= wEX -> 1 <= wFX -> 1 <= wEY -> 1 <= wFY ->
  let E := Z.max wEX wEY in let F := Z.max wFX wFY in 2 * F + 4 < 2 ^ 31 -> dual_widest E F <= w ->
  wf (wEX + wFX + 3) x -> wf (wEY + wFY + 3) y -> post w (wf (E + F + 3)) (dual_prog wER wFR wEX wFX wEY wFY x y).
Proof.
  intros H1 H2 H3 H4 E F HF Hw Hx Hy. unfold dual_prog. cbv zeta. assert (EE : ctMax wEX wEY = E /\ ctMax wFX wFY = F) by (rewrite !ctMax_eq; split; reflexivity).
  destruct EE as [-> ->]. assert (1 <= E /\ 1 <= F /\ wEX <= E /\ wEY <= E /\ wFX <= F /\ wFY <= F) by lia. clearbody E F. pose proof Hw as Hw'. unfold dual_widest in Hw'.
  eapply post_bind; [apply post_promote; first [lia | wfs]|]. intros X HX. eapply post_bind; [apply post_promote; first [lia | wfs]|]. intros Y HY. pk.
  apply andb_prop in T. destruct T as [_ T]. apply Z.ltb_lt in T. apply post_dual_body; first [lia | assumption].
Qed.
Lemma dual_any w K wER wFR wEX wFX wEY wFY x y : back_end w K -> 1 <= wEX -> 1 <= wFX -> 1 <= wEY -> 1 <= wFY ->
  let E := Z.max wEX wEY in let F := Z.max wFX wFY in 2 * F + 4 < 2 ^ 31 -> dual_widest E F <= w ->
  wf (wEX + wFX + 3) x -> wf (wEY + wFY + 3) y -> run K (dual_prog wER wFR wEX wFX wEY wFY x y) = add_dual wER wFR wEX wFX wEY wFY x y.
Proof.
  intros HK H1 H2 H3 H4 E F HF Hw Hx Hy. rewrite (run_agree w K); [|exact HK|].
  - apply run_dual; assumption.
  - eapply proj1. eapply post_dual; eassumption.
Qed.

(** ** fma *)
Lemma post_mul_wide w wE wFX wFY X Y : 2 <= wE <= 31 -> 1 <= wFX -> 1 <= wFY -> wf (wE + wFX + 3) X -> wf (wE + wFY + 3) Y -> wE + (wFX + wFY + 2) + 3 <= w ->
  post w (wf (wE + (wFX + wFY + 2) + 3)) (mul_prog wE (wFX + wFY + 2) wE wFX wFY X Y).
Proof.
  intros HE HX HY Wx Wy Hw. split.
  - apply along_mul; try assumption; try lia. unfold mul_widest. lia.
  - rewrite run_mul by lia. destruct (mul_exact_char wE (wFX + wFY + 2) wFX wFY X Y ltac:(lia) HX HY ltac:(lia) Wx Wy) as (r & -> & W & _). intros a E. injection E as <-. exact W.
Qed.
Lemma run_fma wER wFR wEX wFX wEY wFY wEZ wFZ x y z : 1 <= wER -> 1 <= wFR -> 1 <= wEX -> 1 <= wFX -> 1 <= wEY -> 1 <= wFY -> 1 <= wEZ -> 1 <= wFZ ->
  run fw_sem (fma_prog wER wFR wEX wFX wEY wFY wEZ wFZ x y z) = fma wER wFR wEX wFX wEY wFY wEZ wFZ x y z.
Proof.
  intros H1 H2 H3 H4 H5 H6 H7 H8. unfold fma_prog, fma. cbv zeta.
  assert (B : 1 <= fma_wEXY wEX wEY /\ 1 <= fma_wEXYZ wEX wEY wEZ) by (unfold fma_wEXYZ, fma_wEXY; destruct (wEY <? wEX), (wEZ <? _); lia).
  assert (C : 1 <= fma_wFXY wFX wFY /\ 1 <= fma_wFXYZ wFX wFY wFZ) by (unfold fma_wFXYZ, fma_wFXY; rewrite ctMax_eq; lia).
  destruct B, C. generalize dependent (fma_wEXY wEX wEY). intros exy Hexy. generalize dependent (fma_wEXYZ wEX wEY wEZ). intros exyz Hexyz.
  generalize dependent (fma_wFXY wFX wFY). intros fxy Hfxy. generalize dependent (fma_wFXYZ wFX wFY wFZ). intros fxyz Hfxyz.
  rewrite run_bind, run_convert by lia. apply bind_ext; [reflexivity|]. intro xx. rewrite run_bind, run_convert by lia. apply bind_ext; [reflexivity|]. intro yy.
  rewrite run_bind, run_mul by lia. apply bind_ext; [reflexivity|]. intro xy. rewrite run_bind, run_convert by lia. apply bind_ext; [reflexivity|]. intro xyxy.
  rewrite run_bind, run_convert by lia. apply bind_ext; [reflexivity|]. intro zz. rewrite run_bind, run_dual by lia. apply bind_ext; [reflexivity|]. intro xyz. apply run_convert; lia.
Qed.
Lemma fma_widths wEX wEY wEZ wFX wFY wFZ :
  fma_wEXY wEX wEY = Z.max wEX wEY + 2 /\ fma_wEXYZ wEX wEY wEZ = Z.max (Z.max wEX wEY + 2) (wEZ + 1) /\ fma_wFXY wFX wFY = wFX + wFY + 2 /\ fma_wFXYZ wFX wFY wFZ = Z.max (wFX + wFY + 2) wFZ.
Proof.
  unfold fma_wFXYZ, fma_wEXYZ, fma_wEXY, fma_wFXY. rewrite ctMax_eq. destruct (Z.ltb_spec wEY wEX); (destruct (Z.ltb_spec wEZ (wEX + 2)) || idtac); destruct (Z.ltb_spec wEZ (wEY + 2)); lia.
Qed.
Lemma post_fma w wER wFR wEX wFX wEY wFY wEZ wFZ x y z : 1 <= wER <= 31 -> 1 <= wFR -> 1 <= wEX -> 1 <= wFX -> 1 <= wEY -> 1 <= wFY -> 1 <= wEZ -> 1 <= wFZ ->
  let E := Z.max (Z.max wEX wEY + 2) (wEZ + 1) in let F := Z.max (wFX + wFY + 2) wFZ in
  E <= 31 -> 2 * F + 4 < 2 ^ 31 -> dual_widest E F <= w -> Z.max wER E + Z.max wFR F + 3 <= w ->
  wf (wEX + wFX + 3) x -> wf (wEY + wFY + 3) y -> wf (wEZ + wFZ + 3) z -> post w (wf (wER + wFR + 3)) (fma_prog wER wFR wEX wFX wEY wFY wEZ wFZ x y z).
Proof.
  intros H1 H2 H3 H4 H5 H6 H7 H8 E F HE HF Hd Hw Wx Wy Wz. unfold fma_prog. cbv zeta. destruct (fma_widths wEX wEY wEZ wFX wFY wFZ) as (-> & -> & -> & ->). fold E F.
  assert (A1 : Z.max wEX wEY + 2 <= E /\ wEZ + 1 <= E /\ wFX + wFY + 2 <= F /\ wFZ <= F /\ 3 <= E) by lia. clearbody E F.
  eapply post_bind; [apply post_convert; first [lia | wfs]|]. intros xx Wxx. eapply post_bind; [apply post_convert; first [lia | wfs]|]. intros yy Wyy.
  eapply post_bind; [apply post_mul_wide; first [lia | wfs]|]. intros xy Wxy. eapply post_bind; [apply post_convert; first [lia | wfs]|]. intros xyxy Wxyxy.
  eapply post_bind; [apply post_convert; first [lia | wfs]|]. intros zz Wzz.
  pose proof (post_dual w E F E F E F xyxy zz ltac:(lia) ltac:(lia) ltac:(lia) ltac:(lia)) as PD. cbv zeta in PD. rewrite !Z.max_id in PD.
  eapply post_bind; [apply PD; first [lia | exact Hd | wfs]|]. intros xyz Wxyz. apply post_convert; first [lia | wfs].
Qed.
Lemma fma_any w K wER wFR wEX wFX wEY wFY wEZ wFZ x y z : back_end w K -> 1 <= wER <= 31 -> 1 <= wFR -> 1 <= wEX -> 1 <= wFX -> 1 <= wEY -> 1 <= wFY -> 1 <= wEZ -> 1 <= wFZ ->
  let E := Z.max (Z.max wEX wEY + 2) (wEZ + 1) in let F := Z.max (wFX + wFY + 2) wFZ in
  E <= 31 -> 2 * F + 4 < 2 ^ 31 -> dual_widest E F <= w -> Z.max wER E + Z.max wFR F + 3 <= w ->
  wf (wEX + wFX + 3) x -> wf (wEY + wFY + 3) y -> wf (wEZ + wFZ + 3) z ->
  run K (fma_prog wER wFR wEX wFX wEY wFY wEZ wFZ x y z) = fma wER wFR wEX wFX wEY wFY wEZ wFZ x y z.
Proof.
  intros HK H1 H2 H3 H4 H5 H6 H7 H8 E F HE HF Hd Hw Wx Wy Wz. rewrite (run_agree w K); [|exact HK|].
  - apply run_fma; lia.
  - eapply proj1. eapply post_fma; eassumption.
Qed.
