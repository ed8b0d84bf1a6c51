From Coq Require Import ZArith Bool List Lia.
From Verif Require Import Fw FwLemmas FlopocoLemmas Mul MulProofs Circuit CircuitProofs CircuitMul.
Open Scope Z_scope.

Lemma of_int_0 W : 0 <= W -> of_int W 0 = Some 0.
Proof. intro H. unfold of_int. rewrite (mask_ones W H). rewrite (proj2 (Z.leb_le 0 W) H). rewrite (proj2 (Z.leb_le 0 (2 ^ W - 1))) by lia. reflexivity. Qed.
Lemma to_bool_b2z b : to_bool (Z.b2z b) = b.
Proof. destruct b; reflexivity. Qed.
Lemma step {A B} (a b : option A) (f g : A -> option B) : a = b -> (forall r, b = Some r -> f r = g r) -> (match a with Some r => f r | None => None end) = bind b g.
Proof. intros <- H. destruct a as [r|]; [now apply H|reflexivity]. Qed.
Lemma sel_bool {A} c (a b : A) : select (Z.b2z (to_bool c)) a b = select c a b.
Proof. unfold select, to_bool at 1. destruct (to_bool c); reflexivity. Qed.
Lemma cat_assoc WB WC a b c : 0 <= WB -> 0 <= WC -> wf WB b -> wf WC c -> cat (WB + WC) a (cat WC b c) = cat WC (cat WB a b) c.
Proof.
  intros HB HC Wb Wc. unfold wf in *. rewrite (cat_eq WC (cat WB a b) c), (cat_eq WC b c), (cat_eq WB a b) by lia.
  assert (0 <= b * 2 ^ WC + c < 2 ^ (WB + WC)) by (rewrite Z.pow_add_r by lia; nia). rewrite cat_eq by lia. rewrite Z.pow_add_r by lia. ring.
Qed.
Lemma run_if {A} K (c : bool) (p q : prog A) : run K (if c then p else q) = if c then run K p else run K q.
Proof. destruct c; reflexivity. Qed.
Lemma b2z_is_1 b : (Z.b2z b =? 1) = b.
Proof. destruct b; reflexivity. Qed.
Lemma run_exc e : run fw_sem (mul_exc_prog e) = Some (mul_exc e).
Proof.
  unfold mul_exc_prog, p_one_of3, p_one_of2, mul_exc. repeat (cbn [run fw_sem pbind]; rewrite ?run_if). unfold feq.
  rewrite !for_b2z, !to_bool_b2z, !b2z_is_1. change (of_int 2 0) with (Some 0). change (of_int 2 1) with (Some 1). change (of_int 2 2) with (Some 2). change (of_int 2 3) with (Some 3).
  destruct ((e =? 0) || (e =? 1) || (e =? 4)), (e =? 5), ((e =? 6) || (e =? 9) || (e =? 10)); reflexivity.
Qed.
Lemma of_int_wf W n : 0 <= W -> wf W n -> of_int W n = Some n.
Proof. unfold of_int, wf. intros H L. rewrite (mask_ones W H), (proj2 (Z.leb_le 0 W) H), (proj2 (Z.leb_le 0 n)), (proj2 (Z.leb_le n (2 ^ W - 1))) by lia. reflexivity. Qed.
Lemma run_final b last exc : wf 2 last -> run fw_sem (mul_final_prog b last exc) =
  Some (if (exc =? 3) || (exc =? 2) || (exc =? 0) then exc else if b =? 0 then 1 else if b =? 1 then 2 else if (b =? 3) || (b =? 2) then last else 3).
Proof.
  intro L. unfold mul_final_prog, p_one_of3, p_one_of2, p_select. cbn [run fw_sem pbind].
  rewrite (of_int_wf 2 last) by (lia || exact L).
  change (of_int 2 1) with (Some 1). change (of_int 2 2) with (Some 2). change (of_int 2 3) with (Some 3). cbn [run fw_sem pbind].
  rewrite !sel_bool. unfold feq. rewrite !for_b2z.
  unfold select. rewrite !to_bool_b2z. reflexivity.
Qed.
Lemma run_zpad P W x : 0 <= P -> run fw_sem (p_zpad_hi P W x) = Some (zpad_hi P W x).
Proof. intro H. unfold p_zpad_hi. cbn [run fw_sem]. rewrite of_int_0 by exact H. reflexivity. Qed.
Lemma run_select {A} c (a b : A) : run fw_sem (p_select c a b) = Some (select c a b).
Proof. unfold p_select. cbn [run fw_sem]. rewrite sel_bool. reflexivity. Qed.
Lemma run_pbind {A B} K (p : prog A) (f : A -> prog B) r : run K p = Some r -> run K (pbind p f) = run K (f r).
Proof. intro H. rewrite run_bind, H. reflexivity. Qed.

Ltac pure := cbn [run fw_sem].
Ltac st := pure; apply step; [reflexivity|]; let r := fresh "r" in let E := fresh "E" in intros r E.
Lemma run_mul wER wFR wE wFX wFY X Y : 1 <= wER -> 1 <= wFR -> 1 <= wE -> 1 <= wFX -> 1 <= wFY -> wER <= wE ->
  run fw_sem (mul_prog wER wFR wE wFX wFY X Y) = mul_v1 wER wFR wE wFX wFY X Y.
Proof.
  intros H1 H2 H3 H4 H5 H6. unfold mul_prog, mul_v1, get_bit. cbv zeta.
  st. st. st. st. pure.
  rewrite (run_pbind _ _ _ _ (run_zpad 2 wE _ ltac:(lia))).
  rewrite (run_pbind _ _ _ _ (run_zpad 2 wE _ ltac:(lia))).
  st. st. st. st. st. pure.
  rewrite (run_pbind _ _ _ _ (run_exc _)).
  st. rewrite (run_pbind _ _ _ _ (run_zpad (wE + 1) 1 _ ltac:(lia))). pure. rewrite run_if.
  destruct (wFX + wFY + 2 <=? 1 + wFR) eqn:B; [apply Z.leb_le in B|apply Z.leb_gt in B].
  - st. pure. rewrite of_int_0 by lia. st. rewrite of_int_0 by lia. pure. rewrite (run_pbind _ _ _ _ (run_select _ _ _)).
    st. rewrite (run_pbind _ _ _ _ (run_final _ 3 _ ltac:(split; cbn; lia))). st. reflexivity.
  - st. change (of_int 1 0) with (Some 0). st. change (of_int 2 0) with (Some 0). pure. rewrite (run_pbind _ _ _ _ (run_select _ _ _)).
    match goal with |- context [select (feq ?n 1) ?a ?b] => replace (select (feq n 1) a b) with (select n a b) by (unfold select, feq, to_bool; destruct (n =? 1); reflexivity) end.
    st. st. st. st. rewrite of_int_0 by lia. change (of_int 1 0) with (Some 0). change (of_int 1 1) with (Some 1). pure. rewrite (run_pbind _ _ _ _ (run_select _ _ _)).
    match goal with |- context [select (feq ?n 0) 0 1] => replace (select (feq n 0) 0 1) with (if n =? 0 then 0 else 1) by (unfold select, feq, to_bool; destruct (n =? 0); reflexivity) end.
    st. rewrite (run_pbind _ _ _ _ (run_zpad (2 + wER + wFR - 1) 1 _ ltac:(lia))). st.
    rewrite (run_pbind _ _ _ _ (run_final _ 0 _ ltac:(split; cbn; lia))). st. pure. f_equal. symmetry. 
    rewrite <- cat_assoc; [reflexivity|lia|lia| |].
    + unfold fxor, wf. rewrite land_mask by lia. apply Z.mod_pos_bound. reflexivity.
    + match goal with E : get_bits _ _ 0 _ = Some ?x |- wf _ ?x => rewrite (get_bits_w _ _ _ (wER + wFR)) in E by lia; injection E as <- end. apply Z.mod_pos_bound. apply Z.pow_pos_nonneg; lia.
Qed.

(** ** Every operation is in range *)
Lemma walk {A} w o (k : Z -> prog A) : fits w o -> (forall r, match o with OToInt _ a => r = a | _ => wf (op_width o) r end -> along (fits w) (k r)) -> along (fits w) (Do o k).
Proof. intros [H1 H2] Hk. split; [now split|]. intros r E. apply Hk. now apply fw_wf. Qed.
Lemma walk_bind {A B} w (Q : A -> Prop) (p : prog A) (f : A -> prog B) : along (fits w) p -> (forall a, run fw_sem p = Some a -> Q a) -> (forall a, Q a -> along (fits w) (f a)) -> along (fits w) (pbind p f).
Proof. intros H1 H2 H3. apply along_bind; [exact H1|]. intros a E. apply H3. now apply H2. Qed.
Lemma wf_select c W a b : wf W a -> wf W b -> wf W (select c a b).
Proof. unfold select. destruct (to_bool c); auto. Qed.
Ltac wfs :=
  match goal with
  | H : wf ?V ?a |- wf ?W ?a => first [exact H | replace W with V by lia; exact H]
  | |- wf _ (select _ _ _) => apply wf_select; wfs
  | |- wf _ _ => unfold wf; cbn; lia
  end.
Ltac fit := split; [cbn [op_ok]; repeat match goal with |- _ /\ _ => split end; first [wfs | lia | left; lia | exact I] | cbn [op_widest op_width]; lia].
Ltac wk := match goal with |- along _ (Do _ _) => idtac end; apply walk; [fit | let r := fresh "r" in let E := fresh "W" in intros r E; cbn [op_width] in E].
Lemma along_exc w e : 4 <= w -> along (fits w) (mul_exc_prog e).
Proof.
  intro H. unfold mul_exc_prog, p_one_of3, p_one_of2. cbn [pbind]. do 6 wk. destruct (r4 =? 1); [wk; exact I|].
  wk. wk. destruct (r6 =? 1); [wk; exact I|]. do 6 wk. destruct (r12 =? 1); wk; exact I.
Qed.
Lemma along_final w b last exc : 4 <= w -> wf 2 last -> along (fits w) (mul_final_prog b last exc).
Proof.
  intros H L. assert (0 <= last < 4) by exact L. unfold mul_final_prog, p_one_of3, p_one_of2, p_select. cbn [pbind]. repeat wk. exact I.
Qed.
Lemma wf_exc e : wf 2 (mul_exc e).
Proof. unfold mul_exc. repeat match goal with |- context [if ?c then _ else _] => destruct c end; unfold wf; cbn; lia. Qed.
Lemma wf_final b last exc : wf 2 last -> wf 2 exc ->
  wf 2 (if (exc =? 3) || (exc =? 2) || (exc =? 0) then exc else if b =? 0 then 1 else if b =? 1 then 2 else if (b =? 3) || (b =? 2) then last else 3).
Proof. intros L E. repeat match goal with |- context [if ?c then _ else _] => destruct c end; first [assumption | unfold wf; cbn; lia]. Qed.
Definition mul_widest (wER wFR wE wFX wFY : Z) : Z := Z.max (Z.max (wFX + wFY + 2) (wER + wFR + 3)) (wE + Z.max wFX (Z.max wFY wFR) + 3).
Lemma along_mul w wER wFR wE wFX wFY X Y : 1 <= wER <= 31 -> 1 <= wFR -> 1 <= wE -> 1 <= wFX -> 1 <= wFY -> wER <= wE ->
  wf (wE + wFX + 3) X -> wf (wE + wFY + 3) Y -> mul_widest wER wFR wE wFX wFY <= w -> along (fits w) (mul_prog wER wFR wE wFX wFY X Y).
Proof.
  unfold mul_widest. intros H1 H2 H3 H4 H5 H6 HX HY Hw.
  assert (B : 1 <= 2 ^ (wER - 1) <= 2 ^ 30) by (split; [apply (Z.pow_le_mono_r 2 0); lia|apply Z.pow_le_mono_r; lia]). change (2 ^ 30) with 1073741824 in B.
  unfold mul_prog. cbv zeta. unfold p_zpad_hi, p_select. cbn [pbind].
  repeat wk. apply (walk_bind w (wf 2)); [apply along_exc; lia|intros a E; rewrite run_exc in E; injection E as <-; apply wf_exc|]. intros exc We.
  repeat wk. destruct (wFX + wFY + 2 <=? 1 + wFR) eqn:C; [apply Z.leb_le in C|apply Z.leb_gt in C].
  - repeat wk. apply (walk_bind w (wf 2)); [apply along_final; [lia|split; cbn; lia]| |].
    { intros a E. rewrite run_final in E by (split; cbn; lia). injection E as <-. apply wf_final; [split; cbn; lia|exact We]. }
    intros fe Wf. repeat wk. exact I.
  - repeat wk. apply (walk_bind w (wf 2)); [apply along_final; [lia|split; cbn; lia]| |].
    { intros a E. rewrite run_final in E by (split; cbn; lia). injection E as <-. apply wf_final; [split; cbn; lia|exact We]. }
    intros fe Wf. repeat wk. exact I.
Qed.
(** Every back end multiplies as the model does. *)
Lemma mul_any w K wER wFR wE wFX wFY X Y : back_end w K -> 1 <= wER <= 31 -> 1 <= wFR -> 1 <= wE -> 1 <= wFX -> 1 <= wFY -> wER <= wE ->
  wf (wE + wFX + 3) X -> wf (wE + wFY + 3) Y -> mul_widest wER wFR wE wFX wFY <= w ->
  run K (mul_prog wER wFR wE wFX wFY X Y) = mul_v1 wER wFR wE wFX wFY X Y.
Proof.
  intros. rewrite (run_agree w K) by (assumption || now apply along_mul). apply run_mul; lia.
Qed.
