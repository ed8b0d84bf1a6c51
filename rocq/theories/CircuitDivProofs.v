From Coq Require Import ZArith Bool List Lia.
From Verif Require Import Fw FwLemmas Flopoco FlopocoLemmas AddSingle AddSingleProofs AddSingleProofs2 AddAltProofs2 Div Circuit CircuitProofs CircuitMulProofs CircuitAdd CircuitAddProofs CircuitDiv.
Import ListNotations.
Open Scope Z_scope.

Lemma run_cat_from W xs : forall WA acc, 0 <= W -> 0 <= WA -> wf WA acc -> Forall (wf W) xs ->
  run fw_sem (cat_array_from W WA acc xs) = Some (match xs with [] => acc | _ => cat WA (concat_array W xs) acc end).
Proof.
  induction xs as [|x r IH]; intros WA acc HW HA Ha Hx; [reflexivity|]. cbn [cat_array_from]. cbn [run fw_sem].
  inversion Hx as [|? ? Hx1 Hx2]. subst. rewrite IH; [|lia|lia|apply wf_cat; assumption|exact Hx2]. f_equal. destruct r as [|y r]; [reflexivity|].
  rewrite cat_assoc by assumption. reflexivity.
Qed.
Lemma run_cat_array W xs : 0 <= W -> xs <> [] -> Forall (wf W) xs -> run fw_sem (cat_array_prog W xs) = Some (concat_array W xs).
Proof.
  intros HW Hn Hx. destruct xs as [|x r]; [congruence|]. unfold cat_array_prog. inversion Hx as [|? ? H1 H2]. subst. rewrite run_cat_from by assumption. destruct r; reflexivity.
Qed.
Lemma run_map f g xs : (forall x, run fw_sem (f x) = Some (g x)) -> run fw_sem (map_prog f xs) = Some (map g xs).
Proof. intro H. induction xs as [|x r IH]; [reflexivity|]. cbn [map_prog map]. rewrite (run_pbind _ _ _ _ (H x)). rewrite (run_pbind _ _ _ _ IH). reflexivity. Qed.
Lemma wf_digit i : wf 3 (div_digit i).
Proof. unfold div_digit. repeat match goal with |- context [match ?c with _ => _ end] => destruct c end; unfold wf; cbn; lia. Qed.
Lemma sel_feq {A} x n (a b : A) : select (feq x n) a b = if x =? n then a else b.
Proof. unfold select, feq. rewrite to_bool_b2z. reflexivity. Qed.
Lemma sel_feq2 {A} x m n (a b : A) : select (for_ 1 (feq x m) (feq x n)) a b = if (x =? m) || (x =? n) then a else b.
Proof. unfold select, feq. rewrite for_b2z, to_bool_b2z. reflexivity. Qed.
Lemma sel_feq3 {A} x m n k (a b : A) : select (for_ 1 (for_ 1 (feq x m) (feq x n)) (feq x k)) a b = if (x =? m) || (x =? n) || (x =? k) then a else b.
Proof. unfold select, feq. rewrite !for_b2z, to_bool_b2z. reflexivity. Qed.
Definition times3 (wF fY : Z) : Z := fadd (wF + 3) (zpad_hi 2 (wF + 1) fY) (cat 1 (cat (wF + 1) (zg 1) fY) (zg 1)).
Lemma wf_0 W : 0 <= W -> wf W 0.
Proof. intro H. split; [lia|apply Z.pow_pos_nonneg; lia]. Qed.
Lemma run_step wF fY w : 1 <= wF -> wf (wF + 1) fY -> run fw_sem (div_step_prog wF fY (times3 wF fY) w) = Some (div_step wF fY w).
Proof.
  intros HF Hy. unfold div_step_prog. rn. rewrite to_int_ok.
  2: { assert (W5 : wf (4 + 1) (cat 1 (bits (wF + 2) (wF - 1) w) (bits (wF - 1) (wF - 1) fY))) by (apply wf_cat; [lia|lia|apply wf_bits; lia|apply wf_bits; lia]). unfold wf in W5. change (2 ^ (4 + 1)) with 32 in W5. lia. }
  ev. rewrite of_int_wf by (lia || apply wf_digit). rn. rewrite !sel_bool, !sel_feq2. rewrite !sel_feq. unfold div_step, times3, zpad_lo, zpad_hi, zg.
  replace (cat (wF + 2) 0 (cat 1 fY 0)) with (cat 1 (cat (wF + 1) 0 fY) 0) by (symmetry; replace (wF + 2) with (wF + 1 + 1) by lia; apply cat_assoc; first [lia | exact Hy | apply wf_0; lia]).
  reflexivity.
Qed.
Lemma run_loop wF fY n : 1 <= wF -> wf (wF + 1) fY -> forall w acc, run fw_sem (div_loop_prog wF fY (times3 wF fY) n w acc) = Some (div_loop wF fY n w acc).
Proof.
  intros HF Hy. induction n as [|n IH]; intros w acc; [reflexivity|]. cbn [div_loop_prog div_loop]. rewrite (run_pbind _ _ _ _ (run_step wF fY w HF Hy)).
  destruct (div_step wF fY w) as [q w']. apply IH.
Qed.
Lemma run_q0 wF w0 : 1 <= wF -> run fw_sem (div_q0_prog wF w0) = Some (div_q0 wF w0).
Proof. intro HF. unfold div_q0_prog. rn. rewrite sel_bool, sel_feq. reflexivity. Qed.
Lemma last_map {A B} (f : A -> B) l d : last (map f l) (f d) = f (last l d).
Proof. induction l as [|x r IH]; [reflexivity|]. destruct r as [|y r]; [reflexivity|exact IH]. Qed.
Lemma Forall_map_wf (g : Z -> Z) W xs : (forall x, wf W (g x)) -> Forall (wf W) (map g xs).
Proof. intro H. induction xs; constructor; auto. Qed.
Lemma Forall_removelast {A} (P : A -> Prop) l : Forall P l -> Forall P (removelast l).
Proof. intro H. induction H as [|x l Hx Hl IH]; [constructor|]. destruct l as [|y l]; [constructor|]. cbn [removelast]. constructor; assumption. Qed.
Lemma wf_concat W xs : 0 <= W -> Forall (wf W) xs -> wf (Z.of_nat (length xs) * W) (concat_array W xs).
Proof.
  intros HW H. induction H as [|x r Hx Hr IH]; [unfold wf; cbn; lia|]. destruct r as [|y r]; [cbn [length concat_array]; replace (Z.of_nat 1 * W) with W by lia; exact Hx|].
  cbn [concat_array]. replace (Z.of_nat (length (x :: y :: r)) * W) with (Z.of_nat (length (y :: r)) * W + W) by (cbn [length]; lia). apply wf_cat; [cbn [length]; lia|lia|exact IH|exact Hx].
Qed.
Lemma run_fR0 n qs : 2 <= n -> Z.of_nat (length qs) = n -> run fw_sem (div_fR0_prog n qs) = Some (div_fR0 n qs).
Proof.
  intros Hn Hl. unfold div_fR0_prog, div_fR0.
  rewrite (run_pbind _ _ _ _ (run_map (fun q => opr r <- OSlice 3 1 0 q; Ret r) (fun q => bits 1 0 q) qs ltac:(intro; rn; reflexivity))).
  rewrite (run_pbind _ _ _ _ (run_map (fun q => opr m <- OSlice 3 2 2 q; p_zpad_lo 1 1 m) (fun q => zpad_lo 1 1 (bits 2 2 q)) qs ltac:(intro; rn; reflexivity))).
  assert (F1 : Forall (wf 2) (map (fun q => bits 1 0 q) qs)) by (apply Forall_map_wf; intro; apply wf_bits; lia).
  assert (F2 : Forall (wf 2) (map (fun q => zpad_lo 1 1 (bits 2 2 q)) qs)) by (apply Forall_map_wf; intro; apply (wf_cat 1 1); [lia|lia|apply wf_bits; lia|apply wf_0; lia]).
  assert (Q : exists a b r, qs = a :: b :: r) by (destruct qs as [|a [|b r]]; cbn [length] in Hl; [lia|lia|exists a, b, r; reflexivity]). destruct Q as (a & b & r & ->).
  set (qP := map (fun q => bits 1 0 q) (a :: b :: r)) in *. set (qM := map (fun q => zpad_lo 1 1 (bits 2 2 q)) (a :: b :: r)) in *.
  assert (N1 : qP <> []) by discriminate. assert (N2 : removelast qM <> []) by discriminate. 
  assert (L2 : Z.of_nat (length (removelast qM)) = n - 1) by (rewrite removelast_firstn_len, firstn_length; unfold qM; rewrite map_length; cbn [length] in *; lia).
  rewrite (run_pbind _ _ _ _ (run_cat_array 2 qP ltac:(lia) N1 F1)). clearbody qP qM. rn.
  rewrite (run_pbind _ _ _ _ (run_cat_array 2 (removelast qM) ltac:(lia) N2 (Forall_removelast _ _ F2))). rn. f_equal. f_equal.
  apply cat_assoc; [lia|lia| |apply wf_0; lia]. replace (2 * (n - 1)) with (Z.of_nat (length (removelast qM)) * 2) by lia. apply wf_concat; [lia|now apply Forall_removelast].
Qed.
Lemma run_exn e : run fw_sem (div_exn_prog e) = Some (div_exn e).
Proof. unfold div_exn_prog. rn. rewrite !sel_bool, !sel_feq3, !sel_feq. reflexivity. Qed.
Lemma run_finish wE wF n f e s x : 2 <= wE -> 1 <= wF -> wF + 5 <= 2 * n <= wF + 6 -> (wF mod 2 = 1 -> 2 * n = wF + 5) ->
  wf 1 s -> run fw_sem (div_finish_prog wE wF n f e s (div_exn x)) = div_finish wE wF n f e s x.
Proof.
  intros HE HF Hn Hodd Hs. unfold div_finish_prog, div_finish. cbv zeta. rewrite run_bind. apply bind_ext.
  - rewrite run_if. destruct (wF mod 2 =? 1) eqn:A.
    + apply Z.eqb_eq in A. rn. destruct (checked_cast _ _ _); reflexivity.
    + rn. destruct (checked_cast _ _ _); reflexivity.
  - intro fR. rn. rewrite sel_bool. rewrite run_passert. apply bind_ext; [reflexivity|]. intros _. rn. rewrite !sel_bool, !sel_feq. f_equal.
    rewrite <- (cat_assoc 1 (wE + wF)) by first [lia | exact Hs | apply wf_bits; lia].
    unfold opad_hi, zg.
    replace (cat (wE - 1) 0 (cat 1 (og (wE - 2)) (bits (wF + 3) (wF + 3) fR))) with (cat 1 (cat (wE - 2) 0 (og (wE - 2))) (bits (wF + 3) (wF + 3) fR)); [reflexivity|].
    symmetry. replace (wE - 1) with (wE - 2 + 1) at 1 by lia. apply cat_assoc; [lia|lia| |apply wf_bits; lia].
    unfold wf, og. rewrite Z.lxor_0_l, mask_ones by lia. lia.
Qed.
Lemma loop_len wF fY n : forall w acc, length (fst (div_loop wF fY n w acc)) = (n + length acc)%nat.
Proof. induction n as [|n IH]; intros w acc; [reflexivity|]. cbn [div_loop]. destruct (div_step wF fY w) as [q w']. rewrite IH. cbn [length]. lia. Qed.
Lemma digits wF : 1 <= wF -> let n := (wF + 6) / 2 in wF + 5 <= 2 * n <= wF + 6 /\ (wF mod 2 = 1 -> 2 * n = wF + 5).
Proof. intros H n. unfold n. pose proof (Z.div_mod (wF + 6) 2 ltac:(lia)). pose proof (Z.mod_pos_bound (wF + 6) 2 ltac:(lia)). pose proof (Z.div_mod wF 2 ltac:(lia)). split; lia. Qed.
Lemma run_body wE wF X Y : 2 <= wE -> 1 <= wF -> run fw_sem (div_body_prog wE wF X Y) = div_body wE wF X Y.
Proof.
  intros HE HF. pose proof (digits wF HF) as [D1 D2]. unfold div_body_prog, div_body. cbv zeta. generalize dependent ((wF + 6) / 2). intros n D1 D2. rn. rewrite (run_pbind _ _ _ _ (run_exn _)). rn.
  assert (Hy : wf (wF + 1) (opad_hi 1 wF (bits (wF - 1) 0 Y))) by (rewrite Z.add_comm; apply wf_cat; [lia|lia|unfold wf; cbn; lia|apply wf_bits; lia]).
  replace (wF + 2) with (wF + 1 + 1) by lia.
  rewrite (cat_assoc (wF + 1) 1) by first [lia | exact Hy | apply wf_0; lia].
  set (fY := opad_hi 1 wF (bits (wF - 1) 0 Y)) in *. clearbody fY.
  match goal with |- run _ (pbind (div_loop_prog wF fY ?t ?k ?w ?a) _) = _ => change t with (times3 wF fY); rewrite (run_pbind _ _ _ _ (run_loop wF fY k HF Hy w a)) end.
  fold (zpad_hi 2 (wF + 1) (opad_hi 1 wF (bits (wF - 1) 0 X))). 
  pose proof (loop_len wF fY (Z.to_nat (n - 1)) (cat (wF + 1) 0 (opad_hi 1 wF (bits (wF - 1) 0 X))) []) as L. unfold zpad_hi, zg in *.
  destruct (div_loop wF fY (Z.to_nat (n - 1)) _ []) as [qs w0]. cbn [fst snd length] in *.
  rewrite (run_pbind _ _ _ _ (run_q0 wF w0 HF)). rewrite (run_pbind _ _ _ _ (run_fR0 n (div_q0 wF w0 :: qs) ltac:(lia) ltac:(cbn [length]; lia))).
  apply run_finish; try assumption. unfold fxor, wf. rewrite land_mask by lia. apply Z.mod_pos_bound. reflexivity.
Qed.
Lemma run_div wER wFR wEX wFX wEY wFY x y : 1 <= wEX -> 1 <= wFX -> 1 <= wEY -> 1 <= wFY -> 2 <= Z.max wER (Z.max wEX wEY) ->
  run fw_sem (div_prog wER wFR wEX wFX wEY wFY x y) = div_v1 wER wFR wEX wFX wEY wFY x y.
Proof.
  intros H1 H2 H3 H4 H5. unfold div_prog, div_v1. cbv zeta. rewrite !ctMax_eq. 
  rewrite run_bind, run_promote by lia. apply bind_ext; [reflexivity|]. intro X. rewrite run_bind, run_promote by lia. apply bind_ext; [reflexivity|]. intro Y.
  rewrite run_passert. apply bind_ext; [reflexivity|]. intros _. apply run_body; lia.
Qed.

(** ** Every operation is in range *)
Lemma post_cat_from w W xs : 0 <= W -> forall WA acc, 0 <= WA -> wf WA acc -> Forall (wf W) xs -> WA + Z.of_nat (length xs) * W <= w ->
  post w (wf (WA + Z.of_nat (length xs) * W)) (cat_array_from W WA acc xs).
Proof.
  intros HW. induction xs as [|x r IH]; intros WA acc HA Ha Hx Hw; cbn [cat_array_from length] in *.
  - apply post_ret. wfs.
  - inversion Hx as [|? ? Hx1 Hx2]. subst. assert (0 <= Z.of_nat (length r) * W) by (apply Z.mul_nonneg_nonneg; lia). rewrite Nat2Z.inj_succ, Z.mul_succ_l in *. pk.
    replace (WA + (Z.of_nat (length r) * W + W)) with (W + WA + Z.of_nat (length r) * W) by lia. apply IH; [lia|exact W0|exact Hx2|lia].
Qed.
Lemma post_cat_array w W xs : 0 <= W -> Forall (wf W) xs -> Z.of_nat (length xs) * W <= w -> post w (wf (Z.of_nat (length xs) * W)) (cat_array_prog W xs).
Proof.
  intros HW Hx Hw. destruct xs as [|x r]; [apply post_fail|]. unfold cat_array_prog. inversion Hx as [|? ? H1 H2]. subst. cbn [length] in *. rewrite Nat2Z.inj_succ, Z.mul_succ_l in *.
  replace (Z.of_nat (length r) * W + W) with (W + Z.of_nat (length r) * W) by lia. apply post_cat_from; try assumption. lia.
Qed.
Lemma post_map w (P Q : Z -> Prop) f xs : (forall x, P x -> post w Q (f x)) -> Forall P xs -> post w (fun l => Forall Q l /\ length l = length xs) (map_prog f xs).
Proof.
  intros H Hx. induction Hx as [|x r Hx Hr IH]; [apply post_ret; split; [constructor|reflexivity]|]. cbn [map_prog]. eapply post_bind; [apply H, Hx|]. intros y Hy.
  eapply post_bind; [exact IH|]. intros ys [Hys Hl]. apply post_ret. split; [now constructor|]. cbn [length]. now rewrite Hl.
Qed.
Lemma post_step w wF fY t wv : 1 <= wF -> wF + 4 <= w -> wf (wF + 1) fY -> wf (wF + 3) t -> wf (wF + 3) wv -> post w (fun p => wf 3 (fst p) /\ wf (wF + 3) (snd p)) (div_step_prog wF fY t wv).
Proof.
  intros HF Hw Hy Ht Hv. unfold div_step_prog. cbv zeta. pks.
  assert (Hr : 0 <= r1 < 2 ^ 31) by (unfold wf in W1; change (2 ^ (4 + 1)) with 32 in W1; lia). pk. subst r2.
  pose proof (wf_digit r1) as Hd. unfold wf in Hd. change (2 ^ 3) with 8 in Hd. pks. cbn [fst snd]. split; wfs.
Qed.
Lemma post_loop w wF fY t n : 1 <= wF -> wF + 4 <= w -> wf (wF + 1) fY -> wf (wF + 3) t -> forall wv acc, wf (wF + 3) wv -> Forall (wf 3) acc ->
  post w (fun p => Forall (wf 3) (fst p) /\ length (fst p) = (n + length acc)%nat /\ wf (wF + 3) (snd p)) (div_loop_prog wF fY t n wv acc).
Proof.
  intros HF Hw Hy Ht. induction n as [|n IH]; intros wv acc Hv Ha; cbn [div_loop_prog].
  - apply post_ret. cbn [fst snd]. auto.
  - eapply post_bind; [apply post_step; eassumption|]. intros [q w'] [Hq Hw']. cbn [fst snd] in *. eapply post_imp; [|apply IH; [exact Hw'|constructor; assumption]].
    intros [l v] (A & B & C). cbn [fst snd length] in *. repeat split; try assumption; try apply C. lia.
Qed.
Lemma post_fR0 w n qs : 2 <= n -> Z.of_nat (length qs) = n -> 2 * n <= w -> Forall (wf 3) qs -> post w (wf (2 * n)) (div_fR0_prog n qs).
Proof.
  intros Hn Hl Hw Hq. unfold div_fR0_prog. eapply post_bind; [apply (post_map w (wf 3) (wf 2)); [|exact Hq]|].
  { intros x Hx. pks. wfs. }
  intros qP [HP LP]. eapply post_bind; [apply (post_map w (wf 3) (wf 2)); [|exact Hq]|].
  { intros x Hx. unfold p_zpad_lo. pks. wfs. }
  intros qM [HM LM]. eapply post_bind; [apply (post_cat_array w 2 qP); [lia|exact HP|lia]|]. intros pc Hpc. rewrite LP in Hpc.
  assert (HL : wf 2 (last qM 0)). { destruct qM as [|m r]; [apply wf_0; lia|]. rewrite (app_removelast_last 0 (l := m :: r)) in HM by discriminate. apply Forall_app in HM. destruct HM as [_ HM]. now inversion HM. }
  assert (LR : Z.of_nat (length (removelast qM)) = n - 1) by (rewrite removelast_firstn_len, firstn_length; lia).
  pks. eapply post_bind; [apply (post_cat_array w 2 (removelast qM)); [lia|now apply Forall_removelast|lia]|]. intros mc Hmc. rewrite LR in Hmc. pks. wfs.
Qed.
Lemma post_finish w wE wF n f e s x : 2 <= wE -> 1 <= wF -> wF + 5 <= 2 * n <= wF + 6 -> wF + 6 <= w -> wE + wF + 3 <= w ->
  wf (2 * n) f -> wf (wE + 2) e -> wf 1 s -> wf 2 x -> post w (wf (wE + wF + 3)) (div_finish_prog wE wF n f e s x).
Proof.
  intros HE HF Hn Hw1 Hw2 Hf He Hs Hx. unfold div_finish_prog. cbv zeta. apply (post_bind w (wf (4 + wF))).
  { destruct (wF mod 2 =? 1); pks; wfs. }
  intros fR HfR. pks. wfs.
Qed.
Definition div_widest (E F : Z) : Z := Z.max (E + F + 3) (F + 6).
Lemma post_body w wE wF X Y : 2 <= wE -> 1 <= wF -> div_widest wE wF <= w -> wf (wE + wF + 3) X -> wf (wE + wF + 3) Y -> post w (wf (wE + wF + 3)) (div_body_prog wE wF X Y).
Proof.
  unfold div_widest. intros HE HF Hw HX HY. pose proof (digits wF HF) as [D1 D2]. unfold div_body_prog. cbv zeta. generalize dependent ((wF + 6) / 2). intros n D1 D2. pks.
  apply (post_bind w (wf 2)). { unfold div_exn_prog, p_select. pks. wfs. }
  intros ex Hex. pks. eapply post_bind; [apply post_loop; first [lia | wfs | constructor]|]. intros [qs w0] (A & B & C). cbn [fst snd] in *.
  apply (post_bind w (wf 3)). { unfold div_q0_prog, p_select. pks. wfs. }
  intros q0 Hq0. eapply post_bind; [apply post_fR0; [lia| |lia|constructor; assumption]|].
  { cbn [length] in *. lia. }
  intros f Hf. apply post_finish; first [lia | wfs].
Qed.
Lemma div_any w K E F wEX wFX wEY wFY x y : back_end w K -> 2 <= E -> 1 <= F -> 1 <= wEX <= E -> 1 <= wFX <= F -> 1 <= wEY <= E -> 1 <= wFY <= F -> div_widest E F <= w ->
  wf (wEX + wFX + 3) x -> wf (wEY + wFY + 3) y -> run K (div_prog E F wEX wFX wEY wFY x y) = div_v1 E F wEX wFX wEY wFY x y.
Proof.
  intros HK HE HF H1 H2 H3 H4 Hw Hx Hy. rewrite (run_agree w K); [apply run_div; lia|exact HK|]. enough (H : post w (wf (E + F + 3)) (div_prog E F wEX wFX wEY wFY x y)) by exact (proj1 H).
  unfold div_prog. cbv zeta. rewrite !ctMax_eq. replace (Z.max E (Z.max wEX wEY)) with E by lia. replace (Z.max F (Z.max wFX wFY)) with F by lia.
  assert (E + F + 3 <= w) by (unfold div_widest in Hw; lia).
  eapply post_bind; [apply post_promote; first [lia | wfs]|]. intros X HX. eapply post_bind; [apply post_promote; first [lia | wfs]|]. intros Y HY. pk.
  apply post_body; assumption.
Qed.
