(** The sequences of CircuitDot.v are the functions of Dot.v, and stay in range. *)
From Coq Require Import ZArith Bool List Lia.
From Verif Require Import Fw FwLemmas Flopoco Dot AddSingleProofs AddSingleProofs2 Circuit CircuitProofs CircuitMul CircuitMulProofs CircuitAdd CircuitAddProofs CircuitCmp CircuitCmpProofs CircuitDot.
Open Scope Z_scope.

Lemma run_check E F x : 1 <= E -> 1 <= F -> run fw_sem (dot_check_prog E F x) = dot_check E F x.
Proof. intros HE HF. unfold dot_check_prog, dot_check. cls. rewrite b2z_is_1. unfold is_positive, is_normal, passert, assert_. destruct (to_bool _); reflexivity. Qed.
Lemma run_sig E F x : 1 <= E -> 1 <= F -> run fw_sem (dot_sig_prog E F x) = Some (opad_hi 1 F (get_frac E F x)).
Proof. intros HE HF. unfold dot_sig_prog. rn. reflexivity. Qed.
Lemma run_dexp E F a b : 1 <= E -> 1 <= F -> run fw_sem (dot_exp_prog E F a b) = Some (dot_exp E F a b).
Proof. intros HE HF. unfold dot_exp_prog. rn. reflexivity. Qed.
Lemma tl W B x : 1 <= B <= W -> take_lsbs W B x = Some (bits (B - 1) 0 x).
Proof. intro H. unfold take_lsbs. rewrite (proj2 (Z.leb_le 0 B)), (proj2 (Z.leb_le B W)), (proj2 (Z.eqb_neq B 0)) by lia. cbn [andb]. apply gb; lia. Qed.
Lemma tm W B x : 1 <= B <= W -> take_msbs W B x = Some (bits (W - 1) (W - B) x).
Proof. intro H. unfold take_msbs. rewrite (proj2 (Z.leb_le 0 B)), (proj2 (Z.leb_le B W)), (proj2 (Z.eqb_neq B 0)) by lia. cbn [andb]. apply gb; lia. Qed.
Lemma run_pack E F bias e f : 1 <= E -> 1 <= F -> wf F f -> run fw_sem (dot_pack_prog E F bias e f) = dot_pack E F bias e f.
Proof.
  intros HE HF Hf. unfold dot_pack_prog, dot_pack. rn. rewrite b2z_is_1, run_bind, tl by lia. cbn [bind].
  assert (T : forall fl, run fw_sem (opr z <- OInt 1 0; opr d <- OSubInt (E + 2) e bias; opr e0 <- OSlice (E + 2) (E - 1) 0 d; opr hi <- OCat 2 1 fl z; opr lo <- OCat E F e0 f; opr r <- OCat 3 (E + F) hi lo; Ret r) =
    Some (mk E F fl (zg 1) (bits (E - 1) 0 (fsub (E + 2) e bias)) f)).
  { intros fl. rn. rewrite mk_cat; [reflexivity|lia|lia|apply wf_bits; lia|exact Hf]. }
  destruct (to_bool (flt e bias)).
  - rn. cbn [bind]. apply T.
  - rn. rewrite b2z_is_1. destruct (to_bool (fge e (bias + 2 ^ E))); rn; cbn [bind]; apply T.
Qed.
Definition norm2 (E F W x : Z) : option (Z * Z) :=
  do top_three <- take_msbs W 3 x;
  do _ <- assert_ (negb (top_three =? 0));
  do frac_pre_norm <- take_msbs W (3 + F) x;
  do t2 <- get_bits 3 2 2 top_three;
  do t1 <- get_bits 3 1 1 top_three;
  if to_bool t2 then do f <- get_bits (3 + F) (1 + F) 2 frac_pre_norm; do a <- of_int (E + 2) 2; Some (f, a)
  else if to_bool t1 then do f <- get_bits (3 + F) F 1 frac_pre_norm; do a <- of_int (E + 2) 1; Some (f, a)
  else do f <- get_bits (3 + F) (F - 1) 0 frac_pre_norm; do a <- of_int (E + 2) 0; Some (f, a).
Definition norm4 (E F W x : Z) : option (Z * Z) :=
  do top_four <- take_msbs W 4 x;
  do _ <- assert_ (negb (top_four =? 0));
  do frac_pre_norm <- take_msbs W (4 + F) x;
  do t3 <- get_bits 4 3 3 top_four;
  do t2 <- get_bits 4 2 2 top_four;
  do t1 <- get_bits 4 1 1 top_four;
  if to_bool t3 then do f <- get_bits (4 + F) (2 + F) 3 frac_pre_norm; do a <- of_int (E + 2) 3; Some (f, a)
  else if to_bool t2 then do f <- get_bits (4 + F) (1 + F) 2 frac_pre_norm; do a <- of_int (E + 2) 2; Some (f, a)
  else if to_bool t1 then do f <- get_bits (4 + F) F 1 frac_pre_norm; do a <- of_int (E + 2) 1; Some (f, a)
  else do f <- get_bits (4 + F) (F - 1) 0 frac_pre_norm; do a <- of_int (E + 2) 0; Some (f, a).
Lemma small_int hi lo x : 0 <= hi - lo < 5 -> to_int (bits hi lo x) = Some (bits hi lo x).
Proof. intro H. apply to_int_ok. assert (Q : wf (hi - lo + 1) (bits hi lo x)) by (apply wf_bits; lia). unfold wf in Q. pose proof (Z.pow_le_mono_r 2 (hi - lo + 1) 5 ltac:(lia) ltac:(lia)). change (2 ^ 5) with 32 in *. change (2 ^ 31) with 2147483648. lia. Qed.
Lemma small_wf E n : 1 <= E -> 0 <= n < 8 -> of_int (E + 2) n = Some n.
Proof. intros HE Hn. apply of_int_wf; [lia|]. unfold wf. pose proof (Z.pow_le_mono_r 2 3 (E + 2) ltac:(lia) ltac:(lia)). change (2 ^ 3) with 8 in *. lia. Qed.
Lemma run_norm2 E F W x : 1 <= E -> 1 <= F -> 3 + F <= W -> run fw_sem (dot2_norm_prog E F W x) = norm2 E F W x.
Proof.
  intros HE HF HW. unfold dot2_norm_prog, norm2. rewrite !tm by lia. cbn [bind].
  rn. rewrite small_int by lia. rewrite run_bind. unfold passert, assert_. destruct (negb _); [cbn [run bind]|reflexivity].
  rn. rewrite !(gb 3) by lia. cbn [bind]. rewrite b2z_is_1. rewrite !gb by lia. cbn [bind]. rewrite !small_wf by lia. cbn [bind].
  destruct (to_bool (bits 2 2 _)); [rn; rewrite small_wf by lia; reflexivity|]. rn. rewrite b2z_is_1. destruct (to_bool (bits 1 1 _)); rn; rewrite ?small_wf by lia; reflexivity.
Qed.
Lemma run_norm4 E F W x : 1 <= E -> 1 <= F -> 4 + F <= W -> run fw_sem (dot4_norm_prog E F W x) = norm4 E F W x.
Proof.
  intros HE HF HW. unfold dot4_norm_prog, norm4. rewrite !tm by lia. cbn [bind].
  rn. rewrite small_int by lia. rewrite run_bind. unfold passert, assert_. destruct (negb _); [cbn [run bind]|reflexivity].
  rn. rewrite !(gb 4) by lia. cbn [bind]. rewrite b2z_is_1. rewrite !gb by lia. cbn [bind]. rewrite !small_wf by lia. cbn [bind].
  destruct (to_bool (bits 3 3 _)); [rn; rewrite small_wf by lia; reflexivity|]. rn. rewrite b2z_is_1. destruct (to_bool (bits 2 2 _)); [rn; rewrite small_wf by lia; reflexivity|].
  rn. rewrite b2z_is_1. destruct (to_bool (bits 1 1 _)); rn; rewrite ?small_wf by lia; reflexivity.
Qed.
Lemma norm2_wf E F W x fa : 1 <= E -> 1 <= F -> 3 + F <= W -> norm2 E F W x = Some fa -> wf F (fst fa).
Proof.
  intros HE HF HW. unfold norm2. rewrite !tm by lia. cbn [bind]. unfold assert_. destruct (negb _); [cbn [bind]|discriminate].
  rewrite !(gb 3) by lia. cbn [bind]. rewrite !gb by lia. cbn [bind]. rewrite !small_wf by lia. cbn [bind].
  destruct (to_bool (bits 2 2 _)); [|destruct (to_bool (bits 1 1 _))]; intro Q; apply (f_equal (fun o => match o with Some p => fst p | None => 0 end)) in Q; cbn [fst] in Q; rewrite <- Q; apply wf_bits; lia.
Qed.
Lemma norm4_wf E F W x fa : 1 <= E -> 1 <= F -> 4 + F <= W -> norm4 E F W x = Some fa -> wf F (fst fa).
Proof.
  intros HE HF HW. unfold norm4. rewrite !tm by lia. cbn [bind]. unfold assert_. destruct (negb _); [cbn [bind]|discriminate].
  rewrite !(gb 4) by lia. cbn [bind]. rewrite !gb by lia. cbn [bind]. rewrite !small_wf by lia. cbn [bind].
  destruct (to_bool (bits 3 3 _)); [|destruct (to_bool (bits 2 2 _)); [|destruct (to_bool (bits 1 1 _))]]; intro Q; apply (f_equal (fun o => match o with Some p => fst p | None => 0 end)) in Q; cbn [fst] in Q; rewrite <- Q; apply wf_bits; lia.
Qed.
Lemma norm_end {A B} (n : option A) (f g : A -> option B) : (forall a, n = Some a -> f a = g a) -> bind n f = bind n g.
Proof. intro H. destruct n as [a|]; [apply H; reflexivity|reflexivity]. Qed.
Lemma run_full2 F x : 1 <= F -> run fw_sem (dot2_full_prog F x) = Some (cat 1 (cat (2 * F + 2) (zg 1) x) (zg 1)).
Proof. intro HF. unfold dot2_full_prog. rn. reflexivity. Qed.
Lemma run_full4 F p x : 1 <= F -> 0 <= p -> run fw_sem (dot4_full_prog F p x) = Some (cat p (cat (2 * F + 2) (zg 2) x) (zg p)).
Proof. intros HF Hp. unfold dot4_full_prog. rn. reflexivity. Qed.
Lemma run_shift2 E W x s : 1 <= E -> 1 <= W -> run fw_sem (dot2_shift_prog E W x s) = if to_bool (fge s W) then Some (zg W) else do d <- to_int s; fshr W x d.
Proof.
  intros HE HW. unfold dot2_shift_prog. rn. rewrite b2z_is_1. destruct (to_bool _); [rn; reflexivity|]. rn. destruct (to_int s) as [d|]; [cbn [bind]|reflexivity].
  destruct (fshr W x d); reflexivity.
Qed.
Lemma run_safe WS W x s : 1 <= W -> run fw_sem (safe_rshift_prog WS W x s) = safe_rshift W x s.
Proof.
  intros HW. unfold safe_rshift_prog, safe_rshift. rn. destruct (to_int s) as [d|]; [cbn [bind]|reflexivity]. destruct (W <=? d); [rn; reflexivity|]. rn. destruct (fshr W x d); reflexivity.
Qed.
Ltac dt :=
  match goal with
  | |- run _ (pbind (dot_sig_prog ?E ?F ?x) _) = _ => rewrite (run_pbind _ _ _ _ (run_sig E F x ltac:(lia) ltac:(lia)))
  | |- run _ (pbind (dot_exp_prog ?E ?F ?a ?b) _) = _ => rewrite (run_pbind _ _ _ _ (run_dexp E F a b ltac:(lia) ltac:(lia)))
  | |- run _ (pbind (dot2_full_prog ?F ?x) _) = _ => rewrite (run_pbind _ _ _ _ (run_full2 F x ltac:(lia)))
  | |- run _ (pbind (dot4_full_prog ?F ?p ?x) _) = _ => rewrite (run_pbind _ _ _ _ (run_full4 F p x ltac:(lia) ltac:(lia)))
  end.
Ltac dts := repeat (ev; first [dt | hd]); ev.
Ltac chk := rewrite run_bind, run_check by lia; apply bind_ext; [reflexivity|]; intros _.
Lemma run_dot2 E F a0 a1 b0 b1 : 1 <= E -> 1 <= F -> run fw_sem (dot2_prog E F a0 a1 b0 b1) = dot2_pos_rndd E F a0 a1 b0 b1.
Proof.
  intros HE HF. unfold dot2_prog, dot2_pos_rndd, dot_bias. cbv zeta. do 4 chk. dts. rewrite run_passert. destruct (E <=? 30); [cbn [assert_ bind]|reflexivity].
  dts. rewrite !sel_bool. rewrite run_bind, run_shift2 by lia. fold (dot_frac E F a0 b0) (dot_frac E F a1 b1).
  apply bind_ext; [reflexivity|]. intro m. dts. rewrite run_bind, run_norm2 by lia.
  match goal with |- context [fadd (2 * F + 4) ?a m] => generalize (fadd (2 * F + 4) a m) end. intro ff.
  transitivity (do fa <- norm2 E F (2 * F + 4) ff; dot_pack E F (2 ^ (E - 1) - 1) (fadd (E + 2) (zpad_hi 1 (E + 1) (select (fgt (dot_exp E F a1 b1) (dot_exp E F a0 b0)) (dot_exp E F a1 b1) (dot_exp E F a0 b0))) (snd fa)) (fst fa)).
  - apply norm_end. intros fa N. dts. apply run_pack; [lia|lia|]. exact (norm2_wf E F (2 * F + 4) ff fa HE HF ltac:(lia) N).
  - unfold norm2. destruct (take_msbs (2 * F + 4) 3 ff) as [t|]; [cbn [bind]|reflexivity]. unfold assert_. destruct (negb (t =? 0)); [cbn [bind]|reflexivity].
    destruct (take_msbs (2 * F + 4) (3 + F) ff); [cbn [bind]|reflexivity]. destruct (get_bits 3 2 2 t); [cbn [bind]|reflexivity]. destruct (get_bits 3 1 1 t); reflexivity.
Qed.
Definition biggest (e0 e1 e2 e3 : Z) : Z :=
  let b01 := fgt e1 e0 in let b23 := fgt e3 e2 in let b := fgt (select b23 e3 e2) (select b01 e1 e0) in cat 1 b (select b b23 b01).
Lemma run_biggest E e0 e1 e2 e3 : run fw_sem (dot4_biggest_prog E e0 e1 e2 e3) = Some (biggest e0 e1 e2 e3).
Proof. unfold dot4_biggest_prog, biggest. cbv zeta. ev. rewrite !sel_bool. reflexivity. Qed.
Lemma biggest_wf e0 e1 e2 e3 : wf 2 (biggest e0 e1 e2 e3).
Proof. unfold biggest. cbv zeta. apply (wf_cat 1 1); [lia|lia|apply wf_b2z|apply wf_select; apply wf_b2z]. Qed.
Lemma run_rotate O i x0 x1 x2 x3 : wf 2 i -> run fw_sem (rotate4_prog O i x0 x1 x2 x3) = Some (rotate4 O i x0 x1 x2 x3).
Proof. intro H. unfold rotate4_prog. cbn [run fw_sem]. rewrite to_int_ok; [reflexivity|]. unfold wf in H. change (2 ^ 2) with 4 in H. change (2 ^ 31) with 2147483648. lia. Qed.
Definition sum4 (E F e0 e1 e2 e3 f0 f1 f2 f3 : Z) : option Z :=
  let pad := 2 * (2 * F) - 1 in let W := 2 + (2 * F + 2) + pad in
  let full x := cat pad (cat (2 * F + 2) (zg 2) x) (zg pad) in
  do y1 <- safe_rshift W (full f1) (fsub (E + 1) e0 e1); do y2 <- safe_rshift W (full f2) (fsub (E + 1) e0 e2); do y3 <- safe_rshift W (full f3) (fsub (E + 1) e0 e3);
  Some (fadd W (fadd W (fadd W (full f0) y1) y2) y3).
Lemma run_sum4 E F e0 e1 e2 e3 f0 f1 f2 f3 : 1 <= E -> 1 <= F -> run fw_sem (dot4_sum_prog E F e0 e1 e2 e3 f0 f1 f2 f3) = sum4 E F e0 e1 e2 e3 f0 f1 f2 f3.
Proof.
  intros HE HF. unfold dot4_sum_prog, sum4. cbv zeta. dts. do 3 (rewrite run_bind, run_safe by lia; apply bind_ext; [reflexivity|]; intro). reflexivity.
Qed.
Lemma run_dot4 E F a0 a1 a2 a3 b0 b1 b2 b3 : 1 <= E -> 1 <= F -> run fw_sem (dot4_prog E F a0 a1 a2 a3 b0 b1 b2 b3) = dot4_pos_rndd E F a0 a1 a2 a3 b0 b1 b2 b3.
Proof.
  intros HE HF. unfold dot4_prog, dot4_pos_rndd, dot_bias. cbv zeta. do 8 chk. dts. rewrite run_passert. destruct (E <=? 30); [cbn [assert_ bind]|reflexivity].
  dts. fold (dot_frac E F a0 b0) (dot_frac E F a1 b1) (dot_frac E F a2 b2) (dot_frac E F a3 b3).
  generalize (dot_frac E F a0 b0) (dot_frac E F a1 b1) (dot_frac E F a2 b2) (dot_frac E F a3 b3) (dot_exp E F a0 b0) (dot_exp E F a1 b1) (dot_exp E F a2 b2) (dot_exp E F a3 b3).
  intros f0 f1 f2 f3 e0 e1 e2 e3. rewrite (run_pbind _ _ _ _ (run_biggest E e0 e1 e2 e3)).
  change (cat 1 (fgt (select (fgt e3 e2) e3 e2) (select (fgt e1 e0) e1 e0)) (select (fgt (select (fgt e3 e2) e3 e2) (select (fgt e1 e0) e1 e0)) (fgt e3 e2) (fgt e1 e0))) with (biggest e0 e1 e2 e3).
  pose proof (biggest_wf e0 e1 e2 e3) as B. revert B. generalize (biggest e0 e1 e2 e3). intros i B.
  do 8 (match goal with |- run _ (pbind (rotate4_prog ?O ?i ?x0 ?x1 ?x2 ?x3) _) = _ => rewrite (run_pbind _ _ _ _ (run_rotate O i x0 x1 x2 x3 B)) end).
  rewrite run_bind, run_sum4 by lia. set (p0 := rotate4 0 i e0 e1 e2 e3). clearbody p0.
  generalize (rotate4 1 i e0 e1 e2 e3) (rotate4 2 i e0 e1 e2 e3) (rotate4 3 i e0 e1 e2 e3) (rotate4 0 i f0 f1 f2 f3) (rotate4 1 i f0 f1 f2 f3) (rotate4 2 i f0 f1 f2 f3) (rotate4 3 i f0 f1 f2 f3). intros p1 p2 p3 g0 g1 g2 g3.
  unfold sum4. cbv zeta.
  destruct (safe_rshift (2 + (2 * F + 2) + (2 * (2 * F) - 1)) (cat (2 * (2 * F) - 1) (cat (2 * F + 2) (zg 2) g1) (zg (2 * (2 * F) - 1))) (fsub (E + 1) p0 p1)) as [y1|]; [cbn [bind]|reflexivity].
  destruct (safe_rshift (2 + (2 * F + 2) + (2 * (2 * F) - 1)) (cat (2 * (2 * F) - 1) (cat (2 * F + 2) (zg 2) g2) (zg (2 * (2 * F) - 1))) (fsub (E + 1) p0 p2)) as [y2|]; [cbn [bind]|reflexivity].
  destruct (safe_rshift (2 + (2 * F + 2) + (2 * (2 * F) - 1)) (cat (2 * (2 * F) - 1) (cat (2 * F + 2) (zg 2) g3) (zg (2 * (2 * F) - 1))) (fsub (E + 1) p0 p3)) as [y3|]; [cbn [bind]|reflexivity].
  rewrite run_bind, run_norm4 by lia.
  match goal with |- context [fadd (2 + (2 * F + 2) + (2 * (2 * F) - 1)) ?a y3] => generalize (fadd (2 + (2 * F + 2) + (2 * (2 * F) - 1)) a y3) end. intro ff.
  remember (2 + (2 * F + 2) + (2 * (2 * F) - 1)) as W eqn:HW.
  transitivity (do fa <- norm4 E F W ff; dot_pack E F (2 ^ (E - 1) - 1) (fadd (E + 2) (zpad_hi 1 (E + 1) p0) (snd fa)) (fst fa)).
  - apply norm_end. intros fa N. dts. apply run_pack; [lia|lia|]. exact (norm4_wf E F W ff fa HE HF ltac:(lia) N).
  - unfold norm4. destruct (take_msbs W 4 ff) as [t|]; [cbn [bind]|reflexivity]. unfold assert_. destruct (negb (t =? 0)); [cbn [bind]|reflexivity].
    destruct (take_msbs W (4 + F) ff); [cbn [bind]|reflexivity]. destruct (get_bits 4 3 3 t); [cbn [bind]|reflexivity]. destruct (get_bits 4 2 2 t); [cbn [bind]|reflexivity]. destruct (get_bits 4 1 1 t); reflexivity.
Qed.

(** Ranges. *)
Lemma post_check w E F x : 1 <= E -> 1 <= F -> E + F + 3 <= w -> wf (E + F + 3) x -> post w (fun _ => True) (dot_check_prog E F x).
Proof. intros HE HF Hw Hx. unfold dot_check_prog. pcl. pcl. pks. unfold passert. destruct (_ =? 1); [apply post_ret; exact I|apply post_fail]. Qed.
Lemma post_sig w E F x : 1 <= E -> 1 <= F -> E + F + 3 <= w -> wf (E + F + 3) x -> post w (wf (1 + F)) (dot_sig_prog E F x).
Proof. intros HE HF Hw Hx. unfold dot_sig_prog. pks. wfs. Qed.
Lemma post_dexp w E F a b : 1 <= E -> 1 <= F -> E + F + 3 <= w -> wf (E + F + 3) a -> wf (E + F + 3) b -> post w (wf (E + 1)) (dot_exp_prog E F a b).
Proof. intros HE HF Hw Ha Hb. unfold dot_exp_prog. pks. wfs. Qed.
Lemma post_full2 w F x : 1 <= F -> 2 * F + 4 <= w -> wf (2 * F + 2) x -> post w (wf (2 * F + 4)) (dot2_full_prog F x).
Proof. intros HF Hw Hx. unfold dot2_full_prog. pks. wfs. Qed.
Lemma post_full4 w F p x : 1 <= F -> 1 <= p -> 2 * F + 4 + p <= w -> wf (2 * F + 2) x -> post w (wf (2 * F + 4 + p)) (dot4_full_prog F p x).
Proof. intros HF Hp Hw Hx. unfold dot4_full_prog. pks. wfs. Qed.
Lemma post_pack w E F bias e f : 1 <= E -> 1 <= F -> 0 <= bias -> bias + 2 ^ E < 2 ^ 31 -> E + F + 3 <= w -> wf (E + 2) e -> wf F f -> post w (wf (E + F + 3)) (dot_pack_prog E F bias e f).
Proof.
  intros HE HF B0 B1 Hw He Hf. assert (0 < 2 ^ E) by (apply Z.pow_pos_nonneg; lia). unfold dot_pack_prog. pks.
  eapply (post_bind w (wf 2)).
  - destruct (_ =? 1); [pks; wfs|]. pks. destruct (_ =? 1); pks; wfs.
  - intros fl Wfl. pks. wfs.
Qed.
Lemma post_shift2 w E W x s : 1 <= E <= 30 -> 1 <= W < 2 ^ 31 -> W <= w -> E + 1 <= w -> wf W x -> wf (E + 1) s -> post w (wf W) (dot2_shift_prog E W x s).
Proof.
  intros HE HW Hw Hw' Hx Hs. assert (0 <= s < 2 ^ 31) by (unfold wf in Hs; pose proof (Z.pow_le_mono_r 2 (E + 1) 31 ltac:(lia) ltac:(lia)); lia).
  unfold dot2_shift_prog. pks. destruct (_ =? 1); [unfold p_zg; pks; wfs|]. pks. wfs.
Qed.
Lemma post_safe w E W x s : 1 <= E <= 30 -> 1 <= W <= w -> E + 1 <= w -> wf W x -> wf (E + 1) s -> post w (wf W) (safe_rshift_prog (E + 1) W x s).
Proof.
  intros HE HW Hw' Hx Hs. assert (0 <= s < 2 ^ 31) by (unfold wf in Hs; pose proof (Z.pow_le_mono_r 2 (E + 1) 31 ltac:(lia) ltac:(lia)); lia).
  unfold safe_rshift_prog. pks. destruct (W <=? _); [unfold p_zg; pks; wfs|]. pks. wfs.
Qed.
Lemma small_wf31 W x : 0 <= W <= 5 -> wf W x -> 0 <= x < 2 ^ 31.
Proof. intros H Hx. unfold wf in Hx. pose proof (Z.pow_le_mono_r 2 W 5 ltac:(lia) ltac:(lia)). change (2 ^ 5) with 32 in *. change (2 ^ 31) with 2147483648. lia. Qed.
Lemma post_norm2 w E F W x : 1 <= E -> 1 <= F -> 3 + F <= W -> W <= w -> E + 2 <= w -> wf W x -> post w (fun p => wf F (fst p) /\ wf (E + 2) (snd p)) (dot2_norm_prog E F W x).
Proof.
  intros HE HF HW Hw Hw' Hx. unfold dot2_norm_prog. pk. assert (0 <= r < 2 ^ 31) by (eapply small_wf31; [|exact W0]; lia). pks.
  destruct (_ =? 1); [pks; cbn [fst snd]; split; wfs|]. pks. destruct (_ =? 1); pks; cbn [fst snd]; split; wfs.
Qed.
Lemma post_norm4 w E F W x : 1 <= E -> 1 <= F -> 4 + F <= W -> W <= w -> E + 2 <= w -> wf W x -> post w (fun p => wf F (fst p) /\ wf (E + 2) (snd p)) (dot4_norm_prog E F W x).
Proof.
  intros HE HF HW Hw Hw' Hx. unfold dot4_norm_prog. pk. assert (0 <= r < 2 ^ 31) by (eapply small_wf31; [|exact W0]; lia). pks.
  destruct (_ =? 1); [pks; cbn [fst snd]; split; wfs|]. pks. destruct (_ =? 1); [pks; cbn [fst snd]; split; wfs|]. pks. destruct (_ =? 1); pks; cbn [fst snd]; split; wfs.
Qed.
Lemma bias_range E : 1 <= E <= 30 -> 0 <= 2 ^ (E - 1) - 1 /\ 2 ^ (E - 1) - 1 + 2 ^ E < 2 ^ 31.
Proof.
  intro H. assert (0 < 2 ^ (E - 1)) by (apply Z.pow_pos_nonneg; lia). pose proof (Z.pow_le_mono_r 2 (E - 1) 29 ltac:(lia) ltac:(lia)). pose proof (Z.pow_le_mono_r 2 E 30 ltac:(lia) ltac:(lia)).
  change (2 ^ 29) with 536870912 in *. change (2 ^ 30) with 1073741824 in *. change (2 ^ 31) with 2147483648. lia.
Qed.
Ltac pd :=
  first
  [ eapply post_bind; [apply post_check; first [lia | assumption]|intros _ _]
  | eapply post_bind; [apply post_sig; first [lia | assumption]|let r := fresh "g" in let W := fresh "G" in intros r W]
  | eapply post_bind; [apply post_dexp; first [lia | assumption]|let r := fresh "e" in let W := fresh "G" in intros r W] ].
Lemma post_dot2 w E F a0 a1 b0 b1 : 1 <= E -> 1 <= F -> 2 * F + 4 < 2 ^ 31 -> E + F + 3 <= w -> 2 * F + 4 <= w -> wf (E + F + 3) a0 -> wf (E + F + 3) a1 -> wf (E + F + 3) b0 -> wf (E + F + 3) b1 ->
  post w (wf (E + F + 3)) (dot2_prog E F a0 a1 b0 b1).
Proof.
  intros HE HF HI Hw Hw' A0 A1 B0 B1. unfold dot2_prog. cbv zeta. do 8 pd. pk. apply Z.leb_le in T. pose proof (bias_range E ltac:(lia)) as [BR1 BR2].
  pk. pd. pk. pd. pks.
  assert (wf (2 * F + 2) r) by wfs. assert (wf (2 * F + 2) r0) by wfs.
  eapply post_bind; [apply post_full2; [lia|lia|wfs]|]. intros m Wm. eapply post_bind; [apply post_full2; [lia|lia|wfs]|]. intros n Wn.
  eapply post_bind; [apply post_shift2; [lia|lia|lia|lia|exact Wn|wfs]|]. intros s Ws. pk.
  eapply post_bind; [apply post_norm2; [lia|lia| | |lia|wfs]; lia|]. intros fa [Wf Wa]. pks. apply post_pack; try lia; [wfs|exact Wf].
Qed.
Lemma wf_rotate W O i x0 x1 x2 x3 : wf W x0 -> wf W x1 -> wf W x2 -> wf W x3 -> wf W (rotate4 O i x0 x1 x2 x3).
Proof. intros. unfold rotate4. destruct (_ =? _); [assumption|]. destruct (_ =? _); [assumption|]. destruct (_ =? _); assumption. Qed.
Lemma post_rotate w W O i x0 x1 x2 x3 : 2 <= w -> wf 2 i -> wf W x0 -> wf W x1 -> wf W x2 -> wf W x3 -> post w (wf W) (rotate4_prog O i x0 x1 x2 x3).
Proof. intros Hw Hi H0 H1 H2 H3. assert (0 <= i < 2 ^ 31) by (apply (small_wf31 2); [lia|exact Hi]). unfold rotate4_prog. pks. apply wf_rotate; assumption. Qed.
Lemma post_biggest w E e0 e1 e2 e3 : 1 <= E -> E + 2 <= w -> post w (wf 2) (dot4_biggest_prog E e0 e1 e2 e3).
Proof. intros HE Hw. unfold dot4_biggest_prog. pks. wfs. Qed.
Lemma post_sum4 w E F e0 e1 e2 e3 f0 f1 f2 f3 : 1 <= E <= 30 -> 1 <= F -> E + 1 <= w -> 6 * F + 3 <= w -> wf (E + 1) e0 -> wf (E + 1) e1 -> wf (E + 1) e2 -> wf (E + 1) e3 ->
  wf (2 * F + 2) f0 -> wf (2 * F + 2) f1 -> wf (2 * F + 2) f2 -> wf (2 * F + 2) f3 -> post w (wf (2 + (2 * F + 2) + (2 * (2 * F) - 1))) (dot4_sum_prog E F e0 e1 e2 e3 f0 f1 f2 f3).
Proof.
  intros HE HF Hw Hw' E0 E1 E2 E3 F0 F1 F2 F3. unfold dot4_sum_prog. cbv zeta. pks.
  do 4 (eapply post_bind; [apply post_full4; [lia|lia|lia|assumption]|let x := fresh "x" in let X := fresh "X" in intros x X]).
  do 3 (eapply post_bind; [apply post_safe; [lia|lia|lia|wfs|wfs]|let y := fresh "y" in let Y := fresh "Y" in intros y Y]). pks. wfs.
Qed.
Lemma post_dot4 w E F a0 a1 a2 a3 b0 b1 b2 b3 : 1 <= E -> 1 <= F -> E + F + 3 <= w -> 6 * F + 3 <= w ->
  wf (E + F + 3) a0 -> wf (E + F + 3) a1 -> wf (E + F + 3) a2 -> wf (E + F + 3) a3 -> wf (E + F + 3) b0 -> wf (E + F + 3) b1 -> wf (E + F + 3) b2 -> wf (E + F + 3) b3 ->
  post w (wf (E + F + 3)) (dot4_prog E F a0 a1 a2 a3 b0 b1 b2 b3).
Proof.
  intros HE HF Hw Hw' A0 A1 A2 A3 B0 B1 B2 B3. unfold dot4_prog. cbv zeta. do 16 pd. pk. apply Z.leb_le in T. pose proof (bias_range E ltac:(lia)) as [BR1 BR2].
  pk. pd. pk. pd. pk. pd. pk. pd.
  assert (wf (2 * F + 2) r) by wfs. assert (wf (2 * F + 2) r0) by wfs. assert (wf (2 * F + 2) r1) by wfs. assert (wf (2 * F + 2) r2) by wfs.
  eapply post_bind; [apply post_biggest; lia|]. intros i Wi.
  do 4 (eapply post_bind; [apply (post_rotate w (E + 1)); first [lia | assumption]|let y := fresh "y" in let Y := fresh "Y" in intros y Y]).
  do 4 (eapply post_bind; [apply (post_rotate w (2 * F + 2)); first [lia | assumption]|let y := fresh "z" in let Y := fresh "Z" in intros y Y]).
  eapply post_bind; [apply post_sum4; first [lia | assumption]|]. intros ff Wff.
  eapply post_bind; [apply post_norm4; [lia|lia| | |lia|exact Wff]; lia|]. intros fa [Wf Wa]. pks. apply post_pack; try lia; [wfs|exact Wf].
Qed.
