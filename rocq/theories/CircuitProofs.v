(** All back ends agree with Fw.v on every operation whose operands are in range, hence on every sequence of such operations. *)
From Coq Require Import ZArith Bool List Lia.
From Verif Require Import Fw FwWord HlsInt Hls FwLemmas FwWordProofs FwWordProofs2 FwWordProofs3 HlsProofs HlsProofs2 HlsProofs3 Circuit.
Open Scope Z_scope.

(** Operands in range, at widths where the back ends agree. *)
Definition op_ok (o : oper) : Prop :=
  match o with
  | OInt W v => (1 <= W \/ W = 0 /\ v = 0) /\ - 2 ^ 31 <= v < 2 ^ 31
  | ONot W a => 1 <= W /\ wf W a
  | OAdd W a b | OSub W a b | OAnd W a b | OOr W a b | OXor W a b => 1 <= W /\ wf W a /\ wf W b
  | OAddInt W a n => 1 <= W /\ wf W a
  | OSubInt W a n => 1 <= W /\ wf W a
  | OMul WA WB a b => 1 <= WA /\ 1 <= WB /\ wf WA a /\ wf WB b
  | OShr W a d | OShl W a d => 0 <= W /\ wf W a
  | OSlice W hi lo a => 0 <= lo <= hi /\ hi < W /\ wf W a
  | OCat WA WB a b => 0 <= WA /\ 0 <= WB /\ wf WA a /\ wf WB b
  | OCast WD WS a => 1 <= WS /\ wf WS a
  | OOnesHi P W a | OOnesLo P W a => 0 <= P /\ 1 <= W /\ wf W a
  | OCmp c W a b => True
  | OCmpInt c W a n => 0 <= W /\ 0 <= n < 2 ^ 31
  | OBool a => True
  | OToInt W a => 0 <= a < 2 ^ 31
  end.
Lemma wf_b2z b : wf 1 (Z.b2z b).
Proof. destruct b; unfold wf; cbn; lia. Qed.
Lemma fw_wf o r : op_ok o -> fw_sem o = Some r -> match o with OToInt _ a => r = a | _ => wf (op_width o) r end.
Proof.
  destruct o; cbn [op_ok fw_sem op_width]; intros H E.
  - unfold of_int in E. destruct (0 <=? W) eqn:A; [|discriminate]. destruct (0 <=? v) eqn:B; [|discriminate].
    destruct (v <=? mask W) eqn:D; [|discriminate]. cbn in E. injection E as <-. rewrite Z.leb_le in A, B, D.
    unfold mask in D. destruct (W <=? 0) eqn:F; [rewrite Z.leb_le in F; assert (W = 0) by lia; subst W; unfold wf; cbn; lia|].
    rewrite Z.ones_equiv in D. unfold wf. lia.
  - injection E as <-. destruct H as [H1 H2]. unfold wf in *. rewrite fnot_eq by lia. lia.
  - injection E as <-. rewrite fadd_eq by lia. apply Z.mod_pos_bound. lia.
  - injection E as <-. rewrite fsub_eq by lia. apply Z.mod_pos_bound. lia.
  - injection E as <-. rewrite fadd_eq by lia. apply Z.mod_pos_bound. lia.
  - injection E as <-. rewrite fsub_eq by lia. apply Z.mod_pos_bound. lia.
  - injection E as <-. destruct H as (H1 & H2 & H3 & H4). unfold wf, fmul in *. rewrite Z.pow_add_r by lia. nia.
  - injection E as <-. destruct H as (H1 & H2 & H3). unfold wf, fand in *. apply land_wf; lia.
  - injection E as <-. destruct H as (H1 & H2 & H3). unfold wf, for_ in *. apply land_wf; [lia|apply lor_wf; lia|].
    unfold mask. destruct (W <=? 0); [lia|]. rewrite Z.ones_equiv. lia.
  - injection E as <-. destruct H as (H1 & H2 & H3). unfold wf, fxor in *. apply land_wf; [lia|apply lxor_wf; lia|].
    unfold mask. destruct (W <=? 0); [lia|]. rewrite Z.ones_equiv. lia.
  - unfold fshr in E. destruct ((0 <=? d) && (d <? W)) eqn:D; [|discriminate]. injection E as <-. apply andb_prop in D as [D1 D2].
    rewrite Z.leb_le in D1. unfold wf in *. apply shiftr_wf; lia.
  - unfold fshl in E. destruct ((0 <=? d) && (d <? W)) eqn:D; [|discriminate]. injection E as <-. apply andb_prop in D as [D1 D2].
    rewrite Z.ltb_lt in D2. unfold mask. destruct (W <=? 0) eqn:F; [rewrite Z.leb_le in F; lia|].
    rewrite Z.land_ones by lia. apply Z.mod_pos_bound. lia.
  - destruct H as (H1 & H2 & H3). unfold get_bits in E. destruct ((hi <? W) && (0 <=? lo)); [|discriminate]. injection E as <-.
    unfold mask. destruct (hi - lo + 1 <=? 0) eqn:F; [rewrite Z.leb_le in F; lia|].
    rewrite Z.land_ones by lia. apply Z.mod_pos_bound. lia.
  - injection E as <-. destruct H as (H1 & H2 & H3 & H4). unfold wf in *. rewrite cat_eq by lia. apply cat_bound; lia.
  - unfold checked_cast in E. destruct (WD =? WS) eqn:D; [|discriminate]. injection E as <-. rewrite Z.eqb_eq in D. subst WS.
    unfold mask. destruct (WD <=? 0) eqn:F; [rewrite Z.leb_le in F; lia|]. rewrite Z.land_ones by lia. apply Z.mod_pos_bound. lia.
  - injection E as <-. destruct H as (H1 & H2 & H3). unfold wf, opad_hi, og in *. rewrite Z.lxor_0_l, cat_eq by lia.
    apply cat_bound; try lia. unfold mask. destruct (P <=? 0) eqn:F; [lia|]. rewrite Z.ones_equiv. lia.
  - injection E as <-. destruct H as (H1 & H2 & H3). unfold wf, opad_lo, og in *. rewrite Z.lxor_0_l.
    assert (0 <= mask P < 2 ^ P) by (unfold mask; destruct (P <=? 0) eqn:F; [rewrite Z.leb_le in F; assert (P = 0) by lia; subst; cbn; lia|rewrite Z.ones_equiv; lia]).
    rewrite cat_eq by lia. rewrite (Z.add_comm P). apply cat_bound; lia.
  - injection E as <-. destruct c; apply wf_b2z.
  - injection E as <-. destruct c; apply wf_b2z.
  - injection E as <-. apply wf_b2z.
  - unfold to_int in E. destruct (a <=? 2 ^ 31 - 1); congruence.
Qed.

(** What each back end computes. *)
Definition value (o : oper) : option Z :=
  match o with
  | OInt W v => if (0 <=? v) && (v <? 2 ^ W) then Some v else None
  | ONot W a => Some (2 ^ W - 1 - a) | OAdd W a b => Some ((a + b) mod 2 ^ W) | OSub W a b => Some ((a - b) mod 2 ^ W)
  | OAddInt W a n => Some ((a + n) mod 2 ^ W) | OSubInt W a n => Some ((a - n) mod 2 ^ W) | OMul _ _ a b => Some (a * b)
  | OAnd _ a b => Some (Z.land a b) | OOr _ a b => Some (Z.lor a b) | OXor _ a b => Some (Z.lxor a b)
  | OShr W a d => if (0 <=? d) && (d <? W) then Some (a / 2 ^ d) else None
  | OShl W a d => if (0 <=? d) && (d <? W) then Some ((a * 2 ^ d) mod 2 ^ W) else None
  | OSlice W hi lo a => Some ((a / 2 ^ lo) mod 2 ^ (hi - lo + 1)) | OCat _ WB a b => Some (a * 2 ^ WB + b)
  | OCast WD WS a => if WD =? WS then Some a else None
  | OOnesHi P W a => Some ((2 ^ P - 1) * 2 ^ W + a) | OOnesLo P W a => Some (a * 2 ^ P + (2 ^ P - 1))
  | OCmp c _ a b | OCmpInt c _ a b => Some (Z.b2z (cmpf c a b))
  | OBool a => Some (Z.b2z (a =? 1)) | OToInt _ a => Some a
  end.
Lemma mask_ones W : 0 <= W -> mask W = 2 ^ W - 1.
Proof. intro H. unfold mask. destruct (W <=? 0) eqn:F; [rewrite Z.leb_le in F; assert (W = 0) by lia; subst; reflexivity|]. rewrite Z.ones_equiv. lia. Qed.
Lemma land_mask W a : 0 <= W -> Z.land a (mask W) = a mod 2 ^ W.
Proof.
  intro H. destruct (Z.eq_dec W 0) as [->|N]; [cbn; rewrite Z.land_0_r; symmetry; apply Z.mod_1_r|].
  unfold mask. destruct (W <=? 0) eqn:F; [rewrite Z.leb_le in F; lia|]. apply Z.land_ones. lia.
Qed.
Lemma fw_value o : op_ok o -> fw_sem o = value o.
Proof.
  destruct o; cbn [op_ok fw_sem value]; intros H.
  - unfold of_int. assert (0 <= W) by lia. rewrite (mask_ones W) by lia. rewrite (proj2 (Z.leb_le 0 W)) by lia. cbn [andb].
    destruct (0 <=? v); [cbn [andb]|reflexivity].
    replace (v <=? 2 ^ W - 1) with (v <? 2 ^ W); [reflexivity|]. destruct (Z.ltb_spec v (2 ^ W)), (Z.leb_spec v (2 ^ W - 1)); try reflexivity; lia.
  - f_equal. apply fnot_eq; [lia|]. exact (proj2 H).
  - f_equal. apply fadd_eq. lia.
  - f_equal. apply fsub_eq. lia.
  - f_equal. apply fadd_eq. lia.
  - f_equal. apply fsub_eq. lia.
  - reflexivity.
  - reflexivity.
  - destruct H as (H1 & H2 & H3). unfold for_. rewrite land_mask by lia. f_equal. apply Z.mod_small. apply lor_wf; [lia|assumption|assumption].
  - destruct H as (H1 & H2 & H3). unfold fxor. rewrite land_mask by lia. f_equal. apply Z.mod_small. apply lxor_wf; [lia|assumption|assumption].
  - unfold fshr. destruct (0 <=? d) eqn:D; [|reflexivity]. rewrite Z.leb_le in D. destruct (d <? W); [|reflexivity]. cbn [andb]. now rewrite Z.shiftr_div_pow2.
  - unfold fshl. destruct (0 <=? d) eqn:D; [|reflexivity]. rewrite Z.leb_le in D. destruct (d <? W); [|reflexivity]. cbn [andb].
    rewrite land_mask by lia. now rewrite Z.shiftl_mul_pow2.
  - destruct H as (H1 & H2 & H3). unfold get_bits. rewrite (proj2 (Z.ltb_lt hi W)), (proj2 (Z.leb_le 0 lo)) by lia. cbn [andb].
    rewrite land_mask by lia. now rewrite Z.shiftr_div_pow2 by lia.
  - destruct H as (H1 & H2 & H3 & H4). now rewrite cat_eq by assumption.
  - destruct H as (H1 & H2). unfold checked_cast. destruct (WD =? WS) eqn:D; [|reflexivity]. rewrite Z.eqb_eq in D. subst WS.
    rewrite land_mask by lia. f_equal. apply Z.mod_small. exact H2.
  - destruct H as (H1 & H2 & H3). unfold opad_hi, og. rewrite Z.lxor_0_l, cat_eq by (unfold wf in H3; lia). now rewrite mask_ones.
  - destruct H as (H1 & H2 & H3). unfold opad_lo, og. rewrite Z.lxor_0_l, mask_ones by lia. rewrite cat_eq by lia. reflexivity.
  - destruct c; reflexivity.
  - destruct c; reflexivity.
  - reflexivity.
  - unfold to_int. rewrite (proj2 (Z.leb_le a (2 ^ 31 - 1))) by lia. reflexivity.
Qed.
Lemma word_value o : op_ok o -> op_widest o <= 128 -> word_sem o = value o.
Proof.
  intros H N. unfold word_sem. rewrite (proj2 (Z.leb_le _ _) N). revert H N.
  destruct o; cbn [op_ok word_op value op_widest op_width]; intros H N; unfold wf in H.
  - destruct (0 <=? v) eqn:A, (v <? 2 ^ W) eqn:B; cbn [andb]; rewrite ?Z.leb_le, ?Z.leb_gt, ?Z.ltb_lt, ?Z.ltb_ge in *;
      first [apply m_of_int_ok; lia|apply m_of_int_bad; lia].
  - apply m_not_ok; lia.
  - apply m_add_ok; lia.
  - apply m_sub_ok; lia.
  - apply m_add_int_ok; lia.
  - apply m_sub_int_ok; lia.
  - apply m_mul_ok; lia.
  - apply m_and_ok; lia.
  - apply m_or_ok; lia.
  - apply m_xor_ok; lia.
  - destruct (0 <=? d) eqn:A, (d <? W) eqn:B; cbn [andb]; rewrite ?Z.leb_le, ?Z.leb_gt, ?Z.ltb_lt, ?Z.ltb_ge in *;
      first [apply m_shr_ok; lia|apply (m_shift_bad W a d); lia].
  - destruct (0 <=? d) eqn:A, (d <? W) eqn:B; cbn [andb]; rewrite ?Z.leb_le, ?Z.leb_gt, ?Z.ltb_lt, ?Z.ltb_ge in *;
      first [apply m_shl_ok; lia|apply (m_shift_bad W a d); lia].
  - apply m_get_bits_ok; lia.
  - apply m_concat_ok; lia.
  - destruct (WD =? WS) eqn:D; [rewrite Z.eqb_eq in D; subst; apply m_checked_cast_ok; lia|rewrite Z.eqb_neq in D; now apply m_checked_cast_bad].
  - apply m_opad_hi_ok; lia.
  - apply m_opad_lo_ok; lia.
  - apply m_cmp_ok.
  - apply m_cmp_int_ok; lia.
  - unfold m_to_bool. cbn. reflexivity.
  - unfold m_to_int. rewrite (proj2 (Z.leb_le a (2 ^ 31 - 1))) by lia. reflexivity.
Qed.
Lemma low32 a : 0 <= a < 2 ^ 31 -> low_bits 32 true a = a.
Proof.
  intro H. unfold low_bits. cbn [andb]. change (32 - 1) with 31. rewrite Z.mod_small by lia.
  destruct (2 ^ 31 <=? a) eqn:D; [rewrite Z.leb_le in D; lia|]. reflexivity.
Qed.
Lemma concat_zero K f WA WB a b : (K = ac_backend \/ K = ap_backend) -> f = k_concat K -> (forall A B x y, 1 <= A -> 1 <= B -> 0 <= x < 2 ^ A -> 0 <= y < 2 ^ B -> f A B x y = Some (x * 2 ^ B + y)) ->
  0 <= WA -> 0 <= WB -> wf WA a -> wf WB b -> f WA WB a b = Some (a * 2 ^ WB + b).
Proof.
  intros HK Hf H A B Wa Wb. unfold wf in *.
  destruct (Z.eq_dec WA 0) as [->|NA].
  - assert (a = 0) by (cbn in Wa; lia). subst a. destruct (Z.eq_dec WB 0) as [->|NB].
    + assert (b = 0) by (cbn in Wb; lia). subst b f. destruct HK as [-> | ->]; reflexivity.
    + subst f. destruct (zero_width_hidden K 1 WB 0 b (either_good K HK)) as (E & _); [now left|lia|lia|lia|]. rewrite E; f_equal; lia.
  - destruct (Z.eq_dec WB 0) as [->|NB]; [|apply H; lia].
    assert (b = 0) by (cbn in Wb; lia). subst b f. destruct (zero_width_hidden K 1 WA 0 a (either_good K HK)) as (_ & E & _); [now left|lia|lia|lia|].
    rewrite E; f_equal; lia.
Qed.
Lemma hls_value o : op_ok o -> ac_sem true o = value o /\ ap_sem o = value o.
Proof.
  destruct o; cbn [op_ok ac_sem ap_sem value]; intros H; unfold wf in H.
  - destruct H as [[H|[-> ->]] R]; [exact (of_int_all W v H)|split; reflexivity].
  - destruct (logic_all W a a) as ((E1 & _) & (E2 & _)); try lia. split; assumption.
  - destruct (add_all W a b) as ((E1 & _) & (E2 & _)); [lia|]. split; assumption.
  - destruct (add_all W a b) as ((_ & _ & E1 & _) & (_ & _ & E2 & _)); [lia|]. split; assumption.
  - destruct (add_all W a n) as ((_ & E1 & _) & (_ & E2 & _)); [lia|]. split; assumption.
  - destruct (add_all W a n) as ((_ & _ & _ & E1) & (_ & _ & _ & E2)); [lia|]. split; assumption.
  - destruct (mul_all WA WB a b) as ((E1 & _) & (E2 & _)); try lia. split; assumption.
  - destruct (logic_all W a b) as ((_ & E1 & _) & (_ & E2 & _)); try lia. split; assumption.
  - destruct (logic_all W a b) as ((_ & _ & E1 & _) & (_ & _ & E2 & _)); try lia. split; assumption.
  - destruct (logic_all W a b) as ((_ & _ & _ & E1 & _) & (_ & _ & _ & E2 & _)); try lia. split; assumption.
  - exact (shr_ok W a d (proj2 H)).
  - exact (shl_ok W a d (proj2 H)).
  - apply get_bits_all; lia.
  - destruct H as (H1 & H2 & H3 & H4). split.
    + apply (concat_zero ac_backend); auto. intros; apply (concat_all A B x y); assumption.
    + apply (concat_zero ap_backend); auto. intros; apply (concat_all A B x y); assumption.
  - destruct (Z.eqb_spec WD WS) as [->|N]; [rewrite h_checked_cast_ok by lia; split; reflexivity|].
    unfold h_checked_cast. rewrite (proj2 (Z.eqb_neq WD WS) N). split; reflexivity.
  - split; [apply (pads_all ac_backend P W a (either_good _ (or_introl eq_refl)))|apply (pads_all ap_backend P W a (either_good _ (or_intror eq_refl)))]; lia.
  - split; [apply (pads_all ac_backend P W a (either_good _ (or_introl eq_refl)))|apply (pads_all ap_backend P W a (either_good _ (or_intror eq_refl)))]; lia.
  - destruct (cmp_all W a b) as (E1 & E2 & E3 & E4 & E5 & E6). destruct c; split; assumption.
  - destruct (cmp_int_all W a n) as (E1 & E2 & E3 & E4 & E5 & E6); [lia|]. destruct c; split; assumption.
  - split; reflexivity.
  - unfold ap_to_int. rewrite low32 by lia. split; reflexivity.
Qed.

(** Every operation of a run satisfies P. *)
Fixpoint along {A : Type} (P : oper -> Prop) (p : prog A) : Prop :=
  match p with Ret _ => True | Do o k => P o /\ forall r, fw_sem o = Some r -> along P (k r) | Fail => True end.
Lemma along_run {A} (P : oper -> Prop) K (p : prog A) : (forall o, P o -> K o = fw_sem o) -> along P p -> run K p = run fw_sem p.
Proof.
  intro HK. induction p as [a|o k IH|]; intro H; cbn in *; [reflexivity| |reflexivity].
  destruct H as [H1 H2]. rewrite (HK o H1). destruct (fw_sem o) as [r|] eqn:E; [|reflexivity]. apply IH. now apply H2.
Qed.
Lemma along_bind {A B} P (p : prog A) (f : A -> prog B) : along P p -> (forall a, run fw_sem p = Some a -> along P (f a)) -> along P (pbind p f).
Proof.
  induction p as [a|o k IH|]; intros H1 H2; cbn in *; [now apply H2| |exact I].
  destruct H1 as [H1 H3]. split; [exact H1|]. intros r E. apply IH; [now apply H3|]. intros a Ha. apply H2. now rewrite E.
Qed.
Lemma run_bind {A B} K (p : prog A) (f : A -> prog B) : run K (pbind p f) = bind (run K p) (fun a => run K (f a)).
Proof. induction p as [a|o k IH|]; cbn; [reflexivity| |reflexivity]. destruct (K o) as [r|]; [apply IH|reflexivity]. Qed.
Lemma along_imp {A} (P Q : oper -> Prop) (p : prog A) : (forall o, P o -> Q o) -> along P p -> along Q p.
Proof. intro H. induction p as [a|o k IH|]; cbn; [auto| |auto]. intros [H1 H2]. split; [auto|]. intros r E. apply IH. auto. Qed.
(** Operations in range and no wider than w. *)
Definition fits (w : Z) (o : oper) : Prop := op_ok o /\ op_widest o <= w.
Lemma run_agree {A} w K (p : prog A) : back_end w K -> along (fits w) p -> run K p = run fw_sem p.
Proof.
  intros HK. apply along_run. intros o [H1 H2]. rewrite (fw_value o H1). destruct HK as [Hw| |].
  - apply word_value; [exact H1|lia].
  - apply (hls_value o H1).
  - apply (hls_value o H1).
Qed.
