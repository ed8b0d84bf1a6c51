From Coq Require Import ZArith Bool List Lia.
From Verif Require Import Fw FwLemmas Spec Flopoco FlopocoLemmas FlopocoProofs AddSingle AddSingleProofs AddSingleProofs2 AddAltProofs2 Circuit CircuitProofs CircuitMulProofs CircuitAdd CircuitAddProofs CircuitCmp.
Open Scope Z_scope.

Lemma run_class E F k x : 1 <= E -> 1 <= F -> wf 2 k -> run fw_sem (p_class E F k x) = Some (feq (get_flags E F x) k).
Proof. intros HE HF Hk. unfold p_class. ev. rewrite gb by lia. ev. rewrite of_int_wf by (lia || exact Hk). reflexivity. Qed.
Lemma run_sign_is E F k x : 1 <= E -> 1 <= F -> wf 1 k -> run fw_sem (p_sign_is E F k x) = Some (feq (get_sign E F x) k).
Proof. intros HE HF Hk. unfold p_sign_is. ev. rewrite gb by lia. ev. rewrite of_int_wf by (lia || exact Hk). reflexivity. Qed.
Lemma run_fef E F x : 1 <= E -> 1 <= F -> run fw_sem (p_flags_exp_frac E F x) = Some (get_flags_exp_frac E F x).
Proof. intros HE HF. unfold p_flags_exp_frac. rn. reflexivity. Qed.
Ltac cl :=
  match goal with
  | |- run _ (pbind (p_class ?E ?F ?k ?x) _) = _ => rewrite (run_pbind _ _ _ _ (run_class E F k x ltac:(lia) ltac:(lia) ltac:(unfold wf; cbn; lia)))
  | |- run _ (pbind (p_sign_is ?E ?F ?k ?x) _) = _ => rewrite (run_pbind _ _ _ _ (run_sign_is E F k x ltac:(lia) ltac:(lia) ltac:(unfold wf; cbn; lia)))
  | |- run _ (pbind (p_flags_exp_frac ?E ?F ?x) _) = _ => rewrite (run_pbind _ _ _ _ (run_fef E F x ltac:(lia) ltac:(lia)))
  end.
Ltac cls := repeat (ev; first [cl | hd]); ev.
Ltac prom EA FA EB FB :=
  unfold with_promoted; cbv zeta; assert (1 <= ctMax EA EB /\ 1 <= ctMax FA FB) by (rewrite !ctMax_eq; lia);
  generalize dependent (ctMax FA FB); intros F ?; generalize dependent (ctMax EA EB); intros E ?;
  rewrite run_bind, run_promote by lia; apply bind_ext; [reflexivity|]; intro na; rewrite run_bind, run_promote by lia; apply bind_ext; [reflexivity|]; intro nb;
  cls; try rewrite !sel_bool; try reflexivity.
Lemma run_equal EA FA EB FB a b : 1 <= EA -> 1 <= FA -> 1 <= EB -> 1 <= FB -> run fw_sem (equal_prog EA FA EB FB a b) = equal EA FA EB FB a b.
Proof.
  intros H1 H2 H3 H4. unfold equal_prog, equal. cbv zeta.
  prom EA FA EB FB.
Qed.
Lemma run_not_equal EA FA EB FB a b : 1 <= EA -> 1 <= FA -> 1 <= EB -> 1 <= FB -> run fw_sem (not_equal_prog EA FA EB FB a b) = not_equal EA FA EB FB a b.
Proof.
  intros H1 H2 H3 H4. unfold not_equal_prog, not_equal. cbv zeta.
  prom EA FA EB FB.
Qed.
Ltac ordr := match goal with |- run fw_sem (?p ?EA ?FA ?EB ?FB ?a ?b) = ?f _ _ _ _ _ _ => unfold p, f, order_prog end; cbv zeta.
Lemma run_order EA FA EB FB a b : 1 <= EA -> 1 <= FA -> 1 <= EB -> 1 <= FB ->
  run fw_sem (less_than_prog EA FA EB FB a b) = less_than EA FA EB FB a b /\
  run fw_sem (less_than_equal_prog EA FA EB FB a b) = less_than_equal EA FA EB FB a b /\
  run fw_sem (greater_than_prog EA FA EB FB a b) = greater_than EA FA EB FB a b /\
  run fw_sem (greater_than_equal_prog EA FA EB FB a b) = greater_than_equal EA FA EB FB a b.
Proof.
  intros H1 H2 H3 H4. repeat split; ordr;
  prom EA FA EB FB.
Qed.

(** ** convert *)
Lemma mk_cat E F fl s e f : 1 <= E -> 1 <= F -> wf E e -> wf F f -> cat (E + F) (cat 1 fl s) (cat F e f) = mk E F fl s e f.
Proof. intros. unfold mk. apply (cat_assoc E F); first [lia | assumption]. Qed.
Lemma run_convert_frac FR FX x : 1 <= FR -> 1 <= FX -> run fw_sem (convert_frac_prog FR FX x) = convert_frac FR FX x.
Proof.
  intros H1 H2. unfold convert_frac_prog, convert_frac. rewrite !run_if. destruct (FX <? FR) eqn:A; [|destruct (FR =? FX) eqn:B].
  - apply Z.ltb_lt in A. rn. destruct (checked_cast _ _ _); [|reflexivity]. rn. reflexivity.
  - rn. reflexivity.
  - apply Z.ltb_ge in A. apply Z.eqb_neq in B. unfold take_msbs, take_lsbs, extu.
    rewrite !(proj2 (Z.leb_le 0 _)) by lia. rewrite (proj2 (Z.leb_le FR FX)) by lia. rewrite (proj2 (Z.leb_le (FX - FR) FX)) by lia. rewrite (proj2 (Z.leb_le 1 FR)) by lia.
    cbn [andb]. rewrite (proj2 (Z.eqb_neq FR 0)), (proj2 (Z.eqb_neq (FX - FR) 0)) by lia. change (1 =? 0) with false. change (1 - 1) with 0. cbv zeta. cbn [bind].
    rewrite !gb by lia. cbn [bind]. rewrite !gb by lia. cbn [bind]. rn. reflexivity.
Qed.
Lemma of_int_2 : of_int 2 2 = Some 2.
Proof. reflexivity. Qed.
Lemma run_zpad' P W x : 0 <= P -> run fw_sem (p_zpad_hi P W x) = Some (zpad_hi P W x).
Proof. intro H. unfold p_zpad_hi. rn. reflexivity. Qed.
Lemma run_ret_bind {A B} K (p : prog A) (f : A -> prog B) : run K (pbind p f) = bind (run K p) (fun a => run K (f a)).
Proof. apply run_bind. Qed.
Lemma wf_fadd W a b : 1 <= W -> wf W (fadd W a b).
Proof. intro H. unfold wf. rewrite fadd_eq by lia. apply Z.mod_pos_bound. apply Z.pow_pos_nonneg; lia. Qed.
Lemma cast_same W x : 0 <= W -> wf W x -> checked_cast W W x = Some x.
Proof. intros H Hx. unfold checked_cast. rewrite Z.eqb_refl, land_mask by lia. now rewrite Z.mod_small. Qed.
Lemma post_convert_frac w FR FX x : 1 <= FR -> 1 <= FX -> Z.max FR FX <= w -> wf FX x -> post w (fun p => wf FR (fst p) /\ wf 1 (snd p)) (convert_frac_prog FR FX x).
Proof.
  intros H1 H2 Hw Hx. unfold convert_frac_prog. destruct (FX <? FR) eqn:A; [|destruct (FR =? FX) eqn:B].
  - apply Z.ltb_lt in A. pks. cbn [fst snd]. split; wfs.
  - apply Z.eqb_eq in B. pks. cbn [fst snd]. split; wfs.
  - apply Z.ltb_ge in A. apply Z.eqb_neq in B. pks. cbn [fst snd]. split; wfs.
Qed.
Lemma run_convert ER FR EX FX x : 1 <= ER -> 1 <= FR -> 1 <= EX -> 1 <= FX -> run fw_sem (convert_prog ER FR EX FX x) = convert ER FR EX FX x.
Proof.
  intros H1 H2 H3 H4. unfold convert_prog, convert. cbv zeta. rn.
  assert (Wf0 : wf FX (bits (FX - 1) 0 x)) by (apply wf_bits; lia).
  pose proof (proj2 (post_convert_frac (Z.max FR FX) FR FX _ H2 H4 ltac:(lia) Wf0)) as Wrf.
  rewrite run_bind. rewrite run_convert_frac in * by lia. unfold get_frac. destruct (convert_frac FR FX _) as [[rf wu]|]; [|reflexivity]. cbn [bind].
  destruct (Wrf _ eq_refl) as [Wr Ww]. clear Wrf. cbn [fst snd] in *.
  rn. rewrite run_bind, !run_if.
  assert (Wx : wf EX (bits (EX + FX - 1) FX x)) by (apply wf_bits; lia).
  assert (Wfl : wf 2 (bits (EX + FX + 2) (EX + FX + 1) x)) by (apply wf_bits; lia).
  unfold get_exp, get_flags, get_sign. generalize dependent (bits (EX + FX - 1) FX x). intros xe Wx. generalize dependent (bits (EX + FX + 2) (EX + FX + 1) x). intros fl Wfl. generalize (bits (EX + FX) (EX + FX) x). intro s.
  match goal with |- bind ?p ?k = bind ?q ?j => assert (PQ : p = q /\ forall a b, q = Some (a, b) -> wf ER b) end.
  - destruct (EX <? ER) eqn:A; [|destruct (ER =? EX) eqn:B].
    + apply Z.ltb_lt in A. split.
      * assert (Wz : wf ER (cat EX 0 xe)) by (replace ER with (ER - EX + EX) by lia; apply wf_cat; [lia|lia|split; [lia|apply Z.pow_pos_nonneg; lia]|exact Wx]).
        unfold zpad_hi, zg. rn. replace (ER - EX + EX) with ER by lia. rewrite cast_same by (lia || exact Wz). ev. destruct (of_int ER _); [|reflexivity]. rn. reflexivity.
      * intros a b. destruct (of_int ER _); [|discriminate]. cbn [bind]. destruct (checked_cast _ _ _); [|discriminate]. cbn [bind]. intro E. injection E as <- <-. now apply wf_fadd.
    + apply Z.eqb_eq in B. subst EX. split.
      * ev. rewrite cast_same by (lia || exact Wx). rn. rewrite b2z_is_1. rewrite run_bind, run_if. rewrite fnot_0. destruct (to_bool _) eqn:T.
        -- ev. cbn [bind]. rewrite of_int_2. cbn [bind]. rewrite cast_same by (lia || exact Wx). rn. reflexivity.
        -- ev. cbn [bind]. rewrite cast_same by (lia || exact Wx). rn. reflexivity.
      * intros a b E. injection E as <- <-. now apply wf_fadd.
    + apply Z.ltb_ge in A. apply Z.eqb_neq in B. unfold take_lsbs. rewrite (proj2 (Z.leb_le 0 ER)), (proj2 (Z.leb_le ER EX)), (proj2 (Z.eqb_neq ER 0)) by lia. cbn [andb]. split.
      * unfold zpad_hi, zg. rn. destruct (of_int EX (2 ^ (EX - 1) - 2 ^ (ER - 1))) as [mn|]; [|reflexivity]. ev. cbn [bind]. destruct (of_int EX (_ + _ - 1)) as [mx|]; [|reflexivity]. ev. cbn [bind].
        rewrite gb by lia. ev. cbn [bind]. rewrite to_int_ok by (unfold wf in Wfl; change (2 ^ 2) with 4 in Wfl; lia). ev. rewrite run_bind, run_if.
        destruct (fl =? 1) eqn:F1; [|reflexivity]. ev. rewrite b2z_is_1, run_if. destruct (to_bool (fand _ _)); [ev; rewrite of_int_0 by lia; reflexivity|]. ev. rewrite b2z_is_1, run_if. destruct (to_bool _); [ev; rewrite of_int_2; reflexivity|reflexivity].
      * intros a b. destruct (of_int EX _); [|discriminate]. cbn [bind]. destruct (of_int EX _); [|discriminate]. cbn [bind]. rewrite gb by lia. cbn [bind]. intro E. injection E as <- <-. apply wf_bits; lia.
  - destruct PQ as [-> Wq]. destruct (if EX <? ER then _ else _) as [[a b]|]; [|reflexivity]. cbn [bind]. ev. rewrite mk_cat; try lia; try assumption; [reflexivity|]. now apply (Wq a).
Qed.
Lemma run_neg ER FR EX FX x : 1 <= ER -> 1 <= FR -> 1 <= EX -> 1 <= FX -> run fw_sem (neg_prog ER FR EX FX x) = neg_v1 ER FR EX FX x.
Proof.
  intros H1 H2 H3 H4. unfold neg_prog, neg_v1. cbv zeta. rn. rewrite run_convert by lia. rewrite mk_cat; try lia; [reflexivity|apply wf_bits; lia|apply wf_bits; lia].
Qed.

(** ** Ranges *)
Lemma post_class w E F k x : 1 <= E -> 1 <= F -> wf 2 k -> E + F + 3 <= w -> wf (E + F + 3) x -> post w (wf 1) (p_class E F k x).
Proof. intros HE HF Hk Hw Hx. assert (0 <= k < 4) by exact Hk. unfold p_class. pks. wfs. Qed.
Lemma post_sign_is w E F k x : 1 <= E -> 1 <= F -> wf 1 k -> E + F + 3 <= w -> wf (E + F + 3) x -> post w (wf 1) (p_sign_is E F k x).
Proof. intros HE HF Hk Hw Hx. assert (0 <= k < 2) by exact Hk. unfold p_sign_is. pks. wfs. Qed.
Lemma post_fef w E F x : 1 <= E -> 1 <= F -> E + F + 3 <= w -> wf (E + F + 3) x -> post w (wf (2 + (E + F))) (p_flags_exp_frac E F x).
Proof. intros HE HF Hw Hx. unfold p_flags_exp_frac. pks. wfs. Qed.
Ltac pcl :=
  first
  [ eapply post_bind; [apply post_class; first [lia | unfold wf; cbn; lia | assumption]|let r := fresh "r" in let W := fresh "W" in intros r W]
  | eapply post_bind; [apply post_sign_is; first [lia | unfold wf; cbn; lia | assumption]|let r := fresh "r" in let W := fresh "W" in intros r W]
  | eapply post_bind; [apply post_fef; first [lia | assumption]|let r := fresh "r" in let W := fresh "W" in intros r W] ].
Ltac pprom EA FA EB FB :=
  cbv zeta; rewrite !ctMax_eq in *;
  assert (1 <= Z.max EA EB /\ 1 <= Z.max FA FB /\ EA <= Z.max EA EB /\ EB <= Z.max EA EB /\ FA <= Z.max FA FB /\ FB <= Z.max FA FB) by lia;
  generalize dependent (Z.max FA FB); intros F ? ?; generalize dependent (Z.max EA EB); intros E ? ?;
  eapply post_bind; [apply post_promote; first [lia | assumption]|]; intros na Wa;
  eapply post_bind; [apply post_promote; first [lia | assumption]|]; intros nb Wb;
  unfold p_select; repeat (pks; try pcl); wfs.
Lemma post_cmp w EA FA EB FB a b : 1 <= EA -> 1 <= FA -> 1 <= EB -> 1 <= FB -> Z.max EA EB + Z.max FA FB + 3 <= w -> wf (EA + FA + 3) a -> wf (EB + FB + 3) b ->
  post w (wf 1) (equal_prog EA FA EB FB a b) /\ post w (wf 1) (not_equal_prog EA FA EB FB a b).
Proof. intros H1 H2 H3 H4 Hw Ha Hb. split; unfold equal_prog, not_equal_prog; pprom EA FA EB FB. Qed.
Lemma post_order w EA FA EB FB a b : 1 <= EA -> 1 <= FA -> 1 <= EB -> 1 <= FB -> Z.max EA EB + Z.max FA FB + 3 <= w -> wf (EA + FA + 3) a -> wf (EB + FB + 3) b ->
  (post w (wf 1) (less_than_prog EA FA EB FB a b) /\ post w (wf 1) (less_than_equal_prog EA FA EB FB a b)) /\
  post w (wf 1) (greater_than_prog EA FA EB FB a b) /\ post w (wf 1) (greater_than_equal_prog EA FA EB FB a b).
Proof.
  intros H1 H2 H3 H4 Hw Ha Hb. split; split; unfold less_than_prog, less_than_equal_prog, greater_than_prog, greater_than_equal_prog, order_prog; pprom EA FA EB FB.
Qed.
Lemma post_convert w ER FR EX FX x : 1 <= ER <= 31 -> 1 <= FR -> 1 <= EX <= 31 -> 1 <= FX -> Z.max ER EX + Z.max FR FX + 3 <= w -> wf (EX + FX + 3) x ->
  post w (wf (ER + FR + 3)) (convert_prog ER FR EX FX x).
Proof.
  intros H1 H2 H3 H4 Hw Hx. unfold convert_prog. cbv zeta. pks. eapply post_bind; [apply post_convert_frac; first [lia | wfs]|]. intros [rf wu] [Wr Ww]. cbn [fst snd] in *. pks.
  assert (PP : forall n, 1 <= n <= 31 -> 1 <= 2 ^ (n - 1) <= 2 ^ 30 /\ 2 ^ n = 2 * 2 ^ (n - 1)).
  { intros n Hn. pose proof (Z.pow_le_mono_r 2 (n - 1) 30 ltac:(lia) ltac:(lia)). assert (0 < 2 ^ (n - 1)) by (apply Z.pow_pos_nonneg; lia). split; [lia|]. replace n with (1 + (n - 1)) at 1 by lia. rewrite Z.pow_add_r by lia. reflexivity. }
  destruct (PP ER ltac:(lia)) as [P1 P2], (PP EX ltac:(lia)) as [P3 P4]. change (2 ^ 30) with 1073741824 in *.
  apply (post_bind w (fun p => wf 2 (fst p) /\ wf ER (snd p))).
  - destruct (EX <? ER) eqn:A; [|destruct (ER =? EX) eqn:B].
    + apply Z.ltb_lt in A. pks. cbn [fst snd]. split; wfs.
    + apply Z.eqb_eq in B. pks. eapply (post_bind w (wf 2)); [destruct (_ =? 1); pks; wfs|]. intros f Wf. pks. cbn [fst snd]. split; wfs.
    + apply Z.ltb_ge in A. apply Z.eqb_neq in B. assert (2 * 2 ^ (ER - 1) <= 2 ^ (EX - 1)). { rewrite <- P2. apply Z.pow_le_mono_r; lia. }
      match goal with H : wf (EX + FX + 2 - (EX + FX + 1) + 1) ?r |- _ => assert (0 <= r < 2 ^ 31) by (unfold wf in H; replace (EX + FX + 2 - (EX + FX + 1) + 1) with 2 in H by lia; change (2 ^ 2) with 4 in H; lia) end.
      pks. eapply (post_bind w (wf 2)).
      * destruct (_ =? 1); [|apply post_ret; wfs]. pks. destruct (_ =? 1); pks; [wfs|]. destruct (_ =? 1); pks; wfs.
      * intros f Wf. pks. cbn [fst snd]. split; wfs.
  - intros [f e] [Wf We]. cbn [fst snd] in *. pks. wfs.
Qed.
Lemma post_neg w ER FR EX FX x : 1 <= ER <= 31 -> 1 <= FR -> 1 <= EX <= 31 -> 1 <= FX -> Z.max ER EX + Z.max FR FX + 3 <= w -> wf (EX + FX + 3) x ->
  post w (wf (ER + FR + 3)) (neg_prog ER FR EX FX x).
Proof. intros H1 H2 H3 H4 Hw Hx. unfold neg_prog. cbv zeta. pks. apply post_convert; try assumption. wfs. Qed.

Lemma cmp_any w K EA FA EB FB a b : back_end w K -> 1 <= EA -> 1 <= FA -> 1 <= EB -> 1 <= FB -> Z.max EA EB + Z.max FA FB + 3 <= w -> wf (EA + FA + 3) a -> wf (EB + FB + 3) b ->
  run K (equal_prog EA FA EB FB a b) = equal EA FA EB FB a b /\ run K (not_equal_prog EA FA EB FB a b) = not_equal EA FA EB FB a b /\
  run K (less_than_prog EA FA EB FB a b) = less_than EA FA EB FB a b /\ run K (less_than_equal_prog EA FA EB FB a b) = less_than_equal EA FA EB FB a b /\
  run K (greater_than_prog EA FA EB FB a b) = greater_than EA FA EB FB a b /\ run K (greater_than_equal_prog EA FA EB FB a b) = greater_than_equal EA FA EB FB a b.
Proof.
  intros HK H1 H2 H3 H4 Hw Ha Hb. destruct (post_cmp w EA FA EB FB a b H1 H2 H3 H4 Hw Ha Hb) as [[P1 _] [P2 _]]. destruct (post_order w EA FA EB FB a b H1 H2 H3 H4 Hw Ha Hb) as [[[P3 _] [P4 _]] [[P5 _] [P6 _]]].
  destruct (run_order EA FA EB FB a b H1 H2 H3 H4) as (R3 & R4 & R5 & R6).
  rewrite !(run_agree w K) by assumption. rewrite run_equal, run_not_equal, R3, R4, R5, R6 by assumption. repeat split.
Qed.
Lemma convert_any w K ER FR EX FX x : back_end w K -> 1 <= ER <= 31 -> 1 <= FR -> 1 <= EX <= 31 -> 1 <= FX -> Z.max ER EX + Z.max FR FX + 3 <= w -> wf (EX + FX + 3) x ->
  run K (convert_prog ER FR EX FX x) = convert ER FR EX FX x /\ run K (neg_prog ER FR EX FX x) = neg_v1 ER FR EX FX x.
Proof.
  intros HK H1 H2 H3 H4 Hw Hx. destruct (post_convert w ER FR EX FX x H1 H2 H3 H4 Hw Hx) as [P1 _]. destruct (post_neg w ER FR EX FX x H1 H2 H3 H4 Hw Hx) as [P2 _].
  rewrite !(run_agree w K) by assumption. split; [apply run_convert|apply run_neg]; lia.
Qed.
