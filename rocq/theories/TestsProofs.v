(** The inputs of the test programs. *)
From Coq Require Import ZArith List Bool Lia.
From Verif Require Import SpecTests Fw FwLemmas FwWord FwWordProofs2 Spec SpecPolicy Spec754 SpecLemmas Flopoco FlopocoLemmas FlopocoProofs MpfrLib Mpfr MpfrRange MpfrProofs MpfrProofs2 MpfrProofs3 Dbl DblProofs Policy PolicyProofs2 PolicyProofs6 PolicyProofs7 Tests.
Import ListNotations.
Open Scope Z_scope.

(** Everything but a number has a zero exponent field. *)
Lemma plain_pack E F fl s f : okf E F fl 0 f -> plain E F (pack E F fl s 0 f).
Proof. intros K. split; [apply pack_wf; exact K|]. destruct (pack_slices E F fl s 0 f K) as [_ [S _]]. destruct (decode _ _ _); auto. Qed.
Lemma num_plain E F w s m e : wf (E + F + 3) w -> decode E F w = Num s m e -> plain E F w.
Proof. intros W D. split; [exact W|]. rewrite D. exact I. Qed.
Lemma lim_plain E F fl s : 1 <= E -> 1 <= F -> 0 <= fl <= 3 -> plain E F (lim E F (fl * 2 + Z.b2z s) (zg E) (zg F)).
Proof.
  intros HE HF Hl. pose proof (pow2_pos F ltac:(lia)) as PF. pose proof (pow2_pos E ltac:(lia)) as PE. unfold zg. rewrite lim_pack by lia. apply plain_pack. repeat split; lia.
Qed.
Lemma fl_plain E F v w : ok_ef E F -> mp_ok F v -> fl_of_mpfr E F (F + 1) true v = Some w -> plain E F w.
Proof.
  intros [HE HF] V H. pose proof (pow2_pos F ltac:(lia)) as PF. pose proof (pow2_pos E ltac:(lia)) as PE. assert (P1 : 2 ^ (F + 1) = 2 * 2 ^ F) by (rewrite Z.pow_add_r; lia).
  destruct v as [|s|s|s m e]; unfold fl_of_mpfr in H; (replace ((1 <=? E) && (E <=? 31)) with true in H by (symmetry; apply andb_true_intro; split; lia)); rewrite Z.eqb_refl in H; cbn [assert_ bind] in H.
  - injection H as <-. apply (lim_plain E F 3 false); lia.
  - injection H as <-. destruct s; [apply (lim_plain E F 2 true)|apply (lim_plain E F 2 false)]; lia.
  - injection H as <-. change (cat (E + F) (cat 1 (zg 2) (Z.b2z s)) (zg (E + F))) with (cat (E + F) (cat 1 0 (Z.b2z s)) 0).
    replace (cat (E + F) (cat 1 0 (Z.b2z s)) 0) with (pack E F 0 s 0 0); [apply plain_pack; repeat split; lia|]. rewrite !cat_eq by (try (destruct s; cbn); lia). unfold pack. destruct s; cbn [Z.b2z]; lia.
  - cbn [mp_ok] in V. cbv zeta in H. replace ((if s then - m else m) <? 0) with s in H by (destruct s; lia). replace (if s then - (if s then - m else m) else if s then - m else m) with m in H by (destruct s; lia).
    destruct (Z.testbit m F); [|discriminate]. cbn [assert_ bind] in H. rewrite clear_top in H by lia. rewrite of_mpz_spec in H by lia. rewrite Z.abs_eq in H by lia. replace (m - 2 ^ F <? 2 ^ F) with true in H by lia. cbn [bind] in H.
    destruct (e + F <? _) eqn:U. { injection H as <-. rewrite mk_pack by lia. apply plain_pack. repeat split; lia. }
    destruct (_ <? e + F) eqn:O. { injection H as <-. rewrite mk_pack by lia. apply plain_pack. repeat split; lia. }
    assert (PE1 : 2 ^ E = 2 * 2 ^ (E - 1)) by (rewrite <- Z.pow_succ_r by lia; f_equal; lia). rewrite of_int_ok in H by lia. cbn [bind] in H. injection H as <-. remember (e + F + (2 ^ (E - 1) - 1)) as x.
    rewrite mk_pack by lia. apply (num_plain E F _ s (2 ^ F + (m - 2 ^ F)) (x - bias E - F)); [apply pack_wf; repeat split; lia|]. rewrite decode_pack by (repeat split; lia). reflexivity.
Qed.

Theorem args_fixed E F : 4 <= E <= 30 -> 1 <= F <= 128 ->
  exists l, Forall (plain E F) l /\ Forall (fun w => decode E F w <> NaN) l /\ length l = Z.to_nat (132 + 4 * F) /\
    (forall s, In (lim E F (4 + Z.b2z s) (zg E) (zg F)) l) /\ (forall s, In (lim E F (Z.b2z s) (zg E) (zg F)) l) /\
    forall u n, make_args E F u n = push_random (flopoco_policy E F) u n 0 n l.
Proof.
  intros HE HF. assert (OK : ok_ef E F) by (split; lia). pose proof (pow2_pos F ltac:(lia)) as PF. pose proof (pow2_pos E ltac:(lia)) as PE. pose proof (og_bound E ltac:(lia)) as OE. pose proof (og_bound F ltac:(lia)) as OF. assert (P1 : 2 ^ (F + 1) = 2 * 2 ^ F) by (rewrite Z.pow_add_r; lia).
  assert (P2 : 2 <= 2 ^ F) by (change 2 with (2 ^ 1) at 1; apply Z.pow_le_mono_r; lia).
  assert (B1 : 8 <= 2 ^ (E - 1)) by (change 8 with (2 ^ 3); apply Z.pow_le_mono_r; lia). assert (B2 : 2 ^ (E - 1) <= 2 ^ 29) by (apply Z.pow_le_mono_r; lia). assert (PEE : 2 ^ E = 2 * 2 ^ (E - 1)) by (rewrite <- Z.pow_succ_r by lia; f_equal; lia).
  assert (R1 : mp_emax = 2 * 2 ^ 29 - 1 /\ mp_emin = - (2 * 2 ^ 29 - 1) /\ 1000 < 2 ^ 29) by (repeat split; reflexivity).
  destruct (lim_is_pack E F 2 1 false (og E) (og F)) as [M1 M2]; try lia; [reflexivity|]. destruct (lim_is_pack E F 2 1 false 0 0) as [N1 N2]; try lia; [reflexivity|].
  destruct (lim_is_pack E F 3 1 true (og E) (og F)) as [M3 M4]; try lia; [reflexivity|]. destruct (lim_is_pack E F 3 1 true 0 0) as [N3 N4]; try lia; [reflexivity|].
  assert (DM : decode E F (lim_max E F) = Num false (2 ^ (F + 1) - 1) (emax E - F)) by (unfold lim_max; rewrite M2, decode_pack by assumption; cbn [Z.eqb Pos.eqb]; unfold emax, bias; f_equal; [rewrite og_eq by lia; lia|rewrite og_eq by lia; lia]).
  assert (DN : decode E F (lim_min E F) = Num false (2 ^ F) (emin E - F)) by (unfold lim_min, zg; rewrite N2, decode_pack by assumption; cbn [Z.eqb Pos.eqb]; unfold emin, bias; f_equal; lia).
  assert (WM : wf (E + F + 3) (lim_max E F)) by (unfold lim_max; rewrite M2; apply pack_wf; exact M1). assert (WN : wf (E + F + 3) (lim_min E F)) by (unfold lim_min, zg; rewrite N2; apply pack_wf; exact N1).
  remember (fun w => plain E F w /\ decode E F w <> NaN) as good eqn:G.
  assert (GN : forall w s m e, wf (E + F + 3) w -> decode E F w = Num s m e -> good w) by (intros w s m e W D; subst good; split; [eapply num_plain; eassumption|rewrite D; discriminate]).
  assert (HN : forall allow s m e, 2 ^ F <= m < 2 ^ (F + 1) -> emin E <= e + F <= emax E -> exists w, from_mpfr (flopoco_policy E F) allow (Num s m e) = Some w /\ good w).
  { intros allow s m e Hm He. destruct (mpfr_ctor E F allow s m e ltac:(lia) HF Hm) as [C _]. destruct (C He) as [r [C1 [C2 C3]]]. exists r. split; [exact C1|]. apply (GN r s m e); assumption. }
  assert (HP : forall s e, - (F + 7) <= e + F <= F + 7 -> exists w, from_mpfr (flopoco_policy E F) true (Num s (2 ^ F) e) = Some w /\ good w).
  { intros s e _. destruct (fl_pow2 E F s e ltac:(lia) HF) as [w [W1 [W2 [W3 _]]]]. exists w. split; [exact W1|]. subst good. split; [|exact W3]. apply (fl_plain E F (Num s (2 ^ F) e)); [exact OK|cbn [mp_ok]; lia|exact W1]. }
  assert (HD : digits (flopoco_policy E F) = F + 1) by reflexivity.
  assert (HL : - 2 ^ 29 <= emin E <= -5) by (unfold emin, bias; lia). assert (HH : 5 <= emax E <= 2 ^ 29) by (unfold emax, bias; lia).
  assert (LP : forall fl s, fl = 0 \/ fl = 2 -> good (lim E F (fl * 2 + Z.b2z s) (zg E) (zg F))).
  { intros fl s Hfl. subst good. split; [apply lim_plain; lia|]. unfold zg. rewrite lim_pack, decode_pack by (repeat split; lia). destruct Hfl as [-> | ->]; discriminate. }
  destruct (ints_ok (flopoco_policy E F) F (emin E) (emax E) good HF HD HL HH HN HP) as [l1 [A1 [A2 A3]]].
  assert (PW : made good (push_doubles (flopoco_policy E F) true (binary_powers F)) (Z.to_nat (4 * F + 24))).
  { replace (Z.to_nat (4 * F + 24)) with (2 * length (binary_powers F))%nat by (unfold binary_powers; rewrite map_length, seq_length; lia).
    apply (push_doubles_ok (flopoco_policy E F) F (emin E) (emax E) good HF HD HN HP). intros d Hd. unfold binary_powers in Hd. apply in_map_iff in Hd. destruct Hd as [j [<- Hj]]. apply in_seq in Hj.
    remember (- (Z.of_nat j - F - 6)) as i. assert (Bi : - (F + 7) <= i <= F + 7) by lia. clear Heqi Hj. unfold dbl_ldexp. pose proof (dbl_exact false (2 ^ 52) (-52 + i)) as X. assert (LG : Z.log2 (2 ^ 52) = 52) by reflexivity. rewrite LG in X. specialize (X ltac:(split; reflexivity) ltac:(lia) ltac:(lia)). cbv zeta in X. destruct X as [_ X].
    replace (-52 + i - Z.max (52 + (-52 + i) - 52) (-1074)) with 0 in X by lia. rewrite X. change (2 ^ 52 * 2 ^ 0) with (2 ^ 52). unfold mpfr_set_d. cbn [mpfr_set]. rewrite mp_round_pow2 by lia.
    exists (2 ^ F), (52 + (-52 + i - 0) - F). split; [reflexivity|]. split; [lia|]. split; [lia|]. right. split; [reflexivity|]. split; [reflexivity|lia]. }
  destruct PW as [l2 [PW1 [PW2 PW3]]].
  assert (O : mpfr_set_d (F + 1) (Num false (2 ^ 52) (-52)) = Num false (2 ^ F) (- F)) by (unfold mpfr_set_d; cbn [mpfr_set]; rewrite mp_round_pow2 by lia; f_equal; lia).
  assert (X1 : idx F (2 ^ F) (- F) = 0) by (unfold idx; lia). assert (X2 : idx F (2 ^ F) (emin E - F) = emin E * 2 ^ F) by (unfold idx; lia). assert (X3 : idx F (2 ^ (F + 1) - 1) (emax E - F) = (emax E + 1) * 2 ^ F - 1) by (unfold idx; lia).
  assert (B5 : emin E * 2 ^ F <= -10) by (clear - HL P2; nia). assert (B6 : 10 <= emax E * 2 ^ F) by (clear - HH P2; nia).
  destruct (steps_above (flopoco_policy E F) F (emin E) (emax E) good HF HD HL HH HN HP 10 (2 ^ F) (- F) ltac:(lia) ltac:(lia) ltac:(lia)) as [l3 [E1 [E2 E3]]].
  destruct (steps_below (flopoco_policy E F) F (emin E) (emax E) good HF HD HL HH HN HP 10 (2 ^ F) (- F) ltac:(lia) ltac:(lia) ltac:(lia)) as [l4 [F1 [F2 F3]]].
  destruct (steps_above (flopoco_policy E F) F (emin E) (emax E) good HF HD HL HH HN HP 10 (2 ^ F) (emin E - F) ltac:(lia) ltac:(lia) ltac:(lia)) as [l5 [G1 [G2 G3]]].
  destruct (steps_below (flopoco_policy E F) F (emin E) (emax E) good HF HD HL HH HN HP 10 (2 ^ (F + 1) - 1) (emax E - F) ltac:(lia) ltac:(lia) ltac:(lia)) as [l6 [H1 [H2 H3]]].
  exists (l1 ++ [lim_neg_infinity E F; lim_neg_max E F; lim_neg_min E F; lim_neg_zero E F; lim_pos_zero E F; lim_min E F; lim_max E F; lim_infinity E F] ++ l3 ++ l4 ++ l5 ++ l6 ++ l2).
  assert (K : Forall good (l1 ++ [lim_neg_infinity E F; lim_neg_max E F; lim_neg_min E F; lim_neg_zero E F; lim_pos_zero E F; lim_min E F; lim_max E F; lim_infinity E F] ++ l3 ++ l4 ++ l5 ++ l6 ++ l2)).
  { rewrite !Forall_app. repeat split; try assumption. constructor; [apply (LP 2 true); auto|]. constructor; [eapply GN; [unfold lim_neg_max; rewrite M4; apply pack_wf; exact M3|unfold lim_neg_max; rewrite M4, decode_pack by assumption; reflexivity]|]. constructor; [eapply GN; [unfold lim_neg_min, zg; rewrite N4; apply pack_wf; exact N3|unfold lim_neg_min, zg; rewrite N4, decode_pack by assumption; reflexivity]|].
    constructor; [apply (LP 0 true); auto|]. constructor; [apply (LP 0 false); auto|]. constructor; [eapply GN; eassumption|]. constructor; [eapply GN; eassumption|]. constructor; [apply (LP 2 false); auto|]. constructor. }
  subst good. split; [eapply Forall_impl; [|exact K]; intros w [W _]; exact W|]. split; [eapply Forall_impl; [|exact K]; intros w [_ W]; exact W|]. split; [rewrite !app_length; cbn [length]; lia|].
  split; [intros s; apply in_or_app; right; apply in_or_app; left; destruct s; cbn [In]; [left; reflexivity|do 7 right; left; reflexivity]|].
  split; [intros s; apply in_or_app; right; apply in_or_app; left; destruct s; cbn [In]; [do 3 right; left; reflexivity|do 4 right; left; reflexivity]|].
  intros u n. unfold make_args. cbv zeta. rewrite A1, O, E1, F1. cbn [bind]. rewrite !fl_get_ok by (assumption || lia). rewrite DM, DN. cbn [bind]. rewrite G1. cbn [bind]. rewrite H1. cbn [bind]. rewrite PW1. cbn [bind]. reflexivity.
Qed.
