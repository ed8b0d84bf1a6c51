(** get_equality_class, nextafter and the other small entry points. *)
From Coq Require Import ZArith Bool Lia.
From Verif Require Import Fw FwLemmas Spec SpecLemmas Flopoco FlopocoLemmas FlopocoProofs CompareProofs Dbl.
Open Scope Z_scope.

Lemma class_pack E F fl s e f : okf E F fl e f ->
  get_equality_class E F (pack E F fl s e f) =
  if fl =? 0 then 3 else if fl =? 1 then (if s then 2 else 4) else if fl =? 2 then (if s then 1 else 5) else 0.
Proof.
  intros H. pose proof (pack_slices E F fl s e f H) as (_ & _ & _ & _ & _ & S). destruct H as (HE & HF & Hfl & _). unfold get_equality_class. cbv zeta.
  rewrite bits_eq by lia. rewrite S. replace (E + F + 2 - (E + F) + 1) with 3 by lia.
  assert (C : fl = 0 \/ fl = 1 \/ fl = 2 \/ fl = 3) by lia. destruct C as [->|[->|[->| ->]]]; destruct s; reflexivity.
Qed.
Lemma class_value E F x : 1 <= E -> 1 <= F -> wf (E + F + 3) x ->
  get_equality_class E F x = match decode E F x with NaN => 0 | Inf true => 1 | Num true _ _ => 2 | Zero _ => 3 | Num false _ _ => 4 | Inf false => 5 end.
Proof.
  intros HE HF Hx. destruct (pack_view E F x HE HF Hx) as (fl & s & e & f & O & ->). rewrite class_pack, decode_pack by exact O.
  destruct (fl =? 0); [reflexivity|]. destruct (fl =? 1); [destruct s; reflexivity|]. destruct (fl =? 2); [destruct s; reflexivity|]. reflexivity.
Qed.
Lemma cmp_signs m e n f : 0 < m -> 0 < n -> cmp_num (- m) e n f = Lt /\ cmp_num n f (- m) e = Gt.
Proof.
  intros Hm Hn. unfold cmp_num. cbv zeta. rewrite (Z.min_comm f e). set (k := Z.min e f). assert (A : 0 < 2 ^ (e - k)) by (apply pow2_pos; unfold k; lia). assert (B : 0 < 2 ^ (f - k)) by (apply pow2_pos; unfold k; lia).
  split; [apply Z.compare_lt_iff|apply Z.compare_gt_iff]; nia.
Qed.
Lemma class_order EX FX EY FY x y : 1 <= EX -> 1 <= FX -> 1 <= EY -> 1 <= FY -> wf (EX + FX + 3) x -> wf (EY + FY + 3) y ->
  (get_equality_class EX FX x = 0 <-> decode EX FX x = NaN) /\
  (decode EX FX x <> NaN -> get_equality_class EX FX x < get_equality_class EY FY y -> vcmp (decode EX FX x) (decode EY FY y) = Some Lt) /\
  (vcmp (decode EX FX x) (decode EY FY y) = Some Eq -> get_equality_class EX FX x = get_equality_class EY FY y) /\
  (vcmp (decode EX FX x) (decode EY FY y) = Some Lt -> get_equality_class EX FX x <= get_equality_class EY FY y).
Proof.
  intros H1 H2 H3 H4 Hx Hy. rewrite !class_value by assumption. pose proof (pow2_pos FX ltac:(lia)) as PX. pose proof (pow2_pos FY ltac:(lia)) as PY.
  destruct (pack_view EX FX x H1 H2 Hx) as (fl & s & e & f & O & ->). destruct (pack_view EY FY y H3 H4 Hy) as (fl' & s' & e' & f' & O' & ->). rewrite !decode_pack by assumption.
  destruct O as (_ & _ & _ & _ & Of). destruct O' as (_ & _ & _ & _ & Of').
  pose proof (cmp_signs (2 ^ FX + f) (e - bias EX - FX) (2 ^ FY + f') (e' - bias EY - FY) ltac:(lia) ltac:(lia)) as [C1 _].
  pose proof (cmp_signs (2 ^ FY + f') (e' - bias EY - FY) (2 ^ FX + f) (e - bias EX - FX) ltac:(lia) ltac:(lia)) as [_ C2].
  destruct (fl =? 0); [|destruct (fl =? 1); [|destruct (fl =? 2)]]; (destruct (fl' =? 0); [|destruct (fl' =? 1); [|destruct (fl' =? 2)]]); destruct s, s'; cbn [vcmp sgn];
    (split; [split; intros; congruence|]); (split; [intros; first [lia|reflexivity|congruence]|]); (split; intros H; first [reflexivity|lia|congruence]).
Qed.
Lemma nextafter_up E F x : 1 <= E -> 1 <= F -> wf (E + F + 3) x ->
  exists r, fl_nextafter E F x (Inf false) = Some r /\ wf (E + F + 3) r /\
    (decode E F x = NaN -> decode E F r = NaN) /\ (decode E F x = Inf false -> decode E F r = Inf false) /\
    (decode E F x <> NaN -> decode E F x <> Inf false -> below (decode E F x) (decode E F r) /\
       forall z, wf (E + F + 3) z -> ~ (below (decode E F x) (decode E F z) /\ below (decode E F z) (decode E F r))).
Proof. intros HE HF Hx. exists (nextup E F x). split; [reflexivity|]. apply nextup_correct; assumption. Qed.
Lemma nextafter_down E F x : 1 <= E -> 1 <= F -> wf (E + F + 3) x ->
  ~ ((exists e, decode E F x = Num false (2 ^ F) e /\ e <> emin E - F) \/ (exists e, decode E F x = Num true (2 ^ (F + 1) - 1) e /\ e <> emax E - F)) ->
  exists r, fl_nextafter E F x (Inf true) = Some r /\ wf (E + F + 3) r /\
    (decode E F x = NaN -> decode E F r = NaN) /\ (decode E F x = Inf true -> decode E F r = Inf true) /\
    (decode E F x <> NaN -> decode E F x <> Inf true -> below (decode E F r) (decode E F x) /\
       forall z, wf (E + F + 3) z -> ~ (below (decode E F r) (decode E F z) /\ below (decode E F z) (decode E F x))).
Proof. intros HE HF Hx HB. exists (nextdown E F x). split; [reflexivity|]. apply nextdown_good; assumption. Qed.
Lemma nextdown_pow E F e : okf E F 1 e 0 -> e <> 0 -> nextdown E F (pack E F 1 false e 0) = pack E F 1 false (e - 1) 0.
Proof.
  intros Ha N. unfold nextdown. fields. pose proof Ha as (HE & HF & _ & He & Hf). pose proof (pow2_pos F ltac:(lia)) as PF. unfold zg. cbn [Z.eqb Pos.eqb andb negb].
  replace (e =? 0) with false by lia. rewrite fsub_eq, Z.mod_small by lia. apply (lim_pack E F 1 false); lia.
Qed.
Lemma nextdown_neg E F e : okf E F 1 e (2 ^ F - 1) -> e <> 2 ^ E - 1 -> nextdown E F (pack E F 1 true e (2 ^ F - 1)) = pack E F 1 true (e + 1) (2 ^ F - 1).
Proof.
  intros Ha N. unfold nextdown. fields. pose proof Ha as (HE & HF & _ & He & Hf). pose proof (pow2_pos F ltac:(lia)) as PF. rewrite !og_eq by lia. cbn [Z.eqb Pos.eqb andb negb].
  rewrite Z.eqb_refl. replace (e =? 2 ^ E - 1) with false by lia. rewrite fadd_eq, Z.mod_small by lia. apply (lim_pack E F 1 true); lia.
Qed.
Lemma nextafter_down_bad E F x e : 1 <= E -> 1 <= F -> wf (E + F + 3) x ->
  (decode E F x = Num false (2 ^ F) e /\ e <> emin E - F) \/ (decode E F x = Num true (2 ^ (F + 1) - 1) e /\ e <> emax E - F) ->
  exists r z, fl_nextafter E F x (Inf true) = Some r /\ wf (E + F + 3) z /\ below (decode E F r) (decode E F z) /\ below (decode E F z) (decode E F x).
Proof.
  intros HE HF Hx H. destruct (pack_view E F x HE HF Hx) as (fl & s & g & f & O & ->). rewrite decode_pack in * by exact O. pose proof O as (_ & _ & Hfl & Hg & Hf). pose proof (pow2_pos F ltac:(lia)) as PF.
  assert (P2 : 2 <= 2 ^ F) by (change 2 with (2 ^ 1) at 1; apply pow2_le; lia). pose proof (pow2_S F ltac:(lia)) as PS.
  assert (B2 : 2 ^ E = 2 * bias E + 2) by (unfold bias; replace E with (E - 1 + 1) at 1 by lia; rewrite pow2_S by lia; lia).
  destruct (fl =? 0) eqn:F0; [destruct H as [[H _]|[H _]]; discriminate H|]. destruct (fl =? 1) eqn:F1; [|destruct (fl =? 2); destruct H as [[H _]|[H _]]; discriminate H].
  apply Z.eqb_eq in F1. subst fl. cbn [fl_nextafter]. destruct H as [[H N]|[H N]].
  - injection H as -> M <-. assert (f = 0) by lia. subst f. assert (G : g <> 0) by (unfold emin in N; lia). rewrite nextdown_pow by assumption.
    exists (pack E F 1 false (g - 1) 0), (pack E F 1 false (g - 1) 1). split; [reflexivity|]. assert (O1 : okf E F 1 (g - 1) 0) by (unfold okf; lia). assert (O2 : okf E F 1 (g - 1) 1) by (unfold okf; lia).
    split; [apply pack_wf; exact O2|]. rewrite !decode_pack by assumption. cbn [Z.eqb Pos.eqb]. split; left; cbn [vcmp sgn]; f_equal; rewrite (cmp_num_k _ _ _ _ (g - 1 - bias E - F)) by lia; apply Z.compare_lt_iff.
    + rewrite Z.sub_diag. change (2 ^ 0) with 1. lia.
    + rewrite Z.sub_diag. replace (g - bias E - F - (g - 1 - bias E - F)) with 1 by lia. change (2 ^ 0) with 1. change (2 ^ 1) with 2. lia.
  - injection H as -> M <-. assert (f = 2 ^ F - 1) by lia. subst f. assert (G : g <> 2 ^ E - 1) by (unfold emax in N; lia). rewrite nextdown_neg by assumption.
    exists (pack E F 1 true (g + 1) (2 ^ F - 1)), (pack E F 1 true (g + 1) 0). split; [reflexivity|]. assert (O1 : okf E F 1 (g + 1) (2 ^ F - 1)) by (unfold okf; lia). assert (O2 : okf E F 1 (g + 1) 0) by (unfold okf; lia).
    split; [apply pack_wf; exact O2|]. rewrite !decode_pack by assumption. cbn [Z.eqb Pos.eqb]. split; left; cbn [vcmp sgn]; f_equal; rewrite (cmp_num_k _ _ _ _ (g - bias E - F)) by lia; apply Z.compare_lt_iff;
      rewrite ?Z.sub_diag; replace (g + 1 - bias E - F - (g - bias E - F)) with 1 by lia; change (2 ^ 0) with 1; change (2 ^ 1) with 2; lia.
Qed.
Lemma nextafter_throws E F x y : fl_nextafter E F x y = None <-> forall s, y <> Inf s.
Proof.
  split.
  - intros H s ->. destruct s; discriminate H.
  - intros H. destruct y as [|s| |]; try reflexivity. exfalso. apply (H s). reflexivity.
Qed.
Lemma resize_ok W B x : 0 <= W -> 0 <= B -> 0 <= x < 2 ^ W -> resize W B x = Some (x mod 2 ^ B).
Proof.
  intros HW HB Hx. unfold resize. rewrite zpad_hi_eq by assumption. apply take_lsbs_ok; [lia|]. pose proof (pow2_le W (Z.max 0 (B - W) + W)) as P. lia.
Qed.
