(** The reciprocals are faithful. *)
From Coq Require Import ZArith Bool Lia QArith Qpower Qfield.
From Verif Require Import Fw FwLemmas Spec SpecLemmas SpecFix SpecInv Flopoco FlopocoLemmas FixvalProofs2 InvNr InvNrProofs InvNrProofs2.
Open Scope Z_scope.

(** ** Comparisons in Q *)
Lemma pow2Q_pos e : (0 < (2 # 1) ^ e)%Q.
Proof. apply Qpower_0_lt. reflexivity. Qed.
Lemma fixq_le e a b : (fixq e a <= fixq e b)%Q <-> a <= b.
Proof. unfold fixq. rewrite Qmult_le_r by apply pow2Q_pos. rewrite Zle_Qle. reflexivity. Qed.
Lemma fixq_opp e a : (fixq e (- a) == - fixq e a)%Q.
Proof. unfold fixq. rewrite inject_Z_opp. ring. Qed.
Lemma fixq_0 e : (fixq e 0 == 0)%Q.
Proof. unfold fixq. change (inject_Z 0) with 0%Q. ring. Qed.
Lemma fixq_mulZ e a b : (fixq e a * inject_Z b == fixq e (a * b))%Q.
Proof. unfold fixq. rewrite inject_Z_mult. ring. Qed.
(** ** Faithfulness from an error below one unit *)
Section Core.
  Context (E F e R N Y : Z) (x : Q).
  Context (HF : 0 <= F) (HY : 0 < Y) (HR : 2 ^ F <= R <= 2 ^ (F + 1)) (HN : 2 ^ F * Y <= N) (HE : - Y < R * Y - N < Y) (Hx : (x * inject_Z Y == fixq e N)%Q).
  Lemma x_ge v : (v * inject_Z Y <= fixq e N)%Q <-> (v <= x)%Q.
  Proof. rewrite <- Hx. apply Qmult_le_r. change 0%Q with (inject_Z 0). rewrite <- Zlt_Qlt. exact HY. Qed.
  Lemma x_le v : (fixq e N <= v * inject_Z Y)%Q <-> (x <= v)%Q.
  Proof. rewrite <- Hx. apply Qmult_le_r. change 0%Q with (inject_Z 0). rewrite <- Zlt_Qlt. exact HY. Qed.
  Lemma core_pos m f : 2 ^ F <= m < 2 ^ (F + 1) -> ((fixq f m <= x)%Q -> (fixq f m <= fixq e R)%Q) /\ ((x <= fixq f m)%Q -> (fixq e R <= fixq f m)%Q).
  Proof.
    intros Hm. rewrite <- x_ge, <- x_le, fixq_mulZ. pose proof (pow2_pos F HF) as PF. rewrite pow2_S in * by lia. destruct (Z.le_gt_cases e f) as [L|L].
    - replace f with (e + (f - e)) by lia. rewrite <- !fixq_scale by lia. rewrite !fixq_le. remember (m * 2 ^ (f - e)) as n. replace (m * Y * 2 ^ (f - e)) with (n * Y) by (subst n; ring).
      split; intros H; [assert (n < R + 1) by nia|assert (R - 1 < n) by nia]; lia.
    - replace e with (f + (e - f)) by lia. rewrite <- !fixq_scale by lia. rewrite !fixq_le. assert (P2 : 2 <= 2 ^ (e - f)) by (change 2 with (2 ^ 1) at 1; apply pow2_le; lia). remember (2 ^ (e - f)) as d.
      split; intros H; [assert (2 * 2 ^ F <= R * d) by nia; lia|]. exfalso. assert (2 * (2 ^ F * Y) <= N * d) by nia. assert (m * Y < 2 * (2 ^ F * Y)) by nia. lia.
  Qed.
  Lemma core_nonpos q : (q <= 0)%Q -> ((q <= x)%Q -> (q <= fixq e R)%Q) /\ ((x <= q)%Q -> (fixq e R <= q)%Q).
  Proof.
    intros Hq. pose proof (pow2_pos F HF) as PF. split; intros H.
    - apply Qle_trans with 0%Q; [exact Hq|]. rewrite <- (fixq_0 e). apply fixq_le. lia.
    - exfalso. assert (Z : (fixq e N <= fixq e 0)%Q). { rewrite fixq_0. rewrite <- Hx. setoid_replace 0%Q with (0 * inject_Z Y)%Q by ring. apply Qmult_le_compat_r; [apply Qle_trans with q; assumption|]. change 0%Q with (inject_Z 0). rewrite <- Zle_Qle. lia. }
      apply fixq_le in Z. nia.
  Qed.
End Core.
Lemma decode_finite E F p : 1 <= E -> 1 <= F -> wf (E + F + 3) p -> finite_v (decode E F p) ->
  (exists s, decode E F p = Zero s) \/ exists s m e, decode E F p = Num s m e /\ 2 ^ F <= m < 2 ^ (F + 1).
Proof.
  intros HE HF Hp Fi. destruct (pack_view E F p HE HF Hp) as [fl [s [e [f [O ->]]]]]. rewrite decode_pack in * by assumption. destruct O as (_ & _ & Hfl & _ & Hf).
  destruct (fl =? 0); [left; exists s; reflexivity|]. destruct (fl =? 1); [right; exists s, (2 ^ F + f), (e - bias E - F); split; [reflexivity|rewrite pow2_S by lia; lia]|]. destruct (fl =? 2); destruct Fi.
Qed.
Lemma faithful_core E F s e R N Y x : 1 <= E -> 1 <= F -> 0 < Y -> 2 ^ F <= R <= 2 ^ (F + 1) -> 2 ^ F * Y <= N -> - Y < R * Y - N < Y -> (x * inject_Z Y == fixq e (sgn s N))%Q ->
  faithful E F x (fixq e (sgn s R)).
Proof.
  intros HE HF HY HR HN Hd Hx p Hp Fi. assert (HF0 : 0 <= F) by lia. pose proof (pow2_pos F HF0) as PF.
  destruct s; unfold sgn in *.
  - (* negative: reflect *)
    assert (Hx' : (- x * inject_Z Y == fixq e N)%Q) by (rewrite fixq_opp in Hx; setoid_replace (- x * inject_Z Y)%Q with (- (x * inject_Z Y))%Q by ring; rewrite Hx; ring).
    assert (G : ((- qval (decode E F p) <= - x)%Q -> (- qval (decode E F p) <= fixq e R)%Q) /\ ((- x <= - qval (decode E F p))%Q -> (fixq e R <= - qval (decode E F p))%Q)).
    { destruct (decode_finite E F p HE HF Hp Fi) as [[t D]|[t [m [f [D Hm]]]]]; rewrite D; cbn [qval].
      - apply (core_nonpos F e R N Y); try assumption. apply Qle_refl.
      - destruct t; unfold sgn; [rewrite fixq_opp, Qopp_involutive; apply (core_pos F e R N Y); assumption|]. apply (core_nonpos F e R N Y); try assumption.
        rewrite <- fixq_opp, <- (fixq_0 f). apply fixq_le. lia. }
    destruct G as [G1 G2]. rewrite fixq_opp. split; intros H.
    + apply Qopp_le_compat in H. specialize (G2 H). apply Qopp_le_compat in G2. rewrite Qopp_involutive in G2. exact G2.
    + apply Qopp_le_compat in H. specialize (G1 H). apply Qopp_le_compat in G1. rewrite Qopp_involutive in G1. exact G1.
  - destruct (decode_finite E F p HE HF Hp Fi) as [[t D]|[t [m [f [D Hm]]]]]; rewrite D; cbn [qval].
    + apply (core_nonpos F e R N Y); try assumption. apply Qle_refl.
    + destruct t; unfold sgn; [|apply (core_pos F e R N Y); assumption]. apply (core_nonpos F e R N Y); try assumption. rewrite <- (fixq_0 f). apply fixq_le. lia.
Qed.
Lemma inv_fixq e m s k e' : 0 < m -> 0 <= k -> e + e' + k = 0 -> (/ fixq e (sgn s m) * inject_Z m == fixq e' (sgn s (2 ^ k)))%Q.
Proof.
  intros Hm Hk He. assert (P := pow2Q_pos e). assert (Pm : ~ (inject_Z m == 0)%Q) by (change 0%Q with (inject_Z 0); rewrite inject_Z_injective; lia).
  assert (EE : ((2 # 1) ^ e' * (2 # 1) ^ k * (2 # 1) ^ e == 1)%Q). { rewrite <- !Qpower_plus by apply two_nz. replace (e' + k + e) with 0 by lia. reflexivity. }
  assert (K : (inject_Z (2 ^ k) == (2 # 1) ^ k)%Q) by (rewrite Zpower_Qpower by lia; reflexivity).
  assert (Pe : ~ ((2 # 1) ^ e == 0)%Q) by (intros Z; rewrite Z in P; discriminate P).
  unfold fixq, sgn. destruct s; rewrite ?inject_Z_opp, K.
  - setoid_replace (/ (- inject_Z m * (2 # 1) ^ e) * inject_Z m)%Q with (- / (2 # 1) ^ e)%Q by (field; split; assumption). 
    setoid_replace (- (2 # 1) ^ k * (2 # 1) ^ e')%Q with (- ((2 # 1) ^ e' * (2 # 1) ^ k * (2 # 1) ^ e * / (2 # 1) ^ e))%Q by (field; assumption). rewrite EE. field. assumption.
  - setoid_replace (/ (inject_Z m * (2 # 1) ^ e) * inject_Z m)%Q with (/ (2 # 1) ^ e)%Q by (field; split; assumption). 
    setoid_replace ((2 # 1) ^ k * (2 # 1) ^ e')%Q with ((2 # 1) ^ e' * (2 # 1) ^ k * (2 # 1) ^ e * / (2 # 1) ^ e)%Q by (field; assumption). rewrite EE. field. assumption.
Qed.

(** ** inv_table_newton on packed fields *)
Lemma inv_flags_range fl b : 0 <= fl < 4 -> 0 <= inv_flags fl b < 4.
Proof. intros H. unfold inv_flags. destruct (fl =? 0), (fl =? 1), (to_bool b), (fl =? 2); lia. Qed.
Lemma exp_field E ey (b : bool) : 2 <= E -> 0 <= ey < 2 ^ E ->
  (if b then fadd E (fsub E (fsub E (og E) 2) ey) 1 else fsub E (fsub E (og E) 2) ey) = (2 ^ E - 3 - ey + Z.b2z b) mod 2 ^ E.
Proof.
  intros HE He. rewrite !fsub_eq, fadd_eq, og_eq by lia. rewrite Zminus_mod_idemp_l. replace (2 ^ E - 1 - 2 - ey) with (2 ^ E - 3 - ey) by lia. destruct b; cbn [Z.b2z]; [apply Zplus_mod_idemp_l|rewrite Z.add_0_r; reflexivity].
Qed.
(** What both functions compute: R is the reciprocal of the fraction in units of 2^-(F+1). *)
Definition recip_form (E F w fl : Z) (s : bool) (ey f R : Z) : Z :=
  pack E F (inv_flags fl (Z.b2z (ey =? 2 ^ E - 1))) s ((2 ^ E - 3 - ey + Z.b2z (R =? 2 ^ (F + 1))) mod 2 ^ E) (R mod 2 ^ F).
Lemma inv_newton_pack E F w fl s ey f : 2 <= E -> 7 <= F <= 62 -> 8 <= w -> index_bits (F + 1) <= w -> okf E w fl ey f ->
  exists R, good_frac (F + 1) w R (2 ^ w + f) /\ 0 <= R mod 2 ^ F < 2 ^ F /\
    inv_table_newton E F E w (pack E w fl s ey f) = Some (recip_form E F w fl s ey f R).
Proof.
  intros HE HF Hw Hi O. assert (O' := O). destruct O' as (_ & _ & Hfl & He & Hf).
  assert (HY : 2 ^ w <= 2 ^ w + f < 2 ^ (w + 1)) by (rewrite pow2_S by lia; lia).
  destruct (table_newton_good (F + 1) w (2 ^ w + f) ltac:(lia) Hw Hi HY) as [R [T G]]. exists R. split; [exact G|]. split; [apply mod_pow_bound; lia|].
  unfold inv_table_newton. rewrite Z.eqb_refl. cbn [assert_ bind]. cbv zeta. rewrite get_flags_pack, get_sign_pack, get_exp_pack, get_frac_pack by assumption.
  rewrite opad_hi_eq by lia. change (2 ^ 1 - 1) with 1. replace (1 * 2 ^ w + f) with (2 ^ w + f) by lia. replace (- F - 1) with (- (F + 1)) by lia. rewrite T. cbn [bind].
  destruct G as [G1 _]. replace (F + 1 - 1) with F in G1 by lia. pose proof (pow2_pos F ltac:(lia)) as PF. assert (P1 := pow2_S F ltac:(lia)). assert (P2 : 2 ^ (F + 2) = 4 * 2 ^ F) by (rewrite pow2_add by lia; change (2 ^ 2) with 4; lia).
  rewrite drop_msbs_ok by lia. cbn [bind]. replace (F + 2 - 2) with F by lia. assert (PE : 4 <= 2 ^ E) by (change 4 with (2 ^ 2); apply pow2_le; lia).
  rewrite !of_int_ok by lia. cbn [bind]. unfold take_msb. rewrite get_bit_ok by lia. cbn [bind]. replace (F + 2 - 1) with (F + 1) by lia.
  assert (M : (R / 2 ^ (F + 1)) mod 2 = Z.b2z (R =? 2 ^ (F + 1))).
  { destruct (R =? 2 ^ (F + 1)) eqn:EQ; [apply Z.eqb_eq in EQ; rewrite EQ, Z.div_same by lia; reflexivity|]. rewrite Z.div_small by lia. reflexivity. }
  rewrite M, to_bool_b2z. rewrite exp_field by lia. unfold feq. rewrite og_eq by lia. f_equal. unfold recip_form. apply mk_pack; [lia|lia|apply mod_pow_bound; lia|apply mod_pow_bound; lia].
Qed.
(** ** Faithful in range *)
Lemma bias_twice E : 1 <= E -> 2 ^ E = 2 * bias E + 2.
Proof. intros H. unfold bias. replace E with (E - 1 + 1) at 1 by lia. rewrite pow2_S by lia. lia. Qed.
Definition recip_op (op : Z -> Z -> Z -> Z -> Z -> option Z) (E F w : Z) : Prop := forall fl s ey f, okf E w fl ey f ->
  exists R, good_frac (F + 1) w R (2 ^ w + f) /\ 0 <= R mod 2 ^ F < 2 ^ F /\ op E F E w (pack E w fl s ey f) = Some (recip_form E F w fl s ey f R).
Lemma recip_faithful op E F w y s m e : 2 <= E -> 1 <= F -> 1 <= w -> recip_op op E F w -> wf (E + w + 3) y -> decode E w y = Num s m e ->
  e + w <= emax E - 2 \/ (e + w = emax E - 1 /\ m = 2 ^ w) ->
  exists r m' e', op E F E w y = Some r /\ wf (E + F + 3) r /\ decode E F r = Num s m' e' /\ faithful E F (/ qval (decode E w y)) (qval (decode E F r)).
Proof.
  intros HE HF Hw HO Hy D He. destruct (pack_view E w y ltac:(lia) ltac:(lia) Hy) as [fl [t [ey [f [O ->]]]]].
  rewrite decode_pack in D by assumption. assert (O' := O). destruct O' as (_ & _ & Hfl & Hey & Hf).
  destruct (fl =? 0) eqn:F0; [discriminate|]. destruct (fl =? 1) eqn:F1; [|destruct (fl =? 2); discriminate]. apply Z.eqb_eq in F1. subst fl. injection D as <- <- <-.
  destruct (HO 1 t ey f O) as [R [G [Rm EQ]]]. rewrite EQ. unfold recip_form. unfold emax in He. pose proof (bias_twice E ltac:(lia)) as B2.
  pose proof (pow2_pos w ltac:(lia)) as PW. pose proof (pow2_pos F ltac:(lia)) as PF. pose proof (pow2_S F ltac:(lia)) as PF1. destruct G as [G1 G2]. replace (F + 1 - 1) with F in G1 by lia.
  unfold inv_flags. replace (ey =? 2 ^ E - 1) with false by lia. cbn [Z.eqb to_bool Z.b2z].
  assert (NR : ey = 2 ^ E - 2 -> R = 2 ^ (F + 1)). { intros A. assert (f = 0) by lia. subst f. rewrite Z.add_0_r in G2. rewrite (pow2_add (F + 1) w) in G2 by lia. nia. }
  remember (2 ^ E - 3 - ey + Z.b2z (R =? 2 ^ (F + 1))) as c. assert (Hc : 0 <= c < 2 ^ E) by (destruct (R =? 2 ^ (F + 1)) eqn:Q; cbn [Z.b2z] in Heqc; lia).
  rewrite (Z.mod_small c) by exact Hc.
  assert (OR : okf E F 1 c (R mod 2 ^ F)) by (repeat split; lia).
  exists (pack E F 1 t c (R mod 2 ^ F)), (2 ^ F + R mod 2 ^ F), (c - bias E - F). split; [reflexivity|]. split; [apply pack_wf; exact OR|].
  rewrite (decode_pack E F) by exact OR. cbn [Z.eqb Pos.eqb]. split; [reflexivity|]. rewrite decode_pack by assumption. cbn [Z.eqb Pos.eqb qval].
  remember (2 ^ E - 3 - ey - bias E - F) as e'.
  assert (V : (fixq (c - bias E - F) (sgn t (2 ^ F + R mod 2 ^ F)) == fixq e' (sgn t R))%Q).
  { destruct (R =? 2 ^ (F + 1)) eqn:Q; cbn [Z.b2z] in Heqc.
    - apply Z.eqb_eq in Q. rewrite Q. rewrite PF1, Z.mod_mul by lia. replace (c - bias E - F) with (e' + 1) by lia. rewrite <- fixq_scale by lia. change (2 ^ 1) with 2. replace (sgn t (2 ^ F + 0) * 2) with (sgn t (2 * 2 ^ F)) by (unfold sgn; destruct t; lia). reflexivity.
    - replace (c - bias E - F) with e' by lia. replace (2 ^ F + R mod 2 ^ F) with R; [reflexivity|]. apply Z.eqb_neq in Q. assert (R / 2 ^ F = 1) by (symmetry; apply (Z.div_unique R (2 ^ F) 1 (R - 2 ^ F)); lia). pose proof (div_mod_eq R (2 ^ F) PF). nia. }
  assert (FC : faithful E F (/ fixq (ey - bias E - w) (sgn t (2 ^ w + f))) (fixq e' (sgn t R))).
  { apply (faithful_core E F t e' R (2 ^ (F + 1 + w)) (2 ^ w + f)); try lia.
    - rewrite (pow2_add (F + 1) w), PF1 by lia. nia.
    - apply inv_fixq; lia. }
  intros p Hp Fi. destruct (FC p Hp Fi) as [A B]. split; intros H; rewrite V; [exact (A H)|exact (B H)].
Qed.
(** ** Special values, underflow and the wrap *)
Lemma recip_special op E F w y : 2 <= E -> 1 <= F -> 1 <= w -> recip_op op E F w -> wf (E + w + 3) y ->
  exists r, op E F E w y = Some r /\ wf (E + F + 3) r /\
    match decode E w y with
    | NaN => decode E F r = NaN
    | Inf s => decode E F r = Zero s
    | Zero s => decode E F r = Inf s
    | Num s m e => (e + w = emax E -> decode E F r = Zero s)
    end.
Proof.
  intros HE HF Hw HO Hy. destruct (pack_view E w y ltac:(lia) ltac:(lia) Hy) as [fl [t [ey [f [O ->]]]]]. assert (O' := O). destruct O' as (_ & _ & Hfl & Hey & Hf).
  destruct (HO fl t ey f O) as [R [G [Rm EQ]]]. rewrite EQ. unfold recip_form. eexists. split; [reflexivity|].
  pose proof (mod_pow_bound (2 ^ E - 3 - ey + Z.b2z (R =? 2 ^ (F + 1))) E ltac:(lia)) as Hc. remember ((2 ^ E - 3 - ey + Z.b2z (R =? 2 ^ (F + 1))) mod 2 ^ E) as c.
  assert (OR : okf E F (inv_flags fl (Z.b2z (ey =? 2 ^ E - 1))) c (R mod 2 ^ F)) by (pose proof (inv_flags_range fl (Z.b2z (ey =? 2 ^ E - 1)) Hfl); repeat split; lia).
  split; [apply pack_wf; exact OR|]. rewrite (decode_pack E F) by exact OR. rewrite decode_pack by assumption. unfold inv_flags. rewrite to_bool_b2z.
  apply flags_cases in Hfl. destruct Hfl as [->|[->|[->| ->]]]; cbn [Z.eqb Pos.eqb]; try reflexivity.
  intros A. unfold emax in A. pose proof (bias_twice E ltac:(lia)). replace (ey =? 2 ^ E - 1) with true by lia. reflexivity.
Qed.
(** One exponent below: unless the reciprocal rounds up to the power of two, the exponent wraps to the top. *)
Lemma recip_wraps op E F w y s m e : 2 <= E -> 1 <= F -> 1 <= w -> recip_op op E F w -> wf (E + w + 3) y -> decode E w y = Num s m e ->
  e + w = emax E - 1 -> 2 ^ w + 2 ^ (w - 1) <= m ->
  exists r m' e', op E F E w y = Some r /\ decode E F r = Num s m' e' /\ e' + F = emax E.
Proof.
  intros HE HF Hw HO Hy D He Hm. destruct (pack_view E w y ltac:(lia) ltac:(lia) Hy) as [fl [t [ey [f [O ->]]]]].
  rewrite decode_pack in D by assumption. assert (O' := O). destruct O' as (_ & _ & Hfl & Hey & Hf).
  destruct (fl =? 0) eqn:F0; [discriminate|]. destruct (fl =? 1) eqn:F1; [|destruct (fl =? 2); discriminate]. apply Z.eqb_eq in F1. subst fl. injection D as <- <- <-.
  destruct (HO 1 t ey f O) as [R [G [Rm EQ]]]. rewrite EQ. unfold recip_form. unfold emax in *. pose proof (bias_twice E ltac:(lia)) as B2.
  assert (R <> 2 ^ (F + 1)). { intros ->. destruct G as [_ G]. rewrite (pow2_add (F + 1) w) in G by lia. pose proof (pow2_S (w - 1) ltac:(lia)) as Pw. replace (w - 1 + 1) with w in Pw by lia. pose proof (pow2_pos (w - 1) ltac:(lia)).
    assert (4 <= 2 ^ (F + 1)) by (change 4 with (2 ^ 2); apply pow2_le; lia). nia. }
  unfold inv_flags. replace (ey =? 2 ^ E - 1) with false by lia. replace (R =? 2 ^ (F + 1)) with false by lia. cbn [Z.eqb to_bool Z.b2z Pos.eqb].
  replace (2 ^ E - 3 - ey + 0) with (-1) by lia. assert (PE := pow2_pos E ltac:(lia)). replace (-1 mod 2 ^ E) with (2 ^ E - 1) by (apply (Z.mod_unique _ _ (-1)); lia).
  eexists _, (2 ^ F + R mod 2 ^ F), (2 ^ E - 1 - bias E - F). split; [reflexivity|]. rewrite decode_pack by (repeat split; lia). split; [reflexivity|lia].
Qed.
Lemma newton_op E F w : 2 <= E -> 7 <= F <= 62 -> 8 <= w -> index_bits (F + 1) <= w -> recip_op inv_table_newton E F w.
Proof. intros HE HF Hw Hi fl s ey f O. exact (inv_newton_pack E F w fl s ey f HE HF Hw Hi O). Qed.

(** ** The direct table *)
Lemma rne_div_err n d : 0 < d -> - d <= 2 * (rne_div n d * d - n) <= d.
Proof.
  intros Hd. unfold rne_div. cbv zeta. pose proof (div_mod_eq n d Hd). pose proof (Z.mod_pos_bound n d Hd). destruct (2 * (n mod d) <? d) eqn:A; [nia|]. destruct (d <? 2 * (n mod d)) eqn:B; [nia|]. destruct (Z.even _); nia.
Qed.
(** Quotient, then rounding: v = 2^53/a rounded, vr = v 2^r/2^53 rounded. *)
Lemma direct_err w r A v vr : 1 <= w -> 1 <= r <= 51 -> 2 ^ w <= A < 2 ^ (w + 1) -> v = dbl_quot (2 ^ w) A -> vr = dbl_round v r ->
  2 ^ 52 <= v <= 2 ^ 53 /\ - (2 ^ 53 * A + 2 ^ r * A) <= 2 ^ 54 * (vr * A - 2 ^ (r + w)) <= 2 ^ 53 * A + 2 ^ r * A.
Proof.
  intros Hw Hr HA Ev Er. pose proof (pow2_pos w ltac:(lia)) as PW. pose proof (pow2_pos r ltac:(lia)) as PR. rewrite pow2_S in HA by lia.
  pose proof (rne_div_err (2 ^ w * 2 ^ 53) A ltac:(lia)) as E1. unfold dbl_quot in Ev. rewrite <- Ev in E1. unfold dbl_round in Er.
  pose proof (div_mod_eq (2 * v * 2 ^ r + 2 ^ 53) (2 ^ 54) ltac:(lia)) as E2. pose proof (Z.mod_pos_bound (2 * v * 2 ^ r + 2 ^ 53) (2 ^ 54) ltac:(lia)) as E3. rewrite <- Er in E2.
  split.
  - remember (2 ^ w) as a. change (2 ^ 53) with 9007199254740992 in *. change (2 ^ 52) with 4503599627370496. clear E2 E3. split; nia.
  - rewrite pow2_add by lia. change (2 ^ 54) with (2 * 2 ^ 53) in *. remember (2 ^ 53) as K. remember ((2 * v * 2 ^ r + K) mod (2 * K)) as z. remember (2 ^ r) as b. remember (2 ^ w) as a.
    assert (0 < K) by (subst K; reflexivity).
    assert (X : 2 * K * (vr * A - b * a) = (2 * v * b + K - z) * A - 2 * K * b * a) by (rewrite E2; ring).
    rewrite X. replace ((2 * v * b + K - z) * A - 2 * K * b * a) with (b * (2 * (v * A - a * K)) + (K - z) * A) by ring.
    assert (- (b * A) <= b * (2 * (v * A - a * K)) <= b * A) by nia. assert (- (K * A) <= (K - z) * A <= K * A) by nia. lia.
Qed.
Lemma direct_good w r A v vr : 1 <= w -> 1 <= r <= 51 -> 2 ^ w <= A < 2 ^ (w + 1) -> v = dbl_quot (2 ^ w) A -> vr = dbl_round v r -> good_frac r w vr A.
Proof.
  intros Hw Hr HA Ev Er. destruct (direct_err w r A v vr Hw Hr HA Ev Er) as [B1 B2]. pose proof (pow2_pos w ltac:(lia)) as PW. pose proof (pow2_pos r ltac:(lia)) as PR.
  assert (L : 2 ^ r <= 2 ^ 51) by (apply pow2_le; lia). assert (RA : 2 ^ r * A <= 2 ^ 51 * A) by (apply Z.mul_le_mono_nonneg_r; lia).
  assert (X : - A < vr * A - 2 ^ (r + w) < A). { change (2 ^ 54) with 18014398509481984 in B2. change (2 ^ 53) with 9007199254740992 in B2. change (2 ^ 51) with 2251799813685248 in RA. lia. }
  apply good_frac_res; [lia|lia|exact HA| |exact X]. unfold dbl_round in Er. split.
  - rewrite Er. apply Z.div_pos; [|lia]. assert (0 <= 2 * v * 2 ^ r) by (apply Z.mul_nonneg_nonneg; lia). lia.
  - rewrite Er. apply Z.lt_succ_r. apply Z.div_lt_upper_bound; [lia|]. assert (2 * v * 2 ^ r <= 2 * 2 ^ 53 * 2 ^ r) by (apply Z.mul_le_mono_nonneg_r; lia). change (2 ^ 54) with (2 * 2 ^ 53) in *. lia.
Qed.
Lemma table_ok_all f n : (forall i, 0 <= i < Z.of_nat n -> f i <> None) -> table_ok f n = true.
Proof. induction n as [|n IH]; intros H; [reflexivity|]. cbn [table_ok]. destruct (f (Z.of_nat n)) eqn:E; [apply IH; intros i Hi; apply H; lia|]. exfalso. apply (H (Z.of_nat n)); [lia|exact E]. Qed.
Lemma direct_entry_ok w r i : 1 <= w -> 1 <= r <= 51 -> 0 <= i < 2 ^ w -> exists R, direct_entry (- r) (- w) i = Some R /\ R = dbl_round (dbl_quot (2 ^ w) (2 ^ w + i)) r /\ good_frac r w R (2 ^ w + i).
Proof.
  intros Hw Hr Hi. assert (HA : 2 ^ w <= 2 ^ w + i < 2 ^ (w + 1)) by (rewrite pow2_S by lia; lia).
  destruct (direct_err w r (2 ^ w + i) _ _ Hw Hr HA eq_refl eq_refl) as [B1 _]. pose proof (direct_good w r (2 ^ w + i) _ _ Hw Hr HA eq_refl eq_refl) as G.
  exists (dbl_round (dbl_quot (2 ^ w) (2 ^ w + i)) r). split; [|split; [reflexivity|exact G]].
  unfold direct_entry. cbv zeta. replace (1 - - r <=? 52) with true by lia. cbn [assert_ bind]. replace (- - w) with w by lia. replace (- - r) with r by lia.
  replace (_ && _) with true by lia. cbn [assert_ bind]. apply of_int_ok; [lia|]. replace (1 - - r) with (r + 1) by lia. rewrite pow2_S by lia. destruct G as [G _]. pose proof (pow2_pos (r - 1) ltac:(lia)). lia.
Qed.
Lemma direct_table_ok w r i : 1 <= w <= 30 -> 1 <= r <= 51 -> 0 <= i < 2 ^ w -> direct_table (- r) (- w) (2 ^ w + i) = direct_entry (- r) (- w) i.
Proof.
  intros Hw Hr Hi. unfold direct_table. cbv zeta. replace (1 - - w - 1) with w by lia. replace (w <=? 30) with true by lia. cbn [assert_ bind].
  rewrite table_ok_all; [|intros j Hj; rewrite Z2Nat.id in Hj by lia; destruct (direct_entry_ok w r j ltac:(lia) Hr Hj) as [R [-> _]]; discriminate]. cbn [assert_ bind].
  replace (1 - - w) with (w + 1) by lia. pose proof (pow2_pos w ltac:(lia)).
  destruct (split_msb w (2 ^ w + i)) as [-> ->]; [lia|rewrite pow2_S by lia; lia|]. cbn [bind]. replace (2 ^ w + i) with (1 * 2 ^ w + i) by lia. rewrite join_div, join_mod by lia. reflexivity.
Qed.
(** With w <= F+1 only 1 itself has reciprocal 1. *)
Lemma direct_one w F i R : 1 <= w <= F + 1 -> F <= 50 -> 0 <= i < 2 ^ w -> R = dbl_round (dbl_quot (2 ^ w) (2 ^ w + i)) (F + 1) -> (i =? 0) = (R =? 2 ^ (F + 1)).
Proof.
  intros Hw HF Hi ER. assert (HA : 2 ^ w <= 2 ^ w + i < 2 ^ (w + 1)) by (rewrite pow2_S by lia; lia).
  destruct (direct_err w (F + 1) (2 ^ w + i) _ R ltac:(lia) ltac:(lia) HA eq_refl ER) as [_ B2]. pose proof (pow2_pos w ltac:(lia)) as PW. pose proof (pow2_pos (F + 1) ltac:(lia)) as PR.
  destruct (i =? 0) eqn:I0; symmetry.
  - apply Z.eqb_eq in I0. subst i. apply Z.eqb_eq. rewrite ER. unfold dbl_round, dbl_quot. rewrite Z.add_0_r.
    assert (Q : rne_div (2 ^ w * 2 ^ 53) (2 ^ w) = 2 ^ 53). { rewrite Z.mul_comm. apply rne_div_exact. lia. }
    rewrite Q. replace (2 * 2 ^ 53 * 2 ^ (F + 1) + 2 ^ 53) with (2 ^ 53 + 2 ^ (F + 1) * 2 ^ 54) by (change (2 ^ 54) with (2 * 2 ^ 53); ring). rewrite Z.div_add by lia. reflexivity.
  - apply Z.eqb_neq. intros ->. apply Z.eqb_neq in I0. rewrite (pow2_add (F + 1) w) in B2 by lia.
    replace (2 ^ (F + 1) * (2 ^ w + i) - 2 ^ (F + 1) * 2 ^ w) with (2 ^ (F + 1) * i) in B2 by ring.
    (* 2^54 2^r i <= (2^53 + 2^r)(2^w+i) *)
    assert (L : 2 ^ w <= 2 ^ (F + 1)) by (apply pow2_le; lia). assert (L2 : 2 ^ (F + 1) <= 2 ^ 51) by (apply pow2_le; lia). change (2 ^ 54) with 18014398509481984 in B2. change (2 ^ 53) with 9007199254740992 in B2. change (2 ^ 51) with 2251799813685248 in L2.
    remember (2 ^ (F + 1)) as b. remember (2 ^ w) as a. assert (b * (a + i) <= 2251799813685248 * (a + i)) by (apply Z.mul_le_mono_nonneg_r; lia). assert (1 <= i) by lia.
    (* a + i <= b + i; (2^53+2^51)(b+i) < 2^54 b i unless b i small *)
    assert (18014398509481984 * (b * i) <= 11258999068426240 * (b + i)) by lia. nia.
Qed.
