(** Round trips through double; to_double_approx of a fw_uint; nextafter. *)
From Coq Require Import ZArith Bool Lia.
From Verif Require Import Fw FwLemmas FwWord FwWordProofs FwWordProofs2 Spec SpecLemmas SpecDbl Flopoco FlopocoLemmas AddLemmas MpfrLib Mpfr MpfrProofs MpfrProofs2 Dbl DblProofs DblProofs2.
From Verif Require ValueLemmas.
Open Scope Z_scope.

(** A double with a value of the format gives that value back. *)
Lemma of_double_exact E F s m e v : 1 <= E <= 31 -> 1 <= F <= 31 -> 2 ^ F <= m < 2 ^ (F + 1) -> emin E <= e + F <= emax E -> -1022 <= e + F ->
  dbl v -> veq v (Num s m e) -> exists r, fl_of_double E F v = Some r /\ wf (E + F + 3) r /\ decode E F r = Num s m e.
Proof.
  intros HE HF Hm R N D V. destruct v as [|t|t|t n f]; cbn [veq] in V; try contradiction. destruct V as [-> V]. unfold cmp_num in V. cbv zeta in V. apply Z.compare_eq_iff in V.
  pose proof (pow2_pos F ltac:(lia)) as PF. rewrite pow2_S in Hm by lia. cbn [dbl] in D.
  (* the double is normal and its last exponent is e + F - 52 *)
  assert (K : n * 2 ^ (f - Z.min f e) = m * 2 ^ (e - Z.min f e)) by lia. clear V.
  assert (LN : Z.log2 n + f = F + e).
  { assert (LM : Z.log2 m = F) by (apply Z.log2_unique; [lia|]; rewrite Z.pow_succ_r by lia; lia). assert (0 < n) by (destruct D; lia). assert (Q : Z.log2 (n * 2 ^ (f - Z.min f e)) = Z.log2 (m * 2 ^ (e - Z.min f e))) by (rewrite K; reflexivity). rewrite !Z.log2_mul_pow2 in Q by lia. lia. }
  assert (Dn : 2 ^ 52 <= n < 2 ^ 53 /\ f = e + F - 52).
  { destruct D as [[D1 D2]|[D1 D2]].
    - split; [exact D1|]. assert (Z.log2 n = 52) by (apply Z.log2_unique; [lia|]; exact D1). lia.
    - exfalso. assert (Z.log2 n < 52) by (apply Z.log2_lt_pow2; lia). lia. }
  destruct Dn as [Dn ->]. rewrite Z.min_l in K by lia. replace (e + F - 52 - (e + F - 52)) with 0 in K by lia. replace (e - (e + F - 52)) with (52 - F) in K by lia. change (2 ^ 0) with 1 in K. rewrite Z.mul_1_r in K.
  destruct (of_double_normal E F s n (e + F - 52) HE HF Dn) as [r [A [B C]]]. exists r. split; [exact A|]. split; [exact B|]. rewrite C. rewrite K. rewrite Z.div_mul by (pose proof (pow2_pos (52 - F) ltac:(lia)); lia). unfold finish. replace (_ <? emin E) with false by lia. replace (emax E <? _) with false by lia. f_equal. lia.
Qed.
(** Out and back through to_double_approx. *)
Lemma double_round_trip E F x : 1 <= E <= 10 -> 1 <= F <= 31 -> wf (E + F + 3) x -> (match decode E F x with Inf _ => False | Zero s => s = false | _ => True end) ->
  exists v r, to_double_approx E F x = Some v /\ fl_of_double E F v = Some r /\ wf (E + F + 3) r /\ decode E F r = decode E F x.
Proof.
  intros HE HF Hx H. destruct (to_double_approx_exact E F x ltac:(lia) ltac:(lia) Hx) as [v [A [B C]]]. exists v. destruct (pack_view E F x ltac:(lia) ltac:(lia) Hx) as [fl [s [ey [f [O ->]]]]]. rewrite decode_pack in * by assumption.
  rewrite A. destruct (fl =? 0) eqn:Q0.
  { subst s. destruct v as [|t|t|t m e]; cbn [veq] in C; try contradiction. subst t. destruct (of_double_special E F (Zero false) ltac:(lia) ltac:(lia) I) as [r G]. exists r. tauto. }
  destruct (fl =? 1) eqn:Q1. 2: { destruct (fl =? 2); [contradiction|]. destruct v as [|t|t|t m e]; cbn [veq] in C; try contradiction. destruct (of_double_special E F NaN ltac:(lia) ltac:(lia) I) as [r G]. exists r. tauto. }
  destruct O as (_ & _ & _ & He & Hf). assert (2 ^ E <= 2 ^ 10) by (apply pow2_le; lia). change (2 ^ 10) with 1024 in *. pose proof (bias_small E ltac:(lia)) as Bi. pose proof (pow2_S F ltac:(lia)).
  destruct (of_double_exact E F s (2 ^ F + f) (ey - bias E - F) v ltac:(lia) HF ltac:(lia) ltac:(unfold emin, emax; lia) ltac:(lia) B C) as [r G]. exists r. tauto.
Qed.
(** ** fw_uint *)
Lemma dbl_round_scale s m e j : 0 <= j -> 0 < m -> dbl_round s (m * 2 ^ j) (e - j) = dbl_round s m e.
Proof.
  intros J Hm. unfold dbl_round. rewrite Z.log2_mul_pow2 by lia. replace (j + Z.log2 m + (e - j) - 52) with (Z.log2 m + e - 52) by lia. cbv zeta. remember (Z.max (Z.log2 m + e - 52) (-1074)) as q.
  replace (rne_div (num2 (m * 2 ^ j) (e - j - q)) (den2 1 (e - j - q))) with (rne_div (num2 m (e - q)) (den2 1 (e - q))); [reflexivity|].
  apply rne_div_cross; [apply den2_pos; lia|apply den2_pos; lia|]. symmetry. replace (e - j - q) with (e - q - j) by lia. apply ValueLemmas.num2_scale. exact J.
Qed.
Lemma dbl_round_veq s m e n f : 0 < m -> 0 < n -> veq (Num s m e) (Num s n f) -> dbl_round s m e = dbl_round s n f.
Proof.
  intros Hm Hn [_ V]. unfold cmp_num in V. cbv zeta in V. apply Z.compare_eq_iff in V. rewrite <- (dbl_round_scale s m e (e - Z.min e f)) by lia. rewrite <- (dbl_round_scale s n f (f - Z.min e f)) by lia. rewrite V. f_equal. lia.
Qed.
(** ldexp of a converted integer below 2^53. *)
Lemma ldexp_limb v k : 0 < v < 2 ^ 53 -> 0 <= k <= 900 -> exists m e, dbl_ldexp (dbl_of_u64 v) k = Num false m e /\ 0 < m /\ veq (Num false m e) (Num false v k).
Proof.
  intros Hv Hk. destruct (ldexp_u64 v Hv) as [j [J [-> [U L]]]]. cbn [dbl_ldexp]. pose proof (pow2_pos j J) as PJ. assert (P : 0 < v * 2 ^ j) by nia. assert (JL : j <= 52) by (rewrite Z.log2_mul_pow2 in L by lia; pose proof (Z.log2_nonneg v); lia).
  destruct (dbl_exact false (v * 2 ^ j) (- j + k) ltac:(lia) ltac:(lia) ltac:(lia)) as [J2 R]. cbv zeta in *. rewrite L in *. remember (- j + k - Z.max (52 + (- j + k) - 52) (-1074)) as i. replace i with 0 in * by lia. rewrite R. change (2 ^ 0) with 1. rewrite Z.mul_1_r, Z.sub_0_r. do 2 eexists. split; [reflexivity|]. split; [exact P|]. replace (- j + k) with (k - j) by lia. apply veq_scale. exact J.
Qed.
Lemma fw_dbl_small W x : 0 <= W <= 52 -> wf W x -> exists v, fw_to_double_approx W x = Some v /\ match v with Zero s => s = false /\ x = 0 | Num s m e => veq v (Num false x 0) | _ => False end.
Proof.
  intros HW Hx. unfold wf in Hx. assert (2 ^ W <= 2 ^ 52) by (apply pow2_le; lia). unfold fw_to_double_approx. replace (W <=? 52) with true by lia. unfold m_to_uint64, wrap. assert (2 ^ 52 < 2 ^ 53) by reflexivity. assert (2 ^ 53 < 2 ^ 64) by reflexivity. rewrite Z.mod_small by lia. rewrite Z.eqb_refl. cbn [assert_ bind]. eexists. split; [reflexivity|].
  destruct (Z.eq_dec x 0) as [->|N]; [split; reflexivity|]. destruct (ldexp_u64 x ltac:(lia)) as [j [J [-> _]]]. replace (- j) with (0 - j) by lia. apply veq_scale. exact J.
Qed.
Lemma limb_bits W x : 33 <= W <= 128 -> 0 <= x < 2 ^ W -> m_get_bits W 31 0 x = Some (x mod 2 ^ 32) /\ m_shr W x 32 = Some (x / 2 ^ 32).
Proof.
  intros HW Hx. rewrite m_get_bits_ok by lia. rewrite m_shr_ok by lia. split; [|reflexivity]. f_equal. change (2 ^ 0) with 1. rewrite Z.div_1_r. reflexivity.
Qed.
Lemma dbl_of_0 : dbl_of_u64 0 = Zero false.
Proof. reflexivity. Qed.
Lemma fw_loop_S n W x e res : x <> 0 -> 33 <= W <= 128 -> 0 <= x < 2 ^ W ->
  fw_dbl_loop (S n) W x e res = fw_dbl_loop n W (x / 2 ^ 32) (e + 32) (dbl_add_pos res (dbl_ldexp (dbl_of_u64 (x mod 2 ^ 32)) e)).
Proof.
  intros N HW Hx. cbn [fw_dbl_loop]. replace (x =? 0) with false by lia. destruct (limb_bits W x HW Hx) as [-> ->]. cbn [bind]. unfold m_to_uint32. change (32 <=? 32) with true. cbn [assert_ bind]. unfold wrap. rewrite Z.mod_mod by lia. reflexivity.
Qed.
Lemma fw_loop_0 n W e res : fw_dbl_loop n W 0 e res = Some res.
Proof. destruct n; reflexivity. Qed.
Lemma fw_dbl_64 W x : 53 <= W <= 64 -> 0 < x < 2 ^ W -> fw_to_double_approx W x = Some (dbl_round false x 0).
Proof.
  intros HW Hx. assert (2 ^ W <= 2 ^ 64) by (apply pow2_le; lia). unfold fw_to_double_approx. replace (W <=? 52) with false by lia. rewrite fw_loop_S by lia. change (0 + 32) with 32.
  assert (H32 : 0 < 2 ^ 32) by reflexivity. assert (HH : 2 ^ 64 = 2 ^ 32 * 2 ^ 32) by reflexivity. pose proof (Z.mod_pos_bound x (2 ^ 32) H32) as M. pose proof (Z.div_mod x (2 ^ 32) ltac:(lia)) as DM. assert (DB : 0 <= x / 2 ^ 32 < 2 ^ 32) by (split; [apply Z.div_pos; lia|apply Z.div_lt_upper_bound; lia]).
  remember (x mod 2 ^ 32) as lo. remember (x / 2 ^ 32) as hi. assert (H53 : 2 ^ 32 < 2 ^ 53) by reflexivity.
  assert (V0 : forall v k, 0 < v < 2 ^ 32 -> 0 <= k <= 900 -> exists m e, dbl_ldexp (dbl_of_u64 v) k = Num false m e /\ 0 < m /\ veq (Num false m e) (Num false v k)) by (intros; apply ldexp_limb; lia).
  (* a limb alone is exact *)
  assert (E1 : forall v k, 0 < v < 2 ^ 32 -> 0 <= k <= 900 -> dbl_ldexp (dbl_of_u64 v) k = dbl_round false v k).
  { intros v k Hv Hk. destruct (ldexp_u64 v ltac:(lia)) as [j [J [-> _]]]. cbn [dbl_ldexp]. replace (- j + k) with (k - j) by lia. apply dbl_round_scale; lia. }
  destruct (Z.eq_dec hi 0) as [Z1|N1].
  - rewrite Z1 in *. rewrite fw_loop_0. f_equal. assert (LX : lo = x) by lia. rewrite <- LX. clear Heqlo Heqhi. rewrite E1 by lia. unfold dbl_add_pos. destruct (dbl_round_sign false lo 0) as [[m [e ->]]|[G|G]]; [reflexivity|exfalso..].
    + destruct (V0 lo 0 ltac:(lia) ltac:(lia)) as [m [e [Q _]]]. rewrite E1 in Q by lia. congruence.
    + destruct (V0 lo 0 ltac:(lia) ltac:(lia)) as [m [e [Q _]]]. rewrite E1 in Q by lia. congruence.
  - assert (hi < 2 ^ W) by (apply Z.le_lt_trans with x; [subst hi; apply Z.div_le_upper_bound; nia|lia]). rewrite fw_loop_S by lia. replace (hi / 2 ^ 32) with 0 by (symmetry; apply Z.div_small; lia). rewrite Z.mod_small by lia. rewrite fw_loop_0. f_equal.
    destruct (V0 hi 32 ltac:(lia) ltac:(lia)) as [m [e [Q [Pm V]]]].
    destruct (Z.eq_dec lo 0) as [Z2|N2].
    + rewrite Z2. rewrite dbl_of_0. cbn [dbl_ldexp dbl_add_pos]. rewrite Q. rewrite <- Q, E1 by lia. rewrite <- (dbl_round_scale false hi 32 32) by lia. f_equal. lia.
    + destruct (V0 lo 0 ltac:(lia) ltac:(lia)) as [m2 [e2 [Q2 [Pm2 V2]]]]. rewrite Q, Q2. cbn [dbl_add_pos]. remember (Z.min e2 e) as k.
      destruct V as [_ V]. destruct V2 as [_ V2]. unfold cmp_num in V, V2. cbv zeta in V, V2. apply Z.compare_eq_iff in V. apply Z.compare_eq_iff in V2.
      apply dbl_round_veq; [pose proof (pow2_pos (e2 - k) ltac:(lia)); pose proof (pow2_pos (e - k) ltac:(lia)); nia|lia|]. split; [reflexivity|]. unfold cmp_num. cbv zeta. apply Z.compare_eq_iff.
      remember (Z.min k 0) as g. (* everything at exponent g *)
      assert (S1 : m2 * 2 ^ (e2 - g) = lo * 2 ^ (0 - g)).
      { replace (e2 - g) with (e2 - Z.min e2 0 + (Z.min e2 0 - g)) by lia. replace (0 - g) with (0 - Z.min e2 0 + (Z.min e2 0 - g)) by lia. rewrite !pow2_add by lia. rewrite !Z.mul_assoc. rewrite V2. reflexivity. }
      assert (S2 : m * 2 ^ (e - g) = hi * 2 ^ (32 - g)).
      { replace (e - g) with (e - Z.min e 32 + (Z.min e 32 - g)) by lia. replace (32 - g) with (32 - Z.min e 32 + (Z.min e 32 - g)) by lia. rewrite !pow2_add by lia. rewrite !Z.mul_assoc. rewrite V. reflexivity. }
      replace (32 - g) with (32 + (0 - g)) in S2 by lia. rewrite pow2_add in S2 by lia. rewrite Z.mul_add_distr_r. rewrite <- !Z.mul_assoc. rewrite <- !pow2_add by lia. replace (e2 - k + (k - g)) with (e2 - g) by lia. replace (e - k + (k - g)) with (e - g) by lia. rewrite S1, S2. rewrite DM. ring.
Qed.
(** From 65 bits on two roundings are too many. *)
Lemma fw_dbl_bad W : 65 <= W <= 128 -> exists x v, wf W x /\ fw_to_double_approx W x = Some v /\ v <> dbl_round false x 0.
Proof.
  intros HW. exists (2 ^ 64 + 2 ^ 63 + 2 ^ 11 + 1). eexists. split; [|split].
  - unfold wf. assert (2 ^ 65 <= 2 ^ W) by (apply pow2_le; lia). assert (2 ^ 64 + 2 ^ 63 + 2 ^ 11 + 1 < 2 ^ 65) by reflexivity. split; [discriminate|lia].
  - unfold fw_to_double_approx. replace (W <=? 52) with false by lia. assert (P : 2 ^ 65 <= 2 ^ W) by (apply pow2_le; lia). assert (2 ^ 64 + 2 ^ 63 + 2 ^ 11 + 1 < 2 ^ 65) by reflexivity. assert (0 < 2 ^ 64 + 2 ^ 63 + 2 ^ 11 + 1) by reflexivity.
    rewrite fw_loop_S by lia. set (x1 := (2 ^ 64 + 2 ^ 63 + 2 ^ 11 + 1) / 2 ^ 32). assert (x1 < 2 ^ 65 /\ 0 < x1) by (split; reflexivity). rewrite fw_loop_S by lia. set (x2 := x1 / 2 ^ 32). assert (x2 < 2 ^ 65 /\ 0 < x2) by (split; reflexivity). rewrite fw_loop_S by lia. replace (x2 / 2 ^ 32) with 0 by reflexivity. rewrite fw_loop_0. reflexivity.
  - vm_compute. discriminate.
Qed.
Lemma to_double_largest F : 1 <= F <= 52 -> exists x m e, wf (11 + F + 3) x /\ decode 11 F x = Num false m e /\ to_double 11 F x = Some (Inf false).
Proof.
  intros HF. pose proof (pow2_pos F ltac:(lia)) as PF. assert (O : okf 11 F 1 2047 0) by (split; [lia|]; split; [lia|]; split; [lia|]; split; [split; [lia|reflexivity]|lia]).
  exists (pack 11 F 1 false 2047 0). do 2 eexists. split; [apply pack_wf; exact O|]. split; [rewrite decode_pack by exact O; reflexivity|]. apply to_double_top; lia.
Qed.
Lemma to_double_smallest : exists x m e v, wf (11 + 52 + 3) x /\ decode 11 52 x = Num false m e /\ to_double 11 52 x = Some v /\ ~ veq v (decode 11 52 x).
Proof.
  exists (mk 11 52 1 0 0 1), (2 ^ 52 + 1), (-1075), (Num false (2 ^ 51) (-1074)). split; [split; [discriminate|reflexivity]|]. split; [reflexivity|]. split; [reflexivity|]. vm_compute. intros [_ H]. discriminate.
Qed.
Lemma of_double_inf E F s : 1 <= E <= 31 -> 1 <= F -> ~ exists r, fl_of_double E F (Inf s) = Some r /\ decode E F r = Inf s.
Proof. intros HE HF [r [A B]]. destruct (of_double_special E F (Inf s) HE HF I) as [r' [A' [_ B']]]. rewrite A in A'. injection A' as <-. congruence. Qed.
Lemma of_double_negzero E F : 1 <= E <= 31 -> 1 <= F -> ~ exists r, fl_of_double E F (Zero true) = Some r /\ decode E F r = Zero true.
Proof. intros HE HF [r [A B]]. destruct (of_double_special E F (Zero true) HE HF I) as [r' [A' [_ B']]]. rewrite A in A'. injection A' as <-. congruence. Qed.
