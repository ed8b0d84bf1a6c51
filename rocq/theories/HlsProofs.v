(** The synthesis back ends compute what the software back end computes. *)
From Coq Require Import ZArith Bool List Lia String Ascii.
From Verif Require Import Fw FwWord HlsInt Hls FwWordProofs FwWordProofs2 FwWordProofs3 SpecFw.
Import ListNotations.
Open Scope Z_scope.

Lemma SafeW_pos W : 1 <= SafeW W.
Proof. unfold SafeW. destruct (Z.leb_spec W 0); lia. Qed.
Lemma SafeW_eq W : 1 <= W -> SafeW W = W.
Proof. intros H. unfold SafeW. destruct (Z.leb_spec W 0); lia. Qed.
Lemma mod_pow_mod v W w : 0 <= W <= w -> (v mod 2 ^ w) mod 2 ^ W = v mod 2 ^ W.
Proof. intros H. replace w with (W + (w - W)) by lia. rewrite Z.pow_add_r by lia. symmetry. apply Znumtheory.Zmod_div_mod; [apply Z.pow_pos_nonneg; lia|apply Z.mul_pos_pos; apply Z.pow_pos_nonneg; lia|exists (2 ^ (w - W)); ring]. Qed.
Lemma low_mod w s v W : 0 <= W <= w -> low_bits w s v mod 2 ^ W = v mod 2 ^ W.
Proof.
  intros H. unfold low_bits. cbv zeta. destruct (s && _); [|apply mod_pow_mod; exact H].
  replace (2 ^ w) with (2 ^ (w - W) * 2 ^ W) at 2 by (rewrite <- Z.pow_add_r by lia; f_equal; lia).
  rewrite Zminus_mod, Z_mod_mult, Z.sub_0_r, Z.mod_mod by (apply Z.pow_nonzero; lia). apply mod_pow_mod. exact H.
Qed.
Lemma store_eq W x : store W x = bv x mod 2 ^ SafeW W.
Proof. unfold store, conv, mk, low_bits. cbn [bv andb]. reflexivity. Qed.
Lemma store_mk W w s v : SafeW W <= w -> store W (mk w s v) = v mod 2 ^ SafeW W.
Proof. intros H. rewrite store_eq. unfold mk. cbn [bv]. apply low_mod. pose proof (SafeW_pos W). lia. Qed.
Lemma conv_mk W w s v : 0 <= W <= w -> conv W false (mk w s v) = mk W false v.
Proof. intros H. unfold conv, mk. cbn [bv]. f_equal. change (low_bits w s v mod 2 ^ W = v mod 2 ^ W). apply low_mod. exact H. Qed.
Lemma checked_store_mk W w s v : 0 <= W -> SafeW W <= w -> checked_store W (conv (SafeW W) false (mk w s v)) = Some (v mod 2 ^ SafeW W).
Proof. intros H H1. pose proof (SafeW_pos W). unfold checked_store. destruct (Z.leb_spec 0 W); [|lia]. cbn [assert_ bind]. rewrite conv_mk by lia. rewrite store_mk by lia. reflexivity. Qed.

Lemma log2Ceil_ok x : 0 <= x -> exists l, log2Ceil x = Some l /\ 0 <= l /\ x < 2 ^ l.
Proof.
  intros H. assert (B : 0 <= x < 2 ^ Z.of_nat (Z.to_nat x)) by (rewrite Z2Nat.id by lia; pose proof (Z.pow_gt_lin_r 2 x); lia).
  destruct (log2ceil_digits (Z.to_nat x) x B) as [r [R1 [R2 R3]]]. exists r. split; [exact R1|]. split; [|exact R2].
  destruct (Z.neg_nonneg_cases r) as [C|C]; [|exact C]. rewrite Z.pow_neg_r in R2 by exact C. lia.
Qed.
Definition over_ok (over : Z -> option bint) : Prop := forall W, exists o, over W = Some o /\ bv o = 2 ^ SafeW W.
Lemma one_shl W : bv (bshl (conv (SafeW W + 1) false (of_cint 1)) (SafeW W)) = 2 ^ SafeW W.
Proof.
  pose proof (SafeW_pos W). unfold bshl, conv, mk, of_cint, low_bits. cbn [bv bw bsg andb]. cbv zeta.
  rewrite (Z.mod_small 1) by (split; [lia|apply Z.pow_gt_1; lia]). rewrite Z.mul_1_l. apply Z.mod_small. split; [apply Z.pow_nonneg; lia|apply Z.pow_lt_mono_r; lia].
Qed.
Lemma ap_over : over_ok ap_overflow.
Proof. intros W. eexists. split; [reflexivity|]. apply one_shl. Qed.
Lemma ac_over : over_ok ac_overflow.
Proof.
  intros W. pose proof (SafeW_pos W). unfold ac_overflow. destruct (log2Ceil_ok (SafeW W + 1) ltac:(lia)) as [l [L1 [L2 L3]]]. rewrite L1. cbn [bind]. eexists. split; [reflexivity|].
  assert (X : bv (conv l false (of_cint (SafeW W))) = SafeW W) by (unfold conv, mk, low_bits, of_cint; cbn [bv andb]; apply Z.mod_small; lia).
  rewrite X. apply one_shl.
Qed.

(** A stored value and what it stands for: W bits, or nothing at all when W is 0. *)
Definition rep (W s v : Z) : Prop := if W =? 0 then (s = 0 \/ s = 1) /\ v = 0 else s = v /\ 0 <= v < 2 ^ W.
Lemma rep_pos W s v : 1 <= W -> rep W s v <-> s = v /\ 0 <= v < 2 ^ W.
Proof. intros H. unfold rep. destruct (Z.eqb_spec W 0); [lia|]. reflexivity. Qed.
Lemma rep_zero s v : rep 0 s v <-> (s = 0 \/ s = 1) /\ v = 0.
Proof. reflexivity. Qed.
Lemma rep_mod W v : 0 <= W -> rep W (v mod 2 ^ SafeW W) (v mod 2 ^ W).
Proof.
  intros H. unfold rep. destruct (Z.eqb_spec W 0) as [->|].
  - change (2 ^ SafeW 0) with 2. change (2 ^ 0) with 1. rewrite Z.mod_1_r. pose proof (Z.mod_pos_bound v 2). lia.
  - rewrite SafeW_eq by lia. split; [reflexivity|]. apply Z.mod_pos_bound. apply Z.pow_pos_nonneg; lia.
Qed.
Lemma rep_bound W s v : 0 <= W -> rep W s v -> 0 <= s < 2 ^ SafeW W.
Proof. intros H. unfold rep. destruct (Z.eqb_spec W 0) as [->|]; [intros [[->| ->] _]; split; (reflexivity || discriminate)|]. intros [-> R]. rewrite SafeW_eq by lia. exact R. Qed.
Lemma rep_wf W s v : 0 <= W -> rep W s v -> 0 <= v < 2 ^ W.
Proof. intros H. unfold rep. destruct (Z.eqb_spec W 0) as [->|]; [intros [_ ->]; split; (reflexivity || discriminate)|]. intros [_ R]. exact R. Qed.

(** ** Operators *)
Lemma logic_w_ge W b : SafeW W <= logic_w (Bint (SafeW W) false b) (Bint (SafeW W) false b).
Proof. unfold logic_w, wide. cbn [bsg bw andb]. lia. Qed.
Lemma logic_w_l a b : bw a <= logic_w a b.
Proof. unfold logic_w, wide. destruct (bsg b && negb (bsg a)); lia. Qed.
Lemma mod_sub_rep W sa a sb b (f : Z -> Z -> Z) : 0 <= W -> rep W sa a -> rep W sb b -> rep W (f sa sb mod 2 ^ SafeW W) (f a b mod 2 ^ W).
Proof.
  intros H Ra Rb. destruct (Z.eq_dec W 0) as [->|].
  - change (2 ^ SafeW 0) with 2. change (2 ^ 0) with 1. rewrite Z.mod_1_r. unfold rep. cbn [Z.eqb]. pose proof (Z.mod_pos_bound (f sa sb) 2). lia.
  - rewrite rep_pos in * by lia. destruct Ra as [-> _], Rb as [-> _]. rewrite SafeW_eq by lia. split; [reflexivity|]. apply Z.mod_pos_bound. apply Z.pow_pos_nonneg; lia.
Qed.
Lemma mod_int_rep W sa a (f : Z -> Z) : 0 <= W -> rep W sa a -> rep W (f sa mod 2 ^ SafeW W) (f a mod 2 ^ W).
Proof. intros H Ra. apply (mod_sub_rep W sa a sa a (fun x _ => f x) H Ra Ra). Qed.
Lemma ac_add_s W a b : ac_add W a b = Some ((a + b) mod 2 ^ SafeW W).
Proof. unfold ac_add. f_equal. unfold badd. cbn [bv]. apply store_mk. pose proof (logic_w_l (hbits W a) (hbits W b)). unfold hbits in *. cbn [bw] in *. lia. Qed.
Lemma ap_add_s W a b : 0 <= W -> ap_add W a b = Some ((a + b) mod 2 ^ SafeW W).
Proof. intros H. unfold ap_add, badd. cbn [bv]. apply checked_store_mk; [exact H|]. pose proof (logic_w_l (hbits W a) (hbits W b)) as G. unfold hbits in *. cbn [bw] in *. lia. Qed.
Lemma ac_sub_s W a b : ac_sub W a b = Some ((a - b) mod 2 ^ SafeW W).
Proof. unfold ac_sub. f_equal. unfold bsub. cbn [bv]. apply store_mk. pose proof (logic_w_l (hbits W a) (hbits W b)). unfold hbits in *. cbn [bw] in *. lia. Qed.
Lemma ap_sub_s W a b : 0 <= W -> ap_sub W a b = Some ((a - b) mod 2 ^ SafeW W).
Proof. intros H. unfold ap_sub, bsub. cbn [bv]. apply checked_store_mk; [exact H|]. pose proof (logic_w_l (hbits W a) (hbits W b)) as G. unfold hbits in *. cbn [bw] in *. lia. Qed.
Lemma ac_add_int_s W a b : ac_add_int W a b = Some ((a + b) mod 2 ^ SafeW W).
Proof. unfold ac_add_int. f_equal. unfold badd. cbn [bv]. apply store_mk. pose proof (logic_w_l (hbits W a) (of_cint b)). unfold hbits in *. cbn [bw] in *. lia. Qed.
Lemma ap_add_int_s W a b : 0 <= W -> ap_add_int W a b = Some ((a + b) mod 2 ^ SafeW W).
Proof. intros H. unfold ap_add_int, badd. cbn [bv]. apply checked_store_mk; [exact H|]. pose proof (logic_w_l (hbits W a) (of_cint b)) as G. unfold hbits in *. cbn [bw] in *. lia. Qed.
Lemma ac_sub_int_s W a b : ac_sub_int W a b = Some ((a - b) mod 2 ^ SafeW W).
Proof. unfold ac_sub_int. f_equal. unfold bsub. cbn [bv]. apply store_mk. pose proof (logic_w_l (hbits W a) (of_cint b)). unfold hbits in *. cbn [bw] in *. lia. Qed.
Lemma ap_sub_int_s W a b : 0 <= W -> ap_sub_int W a b = Some ((a - b) mod 2 ^ SafeW W).
Proof. intros H. unfold ap_sub_int, bsub. cbn [bv]. apply checked_store_mk; [exact H|]. pose proof (logic_w_l (hbits W a) (of_cint b)) as G. unfold hbits in *. cbn [bw] in *. lia. Qed.
Lemma SafeW_sum W O : 0 <= W -> 0 <= O -> SafeW (O + W) <= SafeW W + SafeW O.
Proof. intros. unfold SafeW. destruct (Z.leb_spec (O + W) 0), (Z.leb_spec W 0), (Z.leb_spec O 0); lia. Qed.
Lemma ac_mul_s W O a b : 0 <= W -> 0 <= O -> ac_mul W O a b = Some ((a * b) mod 2 ^ SafeW (O + W)).
Proof. intros H H1. unfold ac_mul. f_equal. unfold bmul, hbits. cbn [bv bw bsg either orb]. apply store_mk. apply SafeW_sum; assumption. Qed.
Lemma ap_mul_s W O a b : 0 <= W -> 0 <= O -> ap_mul W O a b = Some ((a * b) mod 2 ^ SafeW (O + W)).
Proof. intros H H1. unfold ap_mul, bmul, hbits. cbn [bv bw]. apply checked_store_mk; [lia|]. apply SafeW_sum; assumption. Qed.
Lemma safe_sq_eq W : 0 <= W -> safe_sq W = SafeW (2 * W).
Proof. intros H. unfold safe_sq, SafeW. destruct (Z.leb_spec W 0), (Z.leb_spec (2 * W) 0); lia. Qed.
Lemma safe_sq_le W : safe_sq W <= SafeW W + SafeW W.
Proof. unfold safe_sq, SafeW. destruct (Z.leb_spec W 0); lia. Qed.
Lemma ac_square_s W a : 0 <= W -> ac_square W a = Some ((a * a) mod 2 ^ SafeW (2 * W)).
Proof. intros H. unfold ac_square, bmul, hbits. cbn [bv bw]. f_equal. pose proof (safe_sq_le W). pose proof (SafeW_pos (2 * W)). rewrite conv_mk by (rewrite safe_sq_eq in * by lia; lia). rewrite safe_sq_eq by lia. apply store_mk. lia. Qed.
Lemma ap_square_s W a : 0 <= W -> ap_square W a = Some ((a * a) mod 2 ^ SafeW (2 * W)).
Proof. intros H. unfold ap_square, bmul, hbits. cbn [bv bw]. pose proof (safe_sq_le W). pose proof (SafeW_pos (2 * W)). rewrite safe_sq_eq in * by lia. rewrite (conv_mk (SafeW (2 * W)) (SafeW W + SafeW W)) by lia. apply checked_store_mk; lia. Qed.
Lemma ac_not_s W a : ac_not W a = Some ((- a - 1) mod 2 ^ SafeW W).
Proof. unfold ac_not, bnot, hbits. cbn [bv bw bsg]. f_equal. apply store_mk. lia. Qed.
Lemma ap_not_s W a : 0 <= W -> ap_not W a = Some ((- a - 1) mod 2 ^ SafeW W).
Proof. intros H. unfold ap_not, bnot, hbits. cbn [bv bw bsg]. apply checked_store_mk; lia. Qed.
Ltac logic_s := intros; unfold ac_and, ac_or, ac_xor, ap_and, ap_or, ap_xor, ac_and_int, ac_or_int, ac_xor_int, ap_and_int, ap_or_int, ap_xor_int, band, bor, bxor; repeat match goal with |- context [assert_ (0 <=? ?b)] => destruct (Z.leb_spec 0 b); [cbn [assert_ bind]|lia] end; cbn [bv]; first [apply checked_store_mk; [assumption|]|f_equal; apply store_mk]; match goal with |- _ <= logic_w ?x ?y => pose proof (logic_w_l x y) as G; unfold hbits in *; cbn [bw] in *; lia end.
Lemma ac_and_s W a b : ac_and W a b = Some (Z.land a b mod 2 ^ SafeW W). Proof. logic_s. Qed.
Lemma ac_or_s W a b : ac_or W a b = Some (Z.lor a b mod 2 ^ SafeW W). Proof. logic_s. Qed.
Lemma ac_xor_s W a b : ac_xor W a b = Some (Z.lxor a b mod 2 ^ SafeW W). Proof. logic_s. Qed.
Lemma ac_and_int_s W a b : 0 <= b -> ac_and_int W a b = Some (Z.land a b mod 2 ^ SafeW W). Proof. logic_s. Qed.
Lemma ac_or_int_s W a b : 0 <= b -> ac_or_int W a b = Some (Z.lor a b mod 2 ^ SafeW W). Proof. logic_s. Qed.
Lemma ac_xor_int_s W a b : 0 <= b -> ac_xor_int W a b = Some (Z.lxor a b mod 2 ^ SafeW W). Proof. logic_s. Qed.
Lemma ap_and_s W a b : 0 <= W -> ap_and W a b = Some (Z.land a b mod 2 ^ SafeW W). Proof. logic_s. Qed.
Lemma ap_or_s W a b : 0 <= W -> ap_or W a b = Some (Z.lor a b mod 2 ^ SafeW W). Proof. logic_s. Qed.
Lemma ap_xor_s W a b : 0 <= W -> ap_xor W a b = Some (Z.lxor a b mod 2 ^ SafeW W). Proof. logic_s. Qed.
Lemma ap_and_int_s W a b : 0 <= W -> 0 <= b -> ap_and_int W a b = Some (Z.land a b mod 2 ^ SafeW W). Proof. logic_s. Qed.
Lemma ap_or_int_s W a b : 0 <= W -> 0 <= b -> ap_or_int W a b = Some (Z.lor a b mod 2 ^ SafeW W). Proof. logic_s. Qed.
Lemma ap_xor_int_s W a b : 0 <= W -> 0 <= b -> ap_xor_int W a b = Some (Z.lxor a b mod 2 ^ SafeW W). Proof. logic_s. Qed.

Lemma h_of_bool_ok b : h_of_bool b = Some (Z.b2z b).
Proof. destruct b; reflexivity. Qed.
Lemma h_of_int_ok over W v : over_ok over -> 0 <= W -> 0 <= v < 2 ^ SafeW W -> h_of_int over W v = Some v.
Proof.
  intros O H Hv. unfold h_of_int. destruct (O W) as [o [-> O2]]. destruct (Z.leb_spec 0 W), (Z.leb_spec 0 v); try lia. cbn [assert_ bind]. unfold blt. rewrite O2. cbn [bv of_cuint64]. destruct (Z.ltb_spec v (2 ^ SafeW W)); [|lia]. cbn [assert_ bind]. f_equal. rewrite store_eq. cbn [bv of_cint]. apply Z.mod_small. exact Hv.
Qed.
Lemma h_of_int_bad over W v : over_ok over -> ~ (0 <= W /\ 0 <= v < 2 ^ SafeW W) -> h_of_int over W v = None.
Proof.
  intros O H. unfold h_of_int. destruct (O W) as [o [-> O2]]. destruct (Z.leb_spec 0 W), (Z.leb_spec 0 v); try reflexivity. cbn [assert_ bind]. unfold blt. rewrite O2. cbn [bv of_cuint64]. destruct (Z.ltb_spec v (2 ^ SafeW W)); [|reflexivity]. exfalso. apply H. lia.
Qed.
Lemma h_of_uint64_ok over W v : over_ok over -> 0 <= W -> 0 <= v -> h_of_uint64 over W v = if v <? 2 ^ SafeW W then Some v else None.
Proof.
  intros O H Hv. unfold h_of_uint64. destruct (O W) as [o [-> O2]]. destruct (Z.leb_spec 0 W); [|lia]. cbn [assert_ bind]. unfold blt. rewrite O2. cbn [bv of_cuint64]. destruct (Z.ltb_spec v (2 ^ SafeW W)); cbn [assert_ bind]; [|reflexivity]. f_equal. rewrite store_eq. apply Z.mod_small. lia.
Qed.
Lemma h_of_uint32_ok over W v : over_ok over -> 0 <= W -> 0 <= v -> h_of_uint32 over W v = if v <? 2 ^ SafeW W then Some v else None.
Proof.
  intros O H Hv. unfold h_of_uint32. destruct (O W) as [o [-> O2]]. destruct (Z.leb_spec 0 W); [|lia]. cbn [assert_ bind]. unfold blt. rewrite O2. cbn [bv of_cuint]. destruct (Z.ltb_spec v (2 ^ SafeW W)); cbn [assert_ bind]; [|reflexivity]. f_equal. rewrite store_eq. apply Z.mod_small. lia.
Qed.

(** Shifts. *)
Lemma dist_ok W d : 0 <= d < W -> exists l, log2Ceil W = Some l /\ bv (conv l false (of_cint d)) = d.
Proof. intros H. destruct (log2Ceil_ok W ltac:(lia)) as [l [L1 [L2 L3]]]. exists l. split; [exact L1|]. unfold conv, mk, low_bits, of_cint. cbn [bv andb]. apply Z.mod_small. lia. Qed.
Lemma checked_store_ok W w s v : 1 <= W -> W <= w -> checked_store W (mk w s v) = Some (v mod 2 ^ W).
Proof. intros H H1. unfold checked_store. destruct (Z.leb_spec 0 W); [|lia]. cbn [assert_ bind]. rewrite store_mk by (rewrite SafeW_eq; lia). rewrite SafeW_eq by lia. reflexivity. Qed.
Lemma shr_ok W a d : 0 <= a < 2 ^ W -> (ac_shr W a d = if (0 <=? d) && (d <? W) then Some (a / 2 ^ d) else None) /\ (ap_shr W a d = if (0 <=? d) && (d <? W) then Some (a / 2 ^ d) else None).
Proof.
  intros Ha. unfold ac_shr, ap_shr. destruct (Z.leb_spec 0 d), (Z.ltb_spec d W); try (split; reflexivity). cbn [andb assert_ bind].
  destruct (dist_ok W d ltac:(lia)) as [l [L1 L2]]. rewrite L1. cbn [bind]. rewrite L2. unfold bshr, hbits. cbn [bw bsg bv]. rewrite SafeW_eq by lia.
  assert (B : a / 2 ^ d mod 2 ^ W = a / 2 ^ d). { apply Z.mod_small. split; [apply Z.div_pos; [lia|apply Z.pow_pos_nonneg; lia]|]. assert (0 < 2 ^ d) by (apply Z.pow_pos_nonneg; lia). apply Z.le_lt_trans with a; [|lia]. apply Z.div_le_upper_bound; nia. }
  split; [rewrite checked_store_ok by lia; rewrite B; reflexivity|]. rewrite conv_mk by lia. rewrite checked_store_ok by lia. rewrite B. reflexivity.
Qed.
Lemma shl_ok W a d : 0 <= a < 2 ^ W -> (ac_shl W a d = if (0 <=? d) && (d <? W) then Some ((a * 2 ^ d) mod 2 ^ W) else None) /\ (ap_shl W a d = if (0 <=? d) && (d <? W) then Some ((a * 2 ^ d) mod 2 ^ W) else None).
Proof.
  intros Ha. unfold ac_shl, ap_shl. destruct (Z.leb_spec 0 d), (Z.ltb_spec d W); try (split; reflexivity). cbn [andb assert_ bind].
  destruct (dist_ok W d ltac:(lia)) as [l [L1 L2]]. rewrite L1. cbn [bind]. rewrite L2. unfold bshl, hbits. cbn [bw bsg bv]. rewrite SafeW_eq by lia.
  split; [rewrite checked_store_ok by lia; reflexivity|]. rewrite conv_mk by lia. rewrite checked_store_ok by lia. reflexivity.
Qed.
