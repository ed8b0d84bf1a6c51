(** The synthesis back ends: what their operations compute, and agreement with the software back end. *)
From Coq Require Import ZArith Bool List Lia String.
From Verif Require Import Fw FwWord HlsInt Hls FwWordProofs FwWordProofs2 FwWordProofs3 SpecFw HlsProofs HlsProofs2.
Import ListNotations.
Open Scope Z_scope.

Lemma add_all W a b : 1 <= W ->
  let s := Some ((a + b) mod 2 ^ W) in let d := Some ((a - b) mod 2 ^ W) in
  (ac_add W a b = s /\ ac_add_int W a b = s /\ ac_sub W a b = d /\ ac_sub_int W a b = d) /\
  (ap_add W a b = s /\ ap_add_int W a b = s /\ ap_sub W a b = d /\ ap_sub_int W a b = d).
Proof. intros H s d. unfold s, d. rewrite ac_add_s, ac_add_int_s, ac_sub_s, ac_sub_int_s, ap_add_s, ap_add_int_s, ap_sub_s, ap_sub_int_s by lia. rewrite SafeW_eq by lia. repeat split. Qed.
Lemma mul_all W O a b : 1 <= W -> 1 <= O -> 0 <= a < 2 ^ W -> 0 <= b < 2 ^ O ->
  (ac_mul W O a b = Some (a * b) /\ ac_square W a = Some (a * a)) /\ (ap_mul W O a b = Some (a * b) /\ ap_square W a = Some (a * a)).
Proof.
  intros HW HO Ha Hb. rewrite ac_mul_s, ap_mul_s, ac_square_s, ap_square_s by lia. rewrite !SafeW_eq by lia.
  assert (M : 0 <= a * b < 2 ^ (O + W)) by (rewrite Z.pow_add_r by lia; nia). assert (Q : 0 <= a * a < 2 ^ (2 * W)) by (replace (2 * W) with (W + W) by lia; rewrite Z.pow_add_r by lia; nia).
  rewrite (Z.mod_small _ _ M), (Z.mod_small _ _ Q). repeat split.
Qed.
Lemma logic_bound a b W : 0 <= W -> 0 <= a < 2 ^ W -> 0 <= b < 2 ^ W -> 0 <= Z.lor a b < 2 ^ W /\ 0 <= Z.land a b < 2 ^ W /\ 0 <= Z.lxor a b < 2 ^ W.
Proof. intros. split; [|split]; [apply lor_wf|apply land_wf|apply lxor_wf]; (assumption || lia). Qed.
Lemma logic_all W a b : 1 <= W -> 0 <= a < 2 ^ W -> 0 <= b < 2 ^ W ->
  let n := Some (2 ^ W - 1 - a) in let c := Some (Z.land a b) in let o := Some (Z.lor a b) in let x := Some (Z.lxor a b) in
  (ac_not W a = n /\ ac_and W a b = c /\ ac_or W a b = o /\ ac_xor W a b = x /\ ac_and_int W a b = c /\ ac_or_int W a b = o /\ ac_xor_int W a b = x) /\
  (ap_not W a = n /\ ap_and W a b = c /\ ap_or W a b = o /\ ap_xor W a b = x /\ ap_and_int W a b = c /\ ap_or_int W a b = o /\ ap_xor_int W a b = x).
Proof.
  intros H Ha Hb n c o x. unfold n, c, o, x. clear n c o x. rewrite ac_not_s, ac_and_s, ac_or_s, ac_xor_s, ac_and_int_s, ac_or_int_s, ac_xor_int_s, ap_not_s, ap_and_s, ap_or_s, ap_xor_s, ap_and_int_s, ap_or_int_s, ap_xor_int_s by lia. rewrite SafeW_eq by lia.
  destruct (logic_bound a b W ltac:(lia) Ha Hb) as [Lo [La Lx]]. rewrite (Z.mod_small _ _ Lo), (Z.mod_small _ _ La), (Z.mod_small _ _ Lx). rewrite not_mod by lia. repeat split.
Qed.
Lemma logic_neg W a b : b < 0 -> ac_and_int W a b = None /\ ac_or_int W a b = None /\ ac_xor_int W a b = None /\ ap_and_int W a b = None /\ ap_or_int W a b = None /\ ap_xor_int W a b = None.
Proof. intros H. unfold ac_and_int, ac_or_int, ac_xor_int, ap_and_int, ap_or_int, ap_xor_int. destruct (Z.leb_spec 0 b); [lia|]. repeat split. Qed.
Lemma cmp_all W a b :
  h_lt W a b = Some (Z.b2z (a <? b)) /\ h_le W a b = Some (Z.b2z (a <=? b)) /\ h_eq W a b = Some (Z.b2z (a =? b)) /\
  h_ge W a b = Some (Z.b2z (b <=? a)) /\ h_gt W a b = Some (Z.b2z (b <? a)) /\ h_ne W a b = Some (Z.b2z (negb (a =? b))).
Proof. unfold h_lt, h_le, h_eq, h_ge, h_gt, h_ne. rewrite !h_of_bool_ok. repeat split. Qed.
Lemma cmp_int_all W a b : 0 <= b ->
  h_lt_int W a b = Some (Z.b2z (a <? b)) /\ h_le_int W a b = Some (Z.b2z (a <=? b)) /\ h_eq_int W a b = Some (Z.b2z (a =? b)) /\
  h_ge_int W a b = Some (Z.b2z (b <=? a)) /\ h_gt_int W a b = Some (Z.b2z (b <? a)) /\ h_ne_int W a b = Some (Z.b2z (negb (a =? b))).
Proof. intros H. unfold h_lt_int, h_le_int, h_eq_int, h_ge_int, h_gt_int, h_ne_int. asserts. rewrite !h_of_bool_ok. repeat split. Qed.
Lemma get_bits_all W h l x : 0 <= l <= h -> h < W -> 0 <= x < 2 ^ W ->
  ac_get_bits W h l x = Some ((x / 2 ^ l) mod 2 ^ (h - l + 1)) /\ ap_get_bits W h l x = Some ((x / 2 ^ l) mod 2 ^ (h - l + 1)).
Proof. intros H H1 Hx. split; [apply ac_get_bits_ok|apply ap_get_bits_ok]; lia. Qed.
Lemma concat_all A B a b : 1 <= A -> 1 <= B -> 0 <= a < 2 ^ A -> 0 <= b < 2 ^ B ->
  ac_concat A B a b = Some (a * 2 ^ B + b) /\ ap_concat A B a b = Some (a * 2 ^ B + b).
Proof. intros. split; [apply ac_two|apply ap_two]; assumption. Qed.
Lemma of_int_all W v : 1 <= W ->
  let r := if (0 <=? v) && (v <? 2 ^ W) then Some v else None in h_of_int ac_overflow W v = r /\ h_of_int ap_overflow W v = r.
Proof.
  intros H r. unfold r. clear r. destruct (Z.leb_spec 0 v), (Z.ltb_spec v (2 ^ W)); cbn [andb].
  - split; (apply h_of_int_ok; [exact ac_over || exact ap_over|lia|rewrite SafeW_eq; lia]).
  - split; (apply h_of_int_bad; [exact ac_over || exact ap_over|rewrite SafeW_eq; lia]).
  - split; (apply h_of_int_bad; [exact ac_over || exact ap_over|lia]).
  - split; (apply h_of_int_bad; [exact ac_over || exact ap_over|lia]).
Qed.
Lemma of_unsigned_all W v : 1 <= W -> 0 <= v -> let r := if v <? 2 ^ W then Some v else None in
  (h_of_uint64 ac_overflow W v = r /\ h_of_uint32 ac_overflow W v = r) /\ (h_of_uint64 ap_overflow W v = r /\ h_of_uint32 ap_overflow W v = r).
Proof.
  intros H Hv r. unfold r. pose proof (h_of_uint64_ok ac_overflow W v ac_over ltac:(lia) Hv) as H1. pose proof (h_of_uint32_ok ac_overflow W v ac_over ltac:(lia) Hv) as H2.
  pose proof (h_of_uint64_ok ap_overflow W v ap_over ltac:(lia) Hv) as H3. pose proof (h_of_uint32_ok ap_overflow W v ap_over ltac:(lia) Hv) as H4. rewrite SafeW_eq in H1, H2, H3, H4 by lia. repeat split; assumption.
Qed.

(** The functions of fw_uint.hpp, on results of at least one bit. *)
Lemma rep_get W r v : 1 <= W -> rep W r v -> r = v.
Proof. intros H R. apply rep_pos in R; [|exact H]. apply R. Qed.
Ltac by_rep H := let s := fresh "s" in let E := fresh "E" in let R := fresh "R" in destruct H as [s [E R]]; rewrite E; f_equal; (eapply rep_get; [|exact R]; lia).
Lemma parts_all K W B x : good K -> 1 <= B < W -> 0 <= x < 2 ^ W ->
  k_take_lsbs K W B x = Some (x mod 2 ^ B) /\ k_drop_lsbs K W B x = Some (x / 2 ^ B) /\
  k_take_msbs K W B x = Some (x / 2 ^ (W - B)) /\ k_drop_msbs K W B x = Some (x mod 2 ^ (W - B)).
Proof.
  intros G H Hx. pose proof (rep_self W x ltac:(lia) Hx) as R.
  split; [by_rep (k_take_lsbs_ok K W B x x G ltac:(lia) R)|]. split; [by_rep (k_drop_lsbs_ok K W B x x G ltac:(lia) R)|].
  split; [by_rep (k_take_msbs_ok K W B x x G ltac:(lia) R)|by_rep (k_drop_msbs_ok K W B x x G ltac:(lia) R)].
Qed.
Lemma pads_all K P W x : good K -> 0 <= P -> 1 <= W -> 0 <= x < 2 ^ W ->
  k_zpad_hi K P W x = Some x /\ k_opad_hi K P W x = Some ((2 ^ P - 1) * 2 ^ W + x) /\
  k_zpad_lo K P W x = Some (x * 2 ^ P) /\ k_opad_lo K P W x = Some (x * 2 ^ P + (2 ^ P - 1)).
Proof.
  intros G HP H Hx. pose proof (rep_self W x ltac:(lia) Hx) as R.
  split; [by_rep (k_zpad_hi_ok K P W x x G HP ltac:(lia) R)|]. split; [by_rep (k_opad_hi_ok K P W x x G HP ltac:(lia) R)|].
  split; [by_rep (k_zpad_lo_ok K P W x x G HP ltac:(lia) R)|by_rep (k_opad_lo_ok K P W x x G HP ltac:(lia) R)].
Qed.
Lemma resize_all K W B x : good K -> 1 <= W -> 1 <= B -> 0 <= x < 2 ^ W ->
  k_resize K W B x = Some (x mod 2 ^ B) /\ (W <= B -> k_extu K W B x = Some x).
Proof.
  intros G HW HB Hx. pose proof (rep_self W x ltac:(lia) Hx) as R.
  split; [by_rep (k_resize_ok K W B x x G ltac:(lia) ltac:(lia) R)|]. intros L. by_rep (k_extu_ok K W B x x G ltac:(lia) R).
Qed.
Lemma b2z_rep b : rep 1 (Z.b2z b) (Z.b2z b).
Proof. apply rep_self; [lia|]. destruct b; cbn; lia. Qed.
Lemma carries_all K W x y (c : bool) : good K -> 1 <= W -> 0 <= x < 2 ^ W -> 0 <= y < 2 ^ W ->
  k_add_with_cin K W x y (Z.b2z c) = Some ((x + y + Z.b2z c) mod 2 ^ W) /\
  k_add_cin K W x (Z.b2z c) = Some ((x + Z.b2z c) mod 2 ^ W) /\
  k_add_sub K W (Z.b2z c) x y = Some ((if c then x - y else x + y) mod 2 ^ W) /\
  k_copybit K W (Z.b2z c) = Some (if c then 2 ^ W - 1 else 0) /\
  k_select K (Z.b2z c) x y = Some (if c then x else y).
Proof.
  intros G H Hx Hy. pose proof (rep_self W x ltac:(lia) Hx) as Rx. pose proof (rep_self W y ltac:(lia) Hy) as Ry. pose proof (b2z_rep c) as Rc.
  split; [by_rep (k_add_with_cin_ok K W x x y y _ _ G H Rx Ry Rc)|]. split; [by_rep (k_add_cin_ok K W x x _ _ G H Rx Rc)|].
  split; [by_rep (k_add_sub_ok K W c _ x x y y G H Rc Rx Ry)|]. split; [by_rep (k_copybit_ok K W _ c G ltac:(lia) Rc)|]. apply (k_select_ok K _ c x y G Rc).
Qed.

(** Zero widths. A result may hold a stray bit, which later concatenations and extensions ignore. *)
Lemma zero_width_hidden K P W s x : good K -> s = 0 \/ s = 1 -> 1 <= W -> 1 <= P -> 0 <= x < 2 ^ W ->
  k_concat K 0 W s x = Some x /\ k_concat K W 0 x s = Some x /\ k_zpad_hi K P 0 s = Some 0 /\ k_opad_lo K P 0 s = Some (2 ^ P - 1).
Proof.
  intros G Hs H HP Hx. assert (Rs : rep 0 s 0) by (apply rep_zero; auto). pose proof (rep_self W x ltac:(lia) Hx) as R.
  split; [by_rep (g_cat K G 0 W s 0 x x ltac:(lia) ltac:(lia) Rs R)|].
  split. { destruct (g_cat K G W 0 x x s 0 ltac:(lia) ltac:(lia) R Rs) as [r [E Q]]. rewrite E. f_equal. rewrite Z.add_0_r in Q. change (2 ^ 0) with 1 in Q. rewrite Z.mul_1_r, Z.add_0_r in Q. apply (rep_get W); assumption. }
  split; [by_rep (k_zpad_hi_ok K P 0 s 0 G ltac:(lia) ltac:(lia) Rs)|by_rep (k_opad_lo_ok K P 0 s 0 G ltac:(lia) ltac:(lia) Rs)].
Qed.
Lemma to_int_all W x : 1 <= W -> 0 <= x < 2 ^ W ->
  (W <= 64 -> h_to_uint64 W x = Some x) /\ (W <= 32 -> h_to_uint32 W x = Some x) /\ (W <= 31 -> ap_to_int W x = x) /\ h_to_mpz W x = x.
Proof.
  intros H Hx. split; [intros; apply h_to_uint64_ok; lia|]. split; [intros; apply h_to_uint32_ok; lia|]. split; [|apply h_to_mpz_ok; assumption].
  intros. apply ap_to_int_ok. pose proof (Z.pow_le_mono_r 2 W 31 ltac:(lia) ltac:(lia)). lia.
Qed.
Lemma of_mpz_all UL W x : 32 <= UL -> 1 <= W -> 0 <= x < 2 ^ W -> x < 2 ^ UL -> ac_of_mpz UL W x = Some x /\ ap_of_mpz UL W x = Some x.
Proof.
  intros HU H Hx Hl. destruct (Z.lt_ge_cases W 32) as [L|L]; [apply of_mpz_narrow; lia|]. destruct (of_mpz_wide UL W x L Hx) as [-> ->]. rewrite (Z.mod_small x) by lia. rewrite Z.mod_small by lia. split; reflexivity.
Qed.
Lemma of_mpz_lost UL W x : 32 <= UL -> UL < W -> 2 ^ UL <= x < 2 ^ W ->
  ac_of_mpz UL W x = Some (x mod 2 ^ UL) /\ ap_of_mpz UL W x = Some (x mod 2 ^ UL) /\ x mod 2 ^ UL <> x.
Proof.
  intros HU H Hx. assert (P : 0 < 2 ^ UL) by (apply Z.pow_pos_nonneg; lia). destruct (of_mpz_wide UL W x ltac:(lia) ltac:(lia)) as [-> ->]. pose proof (Z.mod_pos_bound x (2 ^ UL) P). pose proof (Z.pow_le_mono_r 2 UL W ltac:(lia) ltac:(lia)). rewrite Z.mod_small by lia. split; [reflexivity|]. split; [reflexivity|lia].
Qed.
Lemma either_good K : K = ac_backend \/ K = ap_backend -> good K.
Proof. intros [->| ->]; [exact ac_good|exact ap_good]. Qed.
Lemma concat_array_all K W xs : good K -> 1 <= W -> Forall (fun x => 0 <= x < 2 ^ W) xs -> xs <> [] ->
  k_concat_array K W xs = Some (fold_right (fun x r => r * 2 ^ W + x) 0 xs).
Proof.
  intros G H HF HN. rewrite (proj1 (k_concat_array_ok K W xs G H HF HN)). f_equal. clear HN. induction HF as [|x rest Hx HF IH]; [reflexivity|]. cbn [fold_right]. rewrite <- IH. destruct rest as [|y rest].
  - cbn [concat_array]. lia.
  - change (concat_array W (x :: y :: rest)) with (cat W (concat_array W (y :: rest)) x). unfold cat. apply lor_join; lia.
Qed.
Ltac pick := intros f [<-|[<-|[]]].
Lemma software_all W a b d h l : 1 <= W <= 128 -> 0 <= a < 2 ^ W -> 0 <= b < 2 ^ W ->
  (forall f, In f [ac_add W; ap_add W] -> f a b = m_add W a b) /\ (forall f, In f [ac_sub W; ap_sub W] -> f a b = m_sub W a b) /\
  (W <= 64 -> forall f, In f [ac_mul W W; ap_mul W W] -> f a b = m_mul W W a b) /\
  (W <= 64 -> forall f, In f [ac_square W; ap_square W] -> f a = m_square W a) /\
  (forall f, In f [ac_not W; ap_not W] -> f a = m_not W a) /\ (forall f, In f [ac_and W; ap_and W] -> f a b = m_and W a b) /\
  (forall f, In f [ac_or W; ap_or W] -> f a b = m_or W a b) /\ (forall f, In f [ac_xor W; ap_xor W] -> f a b = m_xor W a b) /\
  (forall f, In f [ac_shr W; ap_shr W] -> f a d = m_shr W a d) /\ (forall f, In f [ac_shl W; ap_shl W] -> f a d = m_shl W a d) /\
  (0 <= l <= h -> h < W -> forall f, In f [ac_get_bits W h l; ap_get_bits W h l] -> f a = m_get_bits W h l a) /\
  (W <= 64 -> forall f, In f [ac_concat W W; ap_concat W W] -> f a b = m_concat W W a b) /\
  (- 2 ^ 31 <= d < 2 ^ 31 -> forall f, In f [h_of_int ac_overflow W; h_of_int ap_overflow W] -> f d = m_of_int W d) /\
  h_lt W a b = m_cmp Z.ltb a b /\ h_le W a b = m_cmp Z.leb a b /\ h_eq W a b = m_cmp Z.eqb a b /\ h_to_mpz W a = m_to_mpz W a.
Proof.
  intros H Ha Hb. pose proof (add_all W a b ltac:(lia)) as A. cbv zeta in A. pose proof (logic_all W a b ltac:(lia) Ha Hb) as L. cbv zeta in L. pose proof (mul_all W W a b ltac:(lia) ltac:(lia) Ha Hb) as M.
  pose proof (shr_ok W a d Ha) as S1. pose proof (shl_ok W a d Ha) as S2. pose proof (cmp_all W a b) as C.
  repeat match goal with |- _ /\ _ => split end.
  - rewrite m_add_ok by lia. pick; apply A.
  - rewrite m_sub_ok by lia. pick; apply A.
  - intros HW. rewrite m_mul_ok by lia. pick; apply M.
  - intros HW. rewrite m_square_ok by lia. pick; apply M.
  - rewrite m_not_ok by lia. pick; apply L.
  - rewrite m_and_ok by lia. pick; apply L.
  - rewrite m_or_ok by lia. pick; apply L.
  - rewrite m_xor_ok by lia. pick; apply L.
  - destruct (Z.leb_spec 0 d), (Z.ltb_spec d W); cbn [andb] in S1; [rewrite m_shr_ok by lia; pick; apply S1|..]; rewrite (proj1 (m_shift_bad W a d ltac:(lia))); pick; apply S1.
  - destruct (Z.leb_spec 0 d), (Z.ltb_spec d W); cbn [andb] in S2; [rewrite m_shl_ok by lia; pick; apply S2|..]; rewrite (proj2 (m_shift_bad W a d ltac:(lia))); pick; apply S2.
  - intros Hl Hh. rewrite m_get_bits_ok by lia. pose proof (get_bits_all W h l a Hl Hh Ha) as G. pick; apply G.
  - intros HW. rewrite m_concat_ok by lia. pose proof (concat_all W W a b ltac:(lia) ltac:(lia) Ha Hb) as G. pick; apply G.
  - intros Hd. rewrite of_int_spec by lia. pose proof (of_int_all W d ltac:(lia)) as G. cbv zeta in G. pick; apply G.
  - rewrite m_cmp_ok. apply C.
  - rewrite m_cmp_ok. apply C.
  - rewrite m_cmp_ok. apply C.
  - rewrite h_to_mpz_ok by lia. unfold m_to_mpz. pose proof (to_mpz_loop_ok W a 5 0 Ha ltac:(lia) ltac:(lia) ltac:(lia)) as T. change (2 ^ 0) with 1 in T. rewrite Z.mod_1_r in T. symmetry. exact T.
Qed.
Lemma mul_one W x : 1 <= W -> 0 <= x < 2 ^ W -> ac_mul 0 W 1 x = Some x /\ ap_mul 0 W 1 x = Some x.
Proof. intros H Hx. rewrite ac_mul_s, ap_mul_s by lia. rewrite SafeW_eq by lia. rewrite Z.add_0_r. rewrite Z.mod_small by lia. rewrite Z.mul_1_l. split; reflexivity. Qed.
Lemma zero_width_differs K x W : K = ac_backend \/ K = ap_backend -> 1 <= W -> 0 <= x < 2 ^ W ->
  (exists o z, k_og K 0 = Some o /\ k_zg K 0 = Some z /\ h_eq 0 o z = Some 0 /\ ac_mul 0 W o x = Some x /\ ap_mul 0 W o x = Some x /\ k_of_int K 0 1 = Some 1) /\
  (exists o z, k_og software 0 = Some o /\ k_zg software 0 = Some z /\ m_cmp Z.eqb o z = Some 1 /\ (W <= 128 -> m_mul 0 W o x = Some 0) /\ k_of_int software 0 1 = None).
Proof.
  intros HK H Hx. destruct (mul_one W x H Hx) as [M1 M2]. split.
  - exists 1, 0. split; [destruct HK as [->| ->]; reflexivity|]. split; [destruct HK as [->| ->]; reflexivity|]. split; [reflexivity|]. split; [exact M1|]. split; [exact M2|]. destruct HK as [->| ->]; reflexivity.
  - exists 0, 0. split; [reflexivity|]. split; [reflexivity|]. split; [reflexivity|]. split; [|reflexivity]. intros HW. rewrite m_mul_ok by (cbn; lia). reflexivity.
Qed.
Lemma empty_top W x : 1 <= W -> 0 <= x < 2 ^ W -> ap_get_bits W (W - 1) W x = None /\ ac_get_bits W (W - 1) W x = Some 0.
Proof.
  intros H Hx. split.
  - unfold ap_get_bits, ap_range, hbits. cbn [bw]. rewrite SafeW_eq by lia. destruct (Z.ltb_spec W W); [lia|]. rewrite andb_false_r. reflexivity.
  - rewrite ac_get_bits_empty by lia. rewrite Z.div_small by lia. reflexivity.
Qed.
Lemma or_ones W a : 1 <= W <= 128 -> 0 <= a < 2 ^ W -> ac_or_int W a (2 ^ W - 1) = Some (2 ^ W - 1) /\ ap_or_int W a (2 ^ W - 1) = Some (2 ^ W - 1) /\ m_or_int W a (2 ^ W - 1) = None.
Proof.
  intros H Ha. destruct (or_all_ones W a ltac:(lia) Ha) as [O1 O2]. rewrite m_or_ok in O1 by lia. assert (E : Z.lor a (2 ^ W - 1) = 2 ^ W - 1) by congruence.
  pose proof (logic_all W a (2 ^ W - 1) ltac:(lia) Ha ltac:(lia)) as L. cbv zeta in L. rewrite E in L. split; [apply L|]. split; [apply L|exact O2].
Qed.
