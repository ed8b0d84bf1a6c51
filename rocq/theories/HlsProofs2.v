(** Slices, concatenation and conversions of the synthesis back ends; the functions of fw_uint.hpp over them. *)
From Coq Require Import ZArith Bool List Lia String Ascii.
From Verif Require Import Fw FwWord HlsInt Hls FwWordProofs FwWordProofs2 FwWordProofs3 SpecFw HlsProofs.
Import ListNotations.
Open Scope Z_scope.

Lemma ac_get_bits_ok W h l x : 0 <= l <= h -> ac_get_bits W h l x = Some ((x / 2 ^ l) mod 2 ^ (h - l + 1)).
Proof. intros H. unfold ac_get_bits, ac_slc. destruct (Z.leb_spec 0 l); [|lia]. cbn [bind]. unfold hbits. cbn [bsg bv]. rewrite SafeW_eq by lia. apply checked_store_ok; lia. Qed.
Lemma ap_get_bits_ok W h l x : 0 <= l <= h -> h < W -> ap_get_bits W h l x = Some ((x / 2 ^ l) mod 2 ^ (h - l + 1)).
Proof.
  intros H H1. unfold ap_get_bits, ap_range, hbits. cbn [bw bv]. rewrite !SafeW_eq by lia. destruct (Z.leb_spec 0 l), (Z.ltb_spec l W), (Z.leb_spec 0 h), (Z.ltb_spec h W), (Z.leb_spec l h); try lia. cbn [andb bind].
  rewrite conv_mk by lia. apply checked_store_ok; lia.
Qed.
(** Empty slices: not an error, but the stored bit is that of the position above. *)
Lemma ac_get_bits_empty W l x : 0 <= l -> ac_get_bits W (l - 1) l x = Some ((x / 2 ^ l) mod 2).
Proof. intros H. unfold ac_get_bits, ac_slc. destruct (Z.leb_spec 0 l); [|lia]. cbn [bind]. replace (l - 1 - l + 1) with 0 by lia. unfold hbits. cbn [bsg bv]. unfold checked_store. change (0 <=? 0) with true. cbn [assert_ bind]. change (SafeW 0) with 1. rewrite store_mk by (change (SafeW 0) with 1; lia). reflexivity. Qed.

Lemma cat_bound A B a b : 0 <= A -> 0 <= B -> 0 <= a < 2 ^ A -> 0 <= b < 2 ^ B -> 0 <= a * 2 ^ B + b < 2 ^ (A + B).
Proof. intros HA HB Ha Hb. rewrite Z.pow_add_r by lia. nia. Qed.
Lemma ac_two A B a b : 1 <= A -> 1 <= B -> 0 <= a < 2 ^ A -> 0 <= b < 2 ^ B -> ac_concat A B a b = Some (a * 2 ^ B + b).
Proof.
  intros HA HB Ha Hb. pose proof (cat_bound A B a b ltac:(lia) ltac:(lia) Ha Hb) as Hc.
  assert (PA : 0 < 2 ^ A) by (apply Z.pow_pos_nonneg; lia). assert (PB : 0 < 2 ^ B) by (apply Z.pow_pos_nonneg; lia). assert (PC : 2 ^ B <= 2 ^ (A + B)) by (apply Z.pow_le_mono_r; lia).
  unfold ac_concat, h_concat. destruct (Z.eqb_spec A 0); [lia|]. destruct (Z.eqb_spec B 0); [lia|]. destruct (Z.ltb_spec 0 A), (Z.ltb_spec 0 B); try lia. cbn [assert_ bind].
  unfold ac_set_slc at 1. unfold conv, mk, of_cint, hbits. cbn [bv bw bsg]. rewrite !SafeW_eq by lia. change (0 <=? 0) with true. rewrite Z.add_0_l. destruct (Z.leb_spec B (A + B)); [|lia]. cbn [andb bind].
  unfold low_bits. cbn [andb]. cbv zeta. change (2 ^ 0) with 1. rewrite !Z.div_1_r, !Z.mul_1_r. rewrite (Z.mod_0_l (2 ^ (A + B))) by lia. rewrite (Z.mod_0_l (2 ^ B)) by lia. rewrite (Z.mod_small b (2 ^ B)) by lia. rewrite (Z.mod_small (0 - 0 + b)) by lia. replace (0 - 0 + b) with b by lia.
  unfold ac_set_slc. cbn [bv bw bsg]. destruct (Z.leb_spec 0 B); [|lia]. destruct (Z.leb_spec (B + A) (A + B)); [|lia]. cbn [andb bind]. rewrite (Z.div_small b) by lia. rewrite Z.mod_0_l by lia. rewrite (Z.mod_small a) by lia. f_equal. rewrite store_mk by (rewrite SafeW_eq; lia). rewrite SafeW_eq by lia. rewrite Z.mod_small by lia. lia.
Qed.
Lemma ap_two A B a b : 1 <= A -> 1 <= B -> 0 <= a < 2 ^ A -> 0 <= b < 2 ^ B -> ap_concat A B a b = Some (a * 2 ^ B + b).
Proof.
  intros HA HB Ha Hb. pose proof (cat_bound A B a b ltac:(lia) ltac:(lia) Ha Hb) as Hc.
  unfold ap_concat, h_concat. destruct (Z.eqb_spec A 0); [lia|]. destruct (Z.eqb_spec B 0); [lia|]. destruct (Z.ltb_spec 0 A), (Z.ltb_spec 0 B); try lia. cbn [assert_ bind].
  unfold ap_pair, hbits. cbn [bw bv]. rewrite !SafeW_eq by lia. rewrite conv_mk by lia. rewrite checked_store_ok by lia. rewrite (Z.mod_small a), (Z.mod_small b) by lia. rewrite Z.mod_small by lia. reflexivity.
Qed.
Definition concat_ok (f : Z -> Z -> Z -> Z -> option Z) : Prop := forall A B sa a sb b, 0 <= A -> 0 <= B -> rep A sa a -> rep B sb b -> exists s, f A B sa sb = Some s /\ rep (A + B) s (a * 2 ^ B + b).
Lemma concat_gen two : (forall A B a b, 1 <= A -> 1 <= B -> 0 <= a < 2 ^ A -> 0 <= b < 2 ^ B -> h_concat two A B a b = Some (a * 2 ^ B + b)) -> concat_ok (h_concat two).
Proof.
  intros T A B sa a sb b HA HB Ra Rb. destruct (Z.eq_dec A 0) as [->|NA].
  - apply rep_zero in Ra. destruct Ra as [Ra ->]. destruct (Z.eq_dec B 0) as [->|NB].
    + apply rep_zero in Rb. destruct Rb as [Rb ->]. exists sa. split; [reflexivity|]. apply rep_zero. split; [exact Ra|reflexivity].
    + exists sb. split; [|exact Rb]. unfold h_concat. cbn [Z.eqb]. destruct (Z.eqb_spec B 0); [lia|]. destruct (Z.ltb_spec 0 B); [reflexivity|lia].
  - destruct (Z.eq_dec B 0) as [->|NB].
    + apply rep_zero in Rb. destruct Rb as [Rb ->]. exists sa. rewrite Z.add_0_r. change (2 ^ 0) with 1. rewrite Z.mul_1_r, Z.add_0_r. split; [|exact Ra]. unfold h_concat. destruct (Z.eqb_spec A 0); [lia|]. change (0 =? 0) with true. cbv iota. destruct (Z.ltb_spec 0 A); [reflexivity|lia].
    + rewrite rep_pos in Ra by lia. rewrite rep_pos in Rb by lia. destruct Ra as [-> Ra], Rb as [-> Rb]. exists (a * 2 ^ B + b). split; [apply T; (assumption || lia)|]. rewrite rep_pos by lia. split; [reflexivity|]. apply cat_bound; assumption.
Qed.
Lemma ac_concat_ok : concat_ok ac_concat.
Proof. apply concat_gen. exact ac_two. Qed.
Lemma ap_concat_ok : concat_ok ap_concat.
Proof. apply concat_gen. exact ap_two. Qed.

(** ** The functions of fw_uint.hpp *)
Record good (K : backend) : Prop := Good {
  g_int : forall W v, 0 <= W -> 0 <= v < 2 ^ W -> exists s, k_of_int K W v = Some s /\ rep W s v;
  g_not : forall W s v, 0 <= W -> rep W s v -> exists r, k_not K W s = Some r /\ rep W r (2 ^ W - 1 - v);
  g_add : forall W sa a sb b, 0 <= W -> rep W sa a -> rep W sb b -> exists r, k_add K W sa sb = Some r /\ rep W r ((a + b) mod 2 ^ W);
  g_bits : forall W h l s v, 0 <= l <= h -> h < W -> rep W s v -> exists r, k_get_bits K W h l s = Some r /\ rep (h - l + 1) r ((v / 2 ^ l) mod 2 ^ (h - l + 1));
  g_cat : concat_ok (k_concat K);
  g_bool : forall s (b : bool), rep 1 s (Z.b2z b) -> k_to_bool K 1 s = Some b
}.
Lemma rep_one s (b : bool) : rep 1 s (Z.b2z b) -> h_to_bool 1 s = Some b.
Proof. intros H. apply rep_pos in H; [|lia]. destruct H as [-> _]. destruct b; reflexivity. Qed.
Lemma rep_self W v : 0 <= W -> 0 <= v < 2 ^ W -> rep W v v.
Proof. intros H Hv. unfold rep. destruct (Z.eqb_spec W 0) as [->|]; [|split; [reflexivity|exact Hv]]. change (2 ^ 0) with 1 in Hv. lia. Qed.
Lemma pow_le_safe W : 0 <= W -> 2 ^ W <= 2 ^ SafeW W.
Proof. intros H. apply Z.pow_le_mono_r; [lia|]. unfold SafeW. destruct (Z.leb_spec W 0); lia. Qed.
Lemma not_mod W v : 0 <= W -> 0 <= v < 2 ^ W -> (- v - 1) mod 2 ^ W = 2 ^ W - 1 - v.
Proof. intros H Hv. symmetry. apply (Z.mod_unique _ _ (-1)); [lia|ring]. Qed.
Lemma ac_good : good ac_backend.
Proof.
  split.
  - intros W v H Hv. exists v. split; [cbn [ac_backend k_of_int]; apply h_of_int_ok; [exact ac_over|exact H|pose proof (pow_le_safe W H); lia]|apply rep_self; assumption].
  - intros W s v H R. cbn [ac_backend k_not]. rewrite ac_not_s. eexists. split; [reflexivity|]. rewrite <- (not_mod W v H (rep_wf W s v H R)). apply (mod_int_rep W s v (fun x => - x - 1) H R).
  - intros W sa a sb b H Ra Rb. cbn [ac_backend k_add]. rewrite ac_add_s. eexists. split; [reflexivity|]. apply (mod_sub_rep W sa a sb b Z.add); assumption.
  - intros W h l s v H H1 R. apply rep_pos in R; [|lia]. destruct R as [-> R]. cbn [ac_backend k_get_bits]. rewrite ac_get_bits_ok by lia. eexists. split; [reflexivity|]. apply rep_self; [lia|]. apply Z.mod_pos_bound. apply Z.pow_pos_nonneg; lia.
  - exact ac_concat_ok.
  - exact rep_one.
Qed.
Lemma ap_good : good ap_backend.
Proof.
  split.
  - intros W v H Hv. exists v. split; [cbn [ap_backend k_of_int]; apply h_of_int_ok; [exact ap_over|exact H|pose proof (pow_le_safe W H); lia]|apply rep_self; assumption].
  - intros W s v H R. cbn [ap_backend k_not]. rewrite ap_not_s by exact H. eexists. split; [reflexivity|]. rewrite <- (not_mod W v H (rep_wf W s v H R)). apply (mod_int_rep W s v (fun x => - x - 1) H R).
  - intros W sa a sb b H Ra Rb. cbn [ap_backend k_add]. rewrite ap_add_s by exact H. eexists. split; [reflexivity|]. apply (mod_sub_rep W sa a sb b Z.add); assumption.
  - intros W h l s v H H1 R. apply rep_pos in R; [|lia]. destruct R as [-> R]. cbn [ap_backend k_get_bits]. rewrite ap_get_bits_ok by lia. eexists. split; [reflexivity|]. apply rep_self; [lia|]. apply Z.mod_pos_bound. apply Z.pow_pos_nonneg; lia.
  - exact ap_concat_ok.
  - exact rep_one.
Qed.

Lemma k_zg_ok K W : good K -> 0 <= W -> exists s, k_zg K W = Some s /\ rep W s 0.
Proof. intros G H. apply (g_int K G W 0 H). split; [lia|apply Z.pow_pos_nonneg; lia]. Qed.
Lemma k_og_ok K W : good K -> 0 <= W -> exists s, k_og K W = Some s /\ rep W s (2 ^ W - 1).
Proof. intros G H. unfold k_og. destruct (k_zg_ok K W G H) as [z [-> Z2]]. cbn [bind]. destruct (g_not K G W z 0 H Z2) as [r [R1 R2]]. exists r. split; [exact R1|]. rewrite Z.sub_0_r in R2. exact R2. Qed.
Ltac asserts := repeat match goal with |- context [assert_ (?a <=? ?b)] => destruct (Z.leb_spec a b); [cbn [assert_ bind]|lia] end.
Lemma k_take_lsbs_ok K W B s x : good K -> 0 <= B <= W -> rep W s x -> exists r, k_take_lsbs K W B s = Some r /\ rep B r (x mod 2 ^ B).
Proof.
  intros G H R. unfold k_take_lsbs. asserts. destruct (Z.eqb_spec B 0) as [->|].
  - change (2 ^ 0) with 1. rewrite Z.mod_1_r. apply k_zg_ok; [exact G|lia].
  - destruct (g_bits K G W (B - 1) 0 s x ltac:(lia) ltac:(lia) R) as [r [R1 R2]]. exists r. split; [exact R1|]. change (2 ^ 0) with 1 in R2. rewrite Z.div_1_r in R2. replace (B - 1 - 0 + 1) with B in R2 by lia. exact R2.
Qed.
Lemma k_drop_lsbs_ok K W B s x : good K -> 0 <= B <= W -> rep W s x -> exists r, k_drop_lsbs K W B s = Some r /\ rep (W - B) r (x / 2 ^ B).
Proof.
  intros G H R. pose proof (rep_wf W s x ltac:(lia) R) as Hx. unfold k_drop_lsbs. asserts. destruct (Z.eqb_spec B W) as [->|].
  - rewrite (Z.div_small x) by lia. apply k_zg_ok; [exact G|lia].
  - destruct (g_bits K G W (W - 1) B s x ltac:(lia) ltac:(lia) R) as [r [R1 R2]]. exists r. split; [exact R1|]. replace (W - 1 - B + 1) with (W - B) in R2 by lia. rewrite Z.mod_small in R2; [exact R2|]. split; [apply Z.div_pos; [lia|apply Z.pow_pos_nonneg; lia]|]. apply Z.div_lt_upper_bound; [apply Z.pow_pos_nonneg; lia|]. rewrite <- Z.pow_add_r by lia. replace (B + (W - B)) with W by lia. lia.
Qed.
Lemma k_take_msbs_ok K W B s x : good K -> 0 <= B <= W -> rep W s x -> exists r, k_take_msbs K W B s = Some r /\ rep B r (x / 2 ^ (W - B)).
Proof.
  intros G H R. pose proof (rep_wf W s x ltac:(lia) R) as Hx. unfold k_take_msbs. asserts. destruct (Z.eqb_spec B 0) as [->|].
  - rewrite Z.sub_0_r. rewrite (Z.div_small x) by lia. apply k_zg_ok; [exact G|lia].
  - destruct (g_bits K G W (W - 1) (W - B) s x ltac:(lia) ltac:(lia) R) as [r [R1 R2]]. exists r. split; [exact R1|]. replace (W - 1 - (W - B) + 1) with B in R2 by lia. rewrite Z.mod_small in R2; [exact R2|]. split; [apply Z.div_pos; [lia|apply Z.pow_pos_nonneg; lia]|]. apply Z.div_lt_upper_bound; [apply Z.pow_pos_nonneg; lia|]. rewrite <- Z.pow_add_r by lia. replace (W - B + B) with W by lia. lia.
Qed.
Lemma k_drop_msbs_ok K W B s x : good K -> 0 <= B <= W -> rep W s x -> exists r, k_drop_msbs K W B s = Some r /\ rep (W - B) r (x mod 2 ^ (W - B)).
Proof.
  intros G H R. unfold k_drop_msbs. asserts. destruct (Z.eqb_spec B W) as [->|].
  - rewrite Z.sub_diag. change (2 ^ 0) with 1. rewrite Z.mod_1_r. apply k_zg_ok; [exact G|lia].
  - destruct (g_bits K G W (W - 1 - B) 0 s x ltac:(lia) ltac:(lia) R) as [r [R1 R2]]. exists r. split; [exact R1|]. change (2 ^ 0) with 1 in R2. rewrite Z.div_1_r in R2. replace (W - 1 - B - 0 + 1) with (W - B) in R2 by lia. exact R2.
Qed.
Lemma k_zpad_hi_ok K P W s x : good K -> 0 <= P -> 0 <= W -> rep W s x -> exists r, k_zpad_hi K P W s = Some r /\ rep (P + W) r x.
Proof. intros G HP H R. unfold k_zpad_hi. destruct (k_zg_ok K P G HP) as [z [-> Z2]]. cbn [bind]. apply (g_cat K G P W z 0 s x HP H Z2 R). Qed.
Lemma k_opad_hi_ok K P W s x : good K -> 0 <= P -> 0 <= W -> rep W s x -> exists r, k_opad_hi K P W s = Some r /\ rep (P + W) r ((2 ^ P - 1) * 2 ^ W + x).
Proof. intros G HP H R. unfold k_opad_hi. destruct (k_og_ok K P G HP) as [z [-> Z2]]. cbn [bind]. apply (g_cat K G P W z _ s x HP H Z2 R). Qed.
Lemma k_zpad_lo_ok K P W s x : good K -> 0 <= P -> 0 <= W -> rep W s x -> exists r, k_zpad_lo K P W s = Some r /\ rep (W + P) r (x * 2 ^ P).
Proof. intros G HP H R. unfold k_zpad_lo. destruct (k_zg_ok K P G HP) as [z [-> Z2]]. cbn [bind]. destruct (g_cat K G W P s x z 0 H HP R Z2) as [r [R1 R2]]. exists r. split; [exact R1|]. rewrite Z.add_0_r in R2. exact R2. Qed.
Lemma k_opad_lo_ok K P W s x : good K -> 0 <= P -> 0 <= W -> rep W s x -> exists r, k_opad_lo K P W s = Some r /\ rep (W + P) r (x * 2 ^ P + (2 ^ P - 1)).
Proof. intros G HP H R. unfold k_opad_lo. destruct (k_og_ok K P G HP) as [z [-> Z2]]. cbn [bind]. apply (g_cat K G W P s x z _ H HP R Z2). Qed.
Lemma k_extu_ok K W B s x : good K -> 0 <= W <= B -> rep W s x -> exists r, k_extu K W B s = Some r /\ rep B r x.
Proof. intros G H R. unfold k_extu. asserts. destruct (k_zpad_hi_ok K (B - W) W s x G ltac:(lia) ltac:(lia) R) as [r [R1 R2]]. exists r. split; [exact R1|]. replace (B - W + W) with B in R2 by lia. exact R2. Qed.
Lemma k_resize_ok K W B s x : good K -> 0 <= W -> 0 <= B -> rep W s x -> exists r, k_resize K W B s = Some r /\ rep B r (x mod 2 ^ B).
Proof.
  intros G HW HB R. unfold k_resize, ctMax. destruct (Z.ltb_spec (B - W) 0).
  - destruct (k_zpad_hi_ok K 0 W s x G ltac:(lia) HW R) as [y [-> Y2]]. cbn [bind]. apply k_take_lsbs_ok; [exact G|lia|exact Y2].
  - destruct (k_zpad_hi_ok K (B - W) W s x G ltac:(lia) HW R) as [y [-> Y2]]. cbn [bind]. apply k_take_lsbs_ok; [exact G|lia|exact Y2].
Qed.
Lemma k_select_ok {A} K s (b : bool) (v d : A) : good K -> rep 1 s (Z.b2z b) -> k_select K s v d = Some (if b then v else d).
Proof. intros G R. unfold k_select. rewrite (g_bool K G s b R). reflexivity. Qed.
Lemma k_copybit_ok K W s (b : bool) : good K -> 0 <= W -> rep 1 s (Z.b2z b) -> exists r, k_copybit K W s = Some r /\ rep W r (if b then 2 ^ W - 1 else 0).
Proof.
  intros G H R. unfold k_copybit. destruct (k_og_ok K W G H) as [o [-> O2]]. destruct (k_zg_ok K W G H) as [z [-> Z2]]. cbn [bind]. rewrite (k_select_ok K s b o z G R). eexists. split; [reflexivity|]. destruct b; assumption.
Qed.
Lemma k_add_with_cin_ok K W sx x sy y sc c : good K -> 1 <= W -> rep W sx x -> rep W sy y -> rep 1 sc c -> exists r, k_add_with_cin K W sx sy sc = Some r /\ rep W r ((x + y + c) mod 2 ^ W).
Proof.
  intros G H Rx Ry Rc. unfold k_add_with_cin. destruct (g_add K G W sx x sy y ltac:(lia) Rx Ry) as [s [-> S2]]. cbn [bind]. destruct (k_zpad_hi_ok K (W - 1) 1 sc c G ltac:(lia) ltac:(lia) Rc) as [z [-> Z2]]. cbn [bind]. replace (W - 1 + 1) with W in Z2 by lia.
  destruct (g_add K G W s _ z c ltac:(lia) S2 Z2) as [r [R1 R2]]. exists r. split; [exact R1|]. rewrite Zplus_mod_idemp_l in R2. exact R2.
Qed.
Lemma k_add_cin_ok K W sx x sc c : good K -> 1 <= W -> rep W sx x -> rep 1 sc c -> exists r, k_add_cin K W sx sc = Some r /\ rep W r ((x + c) mod 2 ^ W).
Proof.
  intros G H Rx Rc. unfold k_add_cin. destruct (k_zpad_hi_ok K (W - 1) 1 sc c G ltac:(lia) ltac:(lia) Rc) as [z [-> Z2]]. cbn [bind]. replace (W - 1 + 1) with W in Z2 by lia. apply (g_add K G W sx x z c ltac:(lia) Rx Z2).
Qed.
Lemma k_add_sub_ok K W (d : bool) sd sx x sy y : good K -> 1 <= W -> rep 1 sd (Z.b2z d) -> rep W sx x -> rep W sy y -> exists r, k_add_sub K W sd sx sy = Some r /\ rep W r ((if d then x - y else x + y) mod 2 ^ W).
Proof.
  intros G H Rd Rx Ry. unfold k_add_sub. destruct (g_not K G W sy y ltac:(lia) Ry) as [n [-> N2]]. cbn [bind]. rewrite (k_select_ok K sd d n sy G Rd). cbn [bind]. destruct d.
  - destruct (k_add_with_cin_ok K W sx x n _ sd 1 G H Rx N2 Rd) as [r [R1 R2]]. exists r. split; [exact R1|]. replace (x + (2 ^ W - 1 - y) + 1) with (x - y + 1 * 2 ^ W) in R2 by ring. rewrite Z_mod_plus_full in R2. exact R2.
  - destruct (k_add_with_cin_ok K W sx x sy y sd 0 G H Rx Ry Rd) as [r [R1 R2]]. exists r. split; [exact R1|]. rewrite Z.add_0_r in R2. exact R2.
Qed.
Lemma k_concat_array_ok K W xs : good K -> 1 <= W -> Forall (fun x => 0 <= x < 2 ^ W) xs -> xs <> [] ->
  k_concat_array K W xs = Some (concat_array W xs) /\ 0 <= concat_array W xs < 2 ^ (W * Z.of_nat (List.length xs)).
Proof.
  intros G H. induction xs as [|x rest IH]; [intros _ C; contradiction|]. intros HF _. inversion HF as [|? ? Hx Hr]; subst. destruct rest as [|y rest].
  - cbn [k_concat_array concat_array List.length]. change (Z.of_nat 1) with 1. rewrite Z.mul_1_r. split; [reflexivity|exact Hx].
  - destruct (IH Hr ltac:(discriminate)) as [I1 I2]. remember (y :: rest) as ys eqn:E.
    assert (X : k_concat_array K W (x :: ys) = (do r <- k_concat_array K W ys; k_concat K (W * Z.of_nat (List.length ys)) W r x)) by (subst ys; reflexivity).
    assert (Y : concat_array W (x :: ys) = cat W (concat_array W ys) x) by (subst ys; reflexivity).
    assert (L : 1 <= Z.of_nat (List.length ys)) by (subst ys; cbn [List.length]; lia). clear E.
    assert (N : 1 <= W * Z.of_nat (List.length ys)) by nia. rewrite X, Y, I1. cbn [bind].
    assert (R1 := rep_self (W * Z.of_nat (List.length ys)) _ ltac:(lia) I2). assert (R2 := rep_self W x ltac:(lia) Hx).
    destruct (g_cat K G (W * Z.of_nat (List.length ys)) W _ _ _ _ ltac:(lia) ltac:(lia) R1 R2) as [s [S1 S2]].
    rewrite rep_pos in S2 by lia. destruct S2 as [-> S2]. unfold cat. rewrite lor_join by lia. split; [exact S1|]. cbn [List.length]. replace (W * Z.of_nat (S (List.length ys))) with (W * Z.of_nat (List.length ys) + W) by lia. exact S2.
Qed.

(** ** Conversions *)
Lemma h_to_uint64_ok W x : 1 <= W <= 64 -> 0 <= x < 2 ^ W -> h_to_uint64 W x = Some x.
Proof. intros H Hx. unfold h_to_uint64. asserts. unfold to_bits, hbits. cbn [bv]. rewrite Z.mod_small; [reflexivity|]. pose proof (Z.pow_le_mono_r 2 W 64 ltac:(lia) ltac:(lia)). lia. Qed.
Lemma h_to_uint32_ok W x : 1 <= W <= 32 -> 0 <= x < 2 ^ W -> h_to_uint32 W x = Some x.
Proof. intros H Hx. unfold h_to_uint32. asserts. unfold to_bits, hbits. cbn [bv]. rewrite Z.mod_small; [reflexivity|]. pose proof (Z.pow_le_mono_r 2 W 32 ltac:(lia) ltac:(lia)). lia. Qed.
Lemma ap_to_int_ok W x : 0 <= x < 2 ^ 31 -> ap_to_int W x = x.
Proof. intros Hx. unfold ap_to_int, low_bits. cbv zeta. change (2 ^ 32) with 4294967296. change (2 ^ 31) with 2147483648 in Hx. rewrite Z.mod_small by lia. change (2 ^ (32 - 1)) with 2147483648. destruct (Z.leb_spec 2147483648 x); [lia|]. reflexivity. Qed.
Lemma h_checked_cast_ok W x : 1 <= W -> 0 <= x < 2 ^ W -> h_checked_cast W W x = Some x.
Proof. intros H Hx. unfold h_checked_cast. rewrite Z.eqb_refl. cbn [assert_ bind]. unfold hbits. rewrite SafeW_eq by lia. change (conv W false (Bint W false x)) with (mk W false x). rewrite checked_store_ok by lia. rewrite Z.mod_small by lia. reflexivity. Qed.
Lemma h_checked_cast_bad WD WS x : WD <> WS -> h_checked_cast WD WS x = None.
Proof. intros H. unfold h_checked_cast. destruct (Z.eqb_spec WD WS); [contradiction|reflexivity]. Qed.

Lemma size_ok W x : 1 <= W -> 0 <= x < 2 ^ W -> (sizeinbase2 x <=? W) = true.
Proof. intros H Hx. apply Z.leb_le. apply sizeinbase2_le; [lia|]. rewrite Z.abs_eq by lia. lia. Qed.
Lemma of_mpz_wide UL W x : 32 <= W -> 0 <= x < 2 ^ W -> ac_of_mpz UL W x = Some ((x mod 2 ^ UL) mod 2 ^ W) /\ ap_of_mpz UL W x = Some ((x mod 2 ^ UL) mod 2 ^ W).
Proof.
  intros H Hx. unfold ac_of_mpz, ap_of_mpz. asserts. rewrite (size_ok W x ltac:(lia) Hx). cbn [assert_ bind]. destruct (Z.leb_spec 32 W); [|lia].
  unfold mpz_get_ui. rewrite Z.abs_eq by lia. rewrite store_eq. cbn [bv]. rewrite SafeW_eq by lia. split; reflexivity.
Qed.
Lemma of_mpz_narrow UL W x : 32 <= UL -> 1 <= W < 32 -> 0 <= x < 2 ^ W -> ac_of_mpz UL W x = Some x /\ ap_of_mpz UL W x = Some x.
Proof.
  intros HU H Hx. pose proof (Z.pow_lt_mono_r 2 W 32 ltac:(lia) ltac:(lia) ltac:(lia)) as H32. pose proof (Z.pow_le_mono_r 2 32 UL ltac:(lia) ltac:(lia)) as HUL.
  unfold ac_of_mpz, ap_of_mpz. asserts. rewrite (size_ok W x ltac:(lia) Hx). cbn [assert_ bind]. destruct (Z.leb_spec 32 W); [lia|]. rewrite !SafeW_eq by lia.
  assert (A : (W + 31) / 32 * 32 = 32) by (replace ((W + 31) / 32) with 1; [reflexivity|]; apply (Z.div_unique _ _ _ (W - 1)); lia). rewrite A. cbv zeta.
  cbn [ac_of_mpz_loop ap_of_mpz_loop]. destruct (Z.eqb_spec x 0) as [->|N].
  - cbn [bind]. unfold conv, of_cint. cbn [bv]. rewrite !store_mk by (rewrite SafeW_eq; lia). rewrite SafeW_eq by lia. rewrite Z.mod_0_l by (apply Z.pow_nonzero; lia). split; reflexivity.
  - rewrite Z.rem_small by lia. unfold mpz_get_ui. rewrite Z.abs_eq by lia. rewrite (Z.mod_small x (2 ^ UL)) by lia.
    assert (M : mk 32 false x = Bint 32 false x) by (unfold mk, low_bits; cbn [andb]; cbv zeta; rewrite Z.mod_small by lia; reflexivity). rewrite M. clear M.
    rewrite Z.quot_small by lia. cbn [Z.eqb]. split.
    + unfold ac_set_slc, conv, mk, of_cint, low_bits. cbn [bv bw bsg andb]. cbv zeta. change (0 <=? 0) with true. change (0 + 32 <=? 32) with true. cbn [andb bind]. change (2 ^ 0) with 1. rewrite Z.div_1_r, !Z.mul_1_r. rewrite Z.mod_0_l by lia. rewrite (Z.mod_0_l (2 ^ 32)) by lia. rewrite (Z.mod_small x) by lia. rewrite Z.mod_small by lia. rewrite store_eq. cbn [bv]. rewrite SafeW_eq by lia. rewrite Z.mod_small by lia. f_equal; lia.
    + cbn [bind]. unfold bshl. cbn [bw bsg bv]. change (2 ^ 0) with 1. rewrite Z.mul_1_r. unfold bor, conv. cbn [bv mk of_cint]. unfold low_bits at 2. cbn [andb]. cbv zeta. rewrite Z.mod_0_l by (apply Z.pow_nonzero; lia). rewrite Z.lor_0_l. rewrite store_mk by (rewrite SafeW_eq; lia). rewrite SafeW_eq by lia.
      rewrite low_mod; [|split; [lia|]; unfold logic_w, wide, mk; cbn [bw bsg andb negb]; lia]. rewrite low_mod by lia. rewrite Z.mod_small by lia. reflexivity.
Qed.
Lemma to_mpz_loop_h W x : 1 <= W -> 0 <= x < 2 ^ W -> forall n off, 0 <= off -> W - off <= 32 * Z.of_nat n -> h_to_mpz_loop n W (W - off) x off (x mod 2 ^ off) = x.
Proof.
  intros H Hx. induction n as [|n IH]; intros off Ho Hn; cbn [h_to_mpz_loop].
  - apply Z.mod_small. pose proof (Z.pow_le_mono_r 2 W off ltac:(lia) ltac:(lia)). lia.
  - destruct (Z.ltb_spec 0 (W - off)) as [L|L].
    + replace (W - off - 32) with (W - (off + 32)) by lia.
      assert (E : x mod 2 ^ off + wrap 32 (to_bits 64 (bshr (hbits W x) off)) * 2 ^ off = x mod 2 ^ (off + 32)).
      { assert (P : 0 < 2 ^ off) by (apply Z.pow_pos_nonneg; lia). unfold bshr, hbits, mk, to_bits. cbn [bw bsg bv]. unfold low_bits. cbn [andb]. cbv zeta. rewrite SafeW_eq by lia.
        assert (B : 0 <= x / 2 ^ off < 2 ^ W) by (split; [apply Z.div_pos; lia|]; apply Z.le_lt_trans with x; [apply Z.div_le_upper_bound; nia|lia]).
        rewrite (Z.mod_small (x / 2 ^ off) (2 ^ W)) by lia. unfold wrap. rewrite mod_pow_mod by lia. rewrite Z.pow_add_r by lia. rewrite Z.rem_mul_r by lia. ring. }
      rewrite E. apply IH; lia.
    + apply Z.mod_small. pose proof (Z.pow_le_mono_r 2 W off ltac:(lia) ltac:(lia)). lia.
Qed.
Lemma h_to_mpz_ok W x : 1 <= W -> 0 <= x < 2 ^ W -> h_to_mpz W x = x.
Proof. intros H Hx. unfold h_to_mpz. pose proof (to_mpz_loop_h W x H Hx (Z.to_nat W) 0 ltac:(lia) ltac:(lia)) as L. rewrite Z.sub_0_r in L. change (2 ^ 0) with 1 in L. rewrite Z.mod_1_r in L. exact L. Qed.
Lemma h_binary_round W x : 1 <= W -> 0 <= x < 2 ^ W -> exists s, m_to_string W x = append "0b" s /\ h_of_binary W s = Some x.
Proof.
  intros H Hx. destruct (to_string_bits W x ltac:(lia) Hx) as (s & ds & S1 & S2 & S3 & S4 & S5). exists s. split; [exact S1|]. unfold h_of_binary. asserts. rewrite SafeW_eq by lia.
  rewrite (parse_bin_complete W s (Z.to_nat W) 0 ds); try lia.
  - rewrite S4. reflexivity.
  - rewrite Z2Nat.id by lia. lia.
  - exact S2.
  - destruct (Z.to_nat W) eqn:E; [lia|exact S5].
Qed.
