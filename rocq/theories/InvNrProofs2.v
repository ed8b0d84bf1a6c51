(** The starting table, and the reciprocal of a fraction. *)
From Coq Require Import ZArith Bool Lia.
From Verif Require Import Fw FwLemmas Spec Flopoco InvNr InvNrProofs.
Open Scope Z_scope.

(** ** Every entry of every table used (index widths 5 to 10) is close to the reciprocal at both ends *)
Definition entry_good (k i : Z) : bool :=
  match starter_entry (- k) (- k) i with
  | Some g =>
      let A := 2 ^ k + i in let B := A + 1 in let K := 2 ^ (2 * k) in
      (0 <=? g) && (g <? 2 ^ k) && ((g * A - K) * (g * A - K) <=? A * 2 ^ k) &&
      ((i =? 0) || ((g * A - K) * (g * A - K) <? A * 2 ^ k)) && ((g * B - K) * (g * B - K) <? B * 2 ^ k)
  | None => false
  end.
Fixpoint all_good (k : Z) (n : nat) : bool := match n with O => true | S m => entry_good k (Z.of_nat m) && all_good k m end.
Lemma all_good_spec k n : all_good k n = true -> forall i, 0 <= i < Z.of_nat n -> entry_good k i = true.
Proof.
  induction n as [|n IH]; intros H i Hi; [lia|]. cbn [all_good] in H. apply andb_prop in H as [H1 H2]. destruct (Z.eq_dec i (Z.of_nat n)) as [->|]; [exact H1|]. apply (IH H2). lia.
Qed.
Lemma table_ok_good k n : all_good k n = true -> table_ok (starter_entry (- k) (- k)) n = true.
Proof.
  induction n as [|n IH]; intros H; [reflexivity|]. cbn [all_good table_ok] in *. apply andb_prop in H as [H1 H2]. unfold entry_good in H1. destruct (starter_entry _ _ _); [exact (IH H2)|discriminate].
Qed.
Lemma tables_good k : 5 <= k <= 10 -> all_good k (Z.to_nat (2 ^ k)) = true.
Proof. intros H. assert (k = 5 \/ k = 6 \/ k = 7 \/ k = 8 \/ k = 9 \/ k = 10) as [-> | [-> | [-> | [-> | [-> | ->]]]]] by lia; vm_compute; reflexivity. Qed.
Lemma starter_table_ok k i : 5 <= k <= 10 -> 0 <= i < 2 ^ k -> starter_table (- k) (- k) (2 ^ k + i) = starter_entry (- k) (- k) i.
Proof.
  intros Hk Hi. unfold starter_table. cbv zeta. replace (1 - - k - 1) with k by lia. rewrite (table_ok_good k _ (tables_good k Hk)). cbn [assert_ bind].
  replace (1 - - k) with (k + 1) by lia. pose proof (pow2_pos k ltac:(lia)).
  destruct (split_msb k (2 ^ k + i)) as [-> ->]; [lia|rewrite pow2_S by lia; lia|]. cbn [bind]. replace (2 ^ k + i) with (1 * 2 ^ k + i) by lia. rewrite join_div, join_mod by lia. reflexivity.
Qed.

(** ** Between the ends: the error is convex *)
Lemma convex a b c g d L R Y : 0 <= g -> L <= Y <= R -> a = (g * L - c) * (g * L - c) - L * d -> b = (g * R - c) * (g * R - c) - R * d ->
  (R - L) * ((g * Y - c) * (g * Y - c) - Y * d) <= (R - Y) * a + (Y - L) * b.
Proof.
  intros Hg HY -> ->. assert (0 <= g * g * ((Y - L) * (R - Y) * (R - L))) by (repeat apply Z.mul_nonneg_nonneg; lia).
  match goal with |- ?l <= ?r => replace r with (l + g * g * ((Y - L) * (R - Y) * (R - L))) by ring end. lia.
Qed.
Lemma weighted j u v P Q T : 0 < j -> 0 <= u -> 0 <= v -> u + v = j -> P <= 0 -> Q < 0 -> j * T <= u * (j * j * P) + v * (j * j * Q) ->
  T <= 0 /\ (P < 0 \/ 0 < v -> T < 0).
Proof.
  intros Hj Hu Hv E HP HQ H. assert (J : 0 < j * j) by (apply Z.mul_pos_pos; lia).
  assert (A : j * j * P <= 0) by (apply Z.mul_nonneg_nonpos; lia). assert (B : j * j * Q < 0) by (apply Z.mul_pos_neg; lia).
  assert (A' : P < 0 -> j * j * P < 0) by (intros; apply Z.mul_pos_neg; lia).
  remember (j * j * P) as p. remember (j * j * Q) as q. assert (U : u * p <= 0) by (apply Z.mul_nonneg_nonpos; lia). assert (V : v * q <= 0) by (apply Z.mul_nonneg_nonpos; lia).
  split; [destruct (Z.le_gt_cases T 0); [assumption|]; pose proof (Z.mul_pos_pos j T); lia|].
  intros S. assert (u * p + v * q < 0).
  { destruct (Z.eq_dec v 0) as [->|]; [|pose proof (Z.mul_pos_neg v q); lia]. destruct S as [S|S]; [|lia]. specialize (A' S). pose proof (Z.mul_pos_neg u p). lia. }
  destruct (Z.lt_ge_cases T 0); [assumption|]. pose proof (Z.mul_nonneg_nonneg j T). lia.
Qed.
Lemma starter_res k w Y (i := Y / 2 ^ (w - k) - 2 ^ k) : 5 <= k <= 10 -> k <= w -> 2 ^ w <= Y < 2 ^ (w + 1) ->
  exists g, trunc_to_lsb (- k) 0 (- w) Y = Some (2 ^ k + i) /\ starter_table (- k) (- k) (2 ^ k + i) = Some g /\ 0 <= g < 2 ^ k /\
    res k w g Y * res k w g Y <= Y * 2 ^ w /\ (2 ^ w < Y -> res k w g Y * res k w g Y < Y * 2 ^ w).
Proof.
  intros Hk Hw HY. assert (EW : 2 ^ w = 2 ^ k * 2 ^ (w - k)) by (rewrite <- pow2_add by lia; f_equal; lia).
  pose proof (pow2_pos k ltac:(lia)) as PK. pose proof (pow2_pos (w - k) ltac:(lia)) as Pj. rewrite pow2_S in HY by lia.
  remember (Y / 2 ^ (w - k)) as A. pose proof (div_mod_eq Y (2 ^ (w - k)) Pj) as EY. pose proof (mod_pow_bound Y (w - k) ltac:(lia)) as BY. rewrite <- HeqA in EY.
  assert (BA : 2 ^ k <= A < 2 * 2 ^ k). { split; [rewrite HeqA; apply Z.div_le_lower_bound; lia|rewrite HeqA; apply Z.div_lt_upper_bound; lia]. }
  assert (Hi : 0 <= i < 2 ^ k) by (unfold i; lia).
  pose proof (all_good_spec k _ (tables_good k Hk) i ltac:(rewrite Z2Nat.id; lia)) as G. unfold entry_good in G.
  destruct (starter_entry (- k) (- k) i) as [g|] eqn:Es; [|discriminate]. exists g. split.
  { unfold trunc_to_lsb. rewrite take_msbs_ok; [|lia|replace (0 - - w + 1) with (w + 1) by lia; rewrite pow2_S by lia; lia]. replace (0 - - w + 1 - (0 - - k + 1)) with (w - k) by lia. unfold i. rewrite <- HeqA. f_equal. lia. }
  split; [rewrite starter_table_ok by lia; exact Es|]. cbv zeta in G. replace (2 ^ k + i) with A in G by (unfold i; lia).
  apply andb_prop in G as [G G5]. apply andb_prop in G as [G G4]. apply andb_prop in G as [G G3]. apply andb_prop in G as [G1 G2].
  split; [lia|]. apply Z.leb_le in G1, G3. apply Z.ltb_lt in G5.
  remember (2 ^ (w - k)) as j. assert (EK : 2 ^ (k + w) = 2 ^ (2 * k) * j) by (subst j; rewrite <- pow2_add by lia; f_equal; lia).
  assert (CV : j * ((g * Y - 2 ^ (k + w)) * (g * Y - 2 ^ (k + w)) - Y * 2 ^ w) <=
     ((A + 1) * j - Y) * (j * j * ((g * A - 2 ^ (2 * k)) * (g * A - 2 ^ (2 * k)) - A * 2 ^ k)) + (Y - A * j) * (j * j * ((g * (A + 1) - 2 ^ (2 * k)) * (g * (A + 1) - 2 ^ (2 * k)) - (A + 1) * 2 ^ k))).
  { pose proof (convex _ _ (2 ^ (k + w)) g (2 ^ w) (A * j) ((A + 1) * j) Y G1 ltac:(lia) eq_refl eq_refl) as C. rewrite EK, EW in C |- *.
    etransitivity; [|etransitivity; [exact C|]]; apply Z.eq_le_incl; ring. }
  remember ((g * A - 2 ^ (2 * k)) * (g * A - 2 ^ (2 * k)) - A * 2 ^ k) as P. remember ((g * (A + 1) - 2 ^ (2 * k)) * (g * (A + 1) - 2 ^ (2 * k)) - (A + 1) * 2 ^ k) as Q.
  change (g * Y - 2 ^ (k + w)) with (res k w g Y) in CV. remember (res k w g Y * res k w g Y - Y * 2 ^ w) as T.
  assert (HP : P <= 0) by lia. assert (HQ : Q < 0) by lia.
  assert (Z1 : 0 <= (A + 1) * j - Y) by lia. assert (Z2 : 0 <= Y - A * j) by lia. assert (Z3 : (A + 1) * j - Y + (Y - A * j) = j) by ring.
  destruct (weighted j _ _ P Q T Pj Z1 Z2 Z3 HP HQ CV) as [W1 W2]. split; [lia|]. intros HY1. assert (T < 0); [|lia]. apply W2.
  destruct (Z.eq_dec (Y - A * j) 0) as [E0|]; [left|right; lia]. destruct (i =? 0) eqn:E; [|cbn [orb] in G4; lia].
  exfalso. apply Z.eqb_eq in E. assert (A = 2 ^ k) by (unfold i in E; lia). subst A. lia.
Qed.

(** ** The reciprocal of a fraction Y/2^w in [1,2), to r bits *)
Lemma sq_bound s w Y k : 1 <= k -> 0 <= w -> Y < 2 ^ (w + 1) -> s * s <= Y * 2 ^ w -> - 2 ^ (k + w) <= s <= 2 ^ (k + w).
Proof.
  intros Hk Hw HY H. rewrite pow2_S in HY by lia. pose proof (pow2_pos w Hw) as P. assert (2 * 2 ^ w <= 2 ^ (k + w)) by (rewrite <- pow2_S by lia; apply pow2_le; lia).
  remember (2 ^ w) as a. remember (2 ^ (k + w)) as b. split; [destruct (Z.le_gt_cases (- b) s); [assumption|]|destruct (Z.le_gt_cases s b); [assumption|]]; exfalso; nia.
Qed.
Lemma lin_bound s w Y k : 2 <= k -> 0 <= w -> Y < 2 ^ (w + 1) -> - (5 * Y) <= 4 * s <= 5 * Y -> - 2 ^ (k + w) <= s <= 2 ^ (k + w).
Proof.
  intros Hk Hw HY H. rewrite pow2_S in HY by lia. pose proof (pow2_pos w Hw) as P. assert (2 ^ (2 + w) <= 2 ^ (k + w)) by (apply pow2_le; lia). rewrite (pow2_add 2) in H0 by lia. change (2 ^ 2) with 4 in H0. lia.
Qed.
Definition good_frac (r w R Y : Z) : Prop := 2 ^ (r - 1) <= R <= 2 ^ r /\ - Y < R * Y - 2 ^ (r + w) < Y.
Lemma good_frac_res r w R Y : 1 <= r -> 1 <= w -> 2 ^ w <= Y < 2 ^ (w + 1) -> 0 <= R <= 2 ^ r -> - Y < res r w R Y < Y -> good_frac r w R Y.
Proof.
  intros Hr Hw HY HR HS. unfold res in HS. split; [|exact HS]. split; [|lia].
  assert (E : 2 ^ (r + w) = 2 ^ (r - 1) * 2 ^ (w + 1)) by (rewrite <- pow2_add by lia; f_equal; lia). pose proof (pow2_pos (r - 1) ltac:(lia)).
  assert ((R + 1) * Y > 2 ^ (r - 1) * Y) by nia. assert (R + 1 > 2 ^ (r - 1)); [|lia]. pose proof (pow2_pos w ltac:(lia)). nia.
Qed.
Lemma shift_bound Y w e D c : 0 <= w -> 0 < Y -> 0 <= e -> w + e <= D -> c <= Y * 2 ^ (w + e) -> c <= Y * 2 ^ D.
Proof. intros Hw HY He H Hc. pose proof (pow2_le (w + e) D H). nia. Qed.
Lemma shift_bound_lt Y w e D c : 0 <= w -> 0 < Y -> 0 <= e -> w + e <= D -> c < Y * 2 ^ (w + e) -> c < Y * 2 ^ D.
Proof. intros Hw HY He H Hc. pose proof (pow2_le (w + e) D H). nia. Qed.
(** At Y = 2^w the first table gives 2^k - 1, and the step gives 1 exactly. *)
Lemma entry_zero k : 5 <= k <= 10 -> starter_entry (- k) (- k) 0 = Some (2 ^ k - 1).
Proof. intros H. assert (k = 5 \/ k = 6 \/ k = 7 \/ k = 8 \/ k = 9 \/ k = 10) as [-> | [-> | [-> | [-> | [-> | ->]]]]] by lia; vm_compute; reflexivity. Qed.
Lemma step_one k w r : 1 <= k -> 1 <= w -> 1 <= r -> 2 <= 2 * k - r -> newton_step 0 (- r) 0 (- k) 0 (- w) (2 ^ k - 1) (2 ^ w) = Some (2 ^ r).
Proof.
  intros Hk Hw Hr HD. pose proof (pow2_pos k ltac:(lia)) as PK. pose proof (pow2_pos w ltac:(lia)) as PW.
  assert (EZ : (2 ^ k - 1) * 2 ^ (k + w + 1) - (2 ^ k - 1) * (2 ^ k - 1) * 2 ^ w = 2 ^ (2 * k + w) - 2 ^ w).
  { rewrite pow2_S by lia. replace (2 * k + w) with (k + (k + w)) by lia. rewrite (pow2_add k (k + w)), (pow2_add k w) by lia. ring. }
  assert (LW : 2 ^ w <= 2 ^ (2 * k + w)) by (apply pow2_le; lia).
  destruct (newton_num k w r (2 ^ k - 1) (2 ^ w)) as [N _]; try lia.
  { rewrite pow2_S by lia. lia. } { rewrite pow2_S by lia. lia. } 
  rewrite EZ in N. rewrite N. f_equal. remember (2 * k + w - r) as D.
  assert (ED : 2 ^ (2 * k + w) = 2 ^ r * 2 ^ D) by (rewrite <- pow2_add by lia; f_equal; lia).
  assert (L2 : 2 * 2 ^ w <= 2 ^ D) by (rewrite <- pow2_S by lia; apply pow2_le; lia).
  pose proof (pow2_pos D ltac:(lia)) as PD. pose proof (pow2_pos r ltac:(lia)) as Pr.
  assert (J : 2 ^ (2 * k + w) - 2 ^ w = (2 ^ r - 1) * 2 ^ D + (2 ^ D - 2 ^ w)) by lia. rewrite J.
  assert (Q : ((2 ^ r - 1) * 2 ^ D + (2 ^ D - 2 ^ w)) / 2 ^ D = 2 ^ r - 1) by (apply join_div; lia).
  assert (M : ((2 ^ r - 1) * 2 ^ D + (2 ^ D - 2 ^ w)) mod 2 ^ D = 2 ^ D - 2 ^ w) by (apply join_mod; lia).
  destruct (rf_up_bounds D ((2 ^ r - 1) * 2 ^ D + (2 ^ D - 2 ^ w)) ltac:(lia)) as [_ [_ U]]. rewrite Q, M in U. rewrite U, Q; [cbn [Z.b2z]; lia| |lia].
  rewrite Z.odd_sub. replace r with (r - 1 + 1) by lia. rewrite pow2_S by lia. rewrite Z.odd_mul. reflexivity.
Qed.
Lemma iter1_good r w Y : 8 <= r <= 15 -> (r + 1) / 2 + 1 <= w -> 2 ^ w <= Y < 2 ^ (w + 1) -> exists R, newton_iter1 (- r) (- w) Y = Some R /\ good_frac r w R Y.
Proof.
  intros Hr Hw HY. pose proof (Z.div_mod (r + 1) 2 ltac:(lia)) as D1. pose proof (Z.mod_pos_bound (r + 1) 2 ltac:(lia)) as D2.
  unfold newton_iter1. replace (- - r) with r by lia. remember ((r + 1) / 2 + 1) as k. replace (- ((r + 1) / 2) - 1) with (- k) by lia. assert (Hk : 5 <= k <= 9) by lia. assert (2 <= 2 * k - r <= 3) by lia. clear D1 D2 Heqk.
  destruct (starter_res k w Y ltac:(lia) Hw HY) as [g [T [G [Bg [S1 S2]]]]]. rewrite T. cbn [bind]. rewrite G. cbn [bind]. pose proof (pow2_pos w ltac:(lia)) as PW.
  destruct (Z.eq_dec Y (2 ^ w)) as [->|NE].
  - assert (g = 2 ^ k - 1). { assert (E : 2 ^ w / 2 ^ (w - k) - 2 ^ k = 0). { replace w with (k + (w - k)) at 1 by lia. rewrite pow2_add by lia. rewrite Z.div_mul by (pose proof (pow2_pos (w - k)); lia). lia. }
      rewrite E, starter_table_ok, entry_zero in G by lia. injection G as <-. reflexivity. } subst g.
    rewrite step_one by lia. exists (2 ^ r). split; [reflexivity|]. pose proof (pow2_le (r - 1) r ltac:(lia)). split; [lia|]. rewrite pow2_add by lia. lia.
  - specialize (S2 ltac:(lia)).
    assert (B4 : 4 * (res k w g Y * res k w g Y) < Y * 2 ^ (2 * k + w - r)) by (apply (shift_bound_lt Y w 2); [lia|lia|lia|lia|]; rewrite pow2_add by lia; change (2 ^ 2) with 4; lia).
    destruct (newton_unit k w r g Y) as [R [N [BR [_ ST]]]]; try lia; [rewrite pow2_S by lia; lia|apply (sq_bound _ w Y); lia|].
    exists R. split; [exact N|]. apply good_frac_res; [lia|lia|lia|lia|exact (ST B4)].
Qed.
Lemma iter2_good r w Y : 16 <= r <= 31 -> ((r + 2) / 2 + 2) / 2 + 1 <= w -> 2 ^ w <= Y < 2 ^ (w + 1) -> exists R, newton_iter2 (- r) (- w) Y = Some R /\ good_frac r w R Y.
Proof.
  intros Hr Hw HY. pose proof (Z.div_mod (r + 2) 2 ltac:(lia)) as D1. pose proof (Z.mod_pos_bound (r + 2) 2 ltac:(lia)) as D2.
  unfold newton_iter2. replace (- - r) with r by lia. remember ((r + 2) / 2) as b1. clear Heqb1. pose proof (Z.div_mod (b1 + 2) 2 ltac:(lia)) as D3. pose proof (Z.mod_pos_bound (b1 + 2) 2 ltac:(lia)) as D4.
  remember ((b1 + 2) / 2 + 1) as k. replace (- ((b1 + 2) / 2) - 1) with (- k) by lia. replace (- b1 - 1) with (- (b1 + 1)) by lia. remember (b1 + 1) as k2.
  assert (Hk : 5 <= k <= 10) by lia. assert (2 <= 2 * k - k2 <= 3) by lia. assert (3 <= 2 * k2 - r <= 4) by lia. clear D1 D2 D3 D4 Heqk Heqk2 b1.
  destruct (starter_res k w Y ltac:(lia) Hw HY) as [g [T [G [Bg [S1 _]]]]]. rewrite T. cbn [bind]. rewrite G. cbn [bind]. pose proof (pow2_pos w ltac:(lia)) as PW.
  assert (B4 : 4 * (res k w g Y * res k w g Y) <= Y * 2 ^ (2 * k + w - k2)) by (apply (shift_bound Y w 2); [lia|lia|lia|lia|]; rewrite pow2_add by lia; change (2 ^ 2) with 4; lia).
  destruct (newton_unit k w k2 g Y) as [g2 [N [Bg2 [SR _]]]]; try lia; [rewrite pow2_S by lia; lia|apply (sq_bound _ w Y); lia|]. rewrite N. cbn [bind]. clear B4 N S1 T G.
  remember (res k2 w g2 Y) as s.
  assert (Q : s * s <= Y * Y) by nia. rewrite pow2_S in HY by lia.
  assert (B4 : 4 * (s * s) < Y * 2 ^ (2 * k2 + w - r)) by (apply (shift_bound_lt Y w 3); [lia|lia|lia|lia|]; rewrite pow2_add by lia; change (2 ^ 3) with 8; nia).
  rewrite Heqs in B4. destruct (newton_unit k2 w r g2 Y) as [R [N [BR [_ ST]]]]; try lia; [rewrite pow2_S by lia; lia|rewrite pow2_S by lia; lia|apply (lin_bound _ w Y); try lia; rewrite pow2_S by lia; lia|].
  exists R. split; [exact N|]. apply good_frac_res; [lia|lia|rewrite pow2_S by lia; lia|lia|exact (ST B4)].
Qed.
Lemma iter3_good r w Y : 32 <= r <= 63 -> (((r + 1) / 2 + 1) / 2 + 1) / 2 + 2 <= w -> 2 ^ w <= Y < 2 ^ (w + 1) -> exists R, newton_iter3 (- r) (- w) Y = Some R /\ good_frac r w R Y.
Proof.
  intros Hr Hw HY. pose proof (Z.div_mod (r + 1) 2 ltac:(lia)) as D1. pose proof (Z.mod_pos_bound (r + 1) 2 ltac:(lia)) as D2.
  unfold newton_iter3. replace (- - r) with r by lia. remember ((r + 1) / 2) as b2. clear Heqb2. pose proof (Z.div_mod (b2 + 1) 2 ltac:(lia)) as D3. pose proof (Z.mod_pos_bound (b2 + 1) 2 ltac:(lia)) as D4.
  remember ((b2 + 1) / 2) as b1. clear Heqb1. pose proof (Z.div_mod (b1 + 1) 2 ltac:(lia)) as D5. pose proof (Z.mod_pos_bound (b1 + 1) 2 ltac:(lia)) as D6.
  remember ((b1 + 1) / 2 + 2) as k. replace (- ((b1 + 1) / 2) - 2) with (- k) by lia. replace (- b1 - 2) with (- (b1 + 2)) by lia. replace (- b2 - 2) with (- (b2 + 2)) by lia. remember (b1 + 2) as k2. remember (b2 + 2) as k3.
  assert (Hk : 5 <= k <= 10) by lia. assert (2 <= 2 * k - k2 <= 3) by lia. assert (2 <= 2 * k2 - k3 <= 3) by lia. assert (4 <= 2 * k3 - r <= 5) by lia. clear D1 D2 D3 D4 D5 D6 Heqk Heqk2 Heqk3 b1 b2.
  destruct (starter_res k w Y ltac:(lia) Hw HY) as [g [T [G [Bg [S1 _]]]]]. rewrite T. cbn [bind]. rewrite G. cbn [bind]. pose proof (pow2_pos w ltac:(lia)) as PW.
  assert (B4 : 4 * (res k w g Y * res k w g Y) <= Y * 2 ^ (2 * k + w - k2)) by (apply (shift_bound Y w 2); [lia|lia|lia|lia|]; rewrite pow2_add by lia; change (2 ^ 2) with 4; lia).
  destruct (newton_unit k w k2 g Y) as [g2 [N [Bg2 [SR _]]]]; try lia; [rewrite pow2_S by lia; lia|apply (sq_bound _ w Y); lia|]. rewrite N. cbn [bind]. clear B4 N S1 T G.
  remember (res k2 w g2 Y) as s. assert (Q : s * s <= Y * Y) by nia. assert (HY' := HY). rewrite pow2_S in HY' by lia.
  assert (B2 : 2 * (s * s) <= Y * 2 ^ (2 * k2 + w - k3)) by (apply (shift_bound Y w 2); [lia|lia|lia|lia|]; rewrite pow2_add by lia; change (2 ^ 2) with 4; nia).
  rewrite Heqs in B2. destruct (newton_five k2 w k3 g2 Y) as [g3 [N [Bg3 SR3]]]; try lia; [rewrite pow2_S by lia; lia|apply (lin_bound _ w Y); lia|]. rewrite N. cbn [bind]. clear B2 N Q Heqs.
  remember (res k3 w g3 Y) as t. assert (Q : 16 * (t * t) <= 25 * (Y * Y)) by nia.
  assert (B4 : 4 * (t * t) < Y * 2 ^ (2 * k3 + w - r)).
  { apply (shift_bound_lt Y w 4); [lia|lia|lia|lia|]. rewrite pow2_add by lia. change (2 ^ 4) with 16. assert (Ya : 0 < Y * 2 ^ w) by (apply Z.mul_pos_pos; lia). assert (YY : Y * Y < Y * (2 * 2 ^ w)) by (apply Z.mul_lt_mono_pos_l; lia). remember (2 ^ w) as a. replace (Y * (2 * a)) with (2 * (Y * a)) in YY by ring. replace (Y * (a * 16)) with (16 * (Y * a)) by ring. lia. }
  rewrite Heqt in B4. destruct (newton_unit k3 w r g3 Y) as [R [N [BR [_ ST]]]]; try lia; [rewrite pow2_S by lia; lia|apply (lin_bound _ w Y); lia|].
  exists R. split; [exact N|]. apply good_frac_res; [lia|lia|lia|lia|exact (ST B4)].
Qed.
(** The number of index bits of the starting table for a result of r bits. *)
Definition index_bits (r : Z) : Z :=
  if r <=? 15 then (r + 1) / 2 + 1 else if r <=? 31 then ((r + 2) / 2 + 2) / 2 + 1 else (((r + 1) / 2 + 1) / 2 + 1) / 2 + 2.
Lemma table_newton_good r w Y : 8 <= r <= 63 -> 8 <= w -> index_bits r <= w -> 2 ^ w <= Y < 2 ^ (w + 1) -> exists R, table_newton (- r) (- w) Y = Some R /\ good_frac r w R Y.
Proof.
  intros Hr Hw Hi HY. unfold index_bits in Hi. unfold table_newton. replace (-7 <=? - w) with false by lia. replace (-7 <=? - r) with false by lia.
  destruct (r <=? 15) eqn:E1; [replace (-15 <=? - r) with true by lia; apply iter1_good; lia|]. replace (-15 <=? - r) with false by lia.
  destruct (r <=? 31) eqn:E2; [replace (-31 <=? - r) with true by lia; apply iter2_good; lia|]. replace (-31 <=? - r) with false by lia. replace (-63 <=? - r) with true by lia. apply iter3_good; lia.
Qed.
