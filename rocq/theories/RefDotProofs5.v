(** The four-term reference in double arithmetic. *)
From Coq Require Import ZArith List Bool Lia.
From Verif Require Import Fw FwLemmas Spec SpecLemmas ValueLemmas SpecDot SpecDbl SpecMpfr Flopoco FlopocoLemmas FlopocoProofs MpfrLib Mpfr MpfrProofs MpfrProofs2 Dbl DblProofs DblProofs2 DblProofs3 Dot DotProofs DotProofs2 DotProofs5 RefDot SpecRefDot RefDotProofs RefDotProofs2 RefDotProofs4 FmaProofs2.
Open Scope Z_scope.

(** ** Positive doubles as integers: multiples of 2^-1074 *)
Definition dnum (v : fval) (N : Z) : Prop := exists m e, v = Num false m e /\ 0 < m /\ -1074 <= e /\ N = m * 2 ^ (e + 1074).
(** N is a double (as far as its significand goes). *)
Definition fits (N : Z) : Prop := exists a b, 0 <= a <= 2 ^ 53 /\ 0 <= b /\ N = a * 2 ^ b.

Lemma dnum_pos v N : dnum v N -> 0 < N.
Proof. intros (m & e & _ & Hm & He & ->). pose proof (pow2_pos (e + 1074) ltac:(lia)). nia. Qed.
Lemma round_at_bottom m e : 0 < m -> -1074 <= e -> dbl_round false m e = dbl_round false (m * 2 ^ (e + 1074)) (-1074).
Proof. intros Hm He. rewrite <- (dbl_round_scale false m e (e + 1074)) by lia. f_equal. lia. Qed.
Lemma add_at_bottom v w N M : dnum v N -> dnum w M -> dbl_add v w = dbl_round false (N + M) (-1074).
Proof.
  intros (m & e & -> & Hm & He & ->) (n & f & -> & Hn & Hf & ->). cbn [dbl_add]. cbv zeta. remember (Z.min e f) as k eqn:Ek.
  pose proof (pow2_pos (e - k) ltac:(lia)). pose proof (pow2_pos (f - k) ltac:(lia)). replace (_ =? 0) with false by nia. replace (_ <? 0) with false by nia. rewrite Z.abs_eq by nia.
  rewrite round_at_bottom by nia. f_equal. rewrite Z.mul_add_distr_r, <- !Z.mul_assoc, <- !pow2_add by lia. f_equal; f_equal; f_equal; lia.
Qed.

(** A multiple of neither side: a number that fits is a multiple of 2^g or below 2^(g+52). *)
Lemma fits_or N g : fits N -> 0 <= g -> (exists t, N = t * 2 ^ g) \/ N <= 2 ^ 52 * 2 ^ g.
Proof.
  intros (a & b & Ha & Hb & ->) Hg. destruct (Z.le_gt_cases g b) as [H|H].
  - left. exists (a * 2 ^ (b - g)). rewrite <- Z.mul_assoc, <- pow2_add by lia. f_equal. f_equal. lia.
  - right. replace (2 ^ g) with (2 ^ (g - b) * 2 ^ b) by (rewrite <- pow2_add by lia; f_equal; lia). assert (2 ^ 1 <= 2 ^ (g - b)) by (apply Z.pow_le_mono_r; lia). pose proof (pow2_pos b Hb). change (2 ^ 1) with 2 in *. change (2 ^ 53) with (2 * 2 ^ 52) in Ha. pose proof (pow2_pos 52 ltac:(lia)). generalize dependent (2 ^ 52). intros h Ha Hh. apply (Z.le_trans _ (2 * h * 2 ^ b)); [apply Z.mul_le_mono_nonneg_r; lia|]. rewrite Z.mul_assoc. apply Z.mul_le_mono_nonneg_r; [lia|nia].
Qed.
Lemma round_int N : 0 < N -> exists r, 0 < r /\ (forall lo, fits lo -> lo <= N -> lo <= r) /\ (forall hi, fits hi -> N <= hi -> r <= hi) /\
  (dbl_round false N (-1074) = Inf false /\ 2 ^ 2098 <= r \/ dnum (dbl_round false N (-1074)) r).
Proof.
  intros HN. unfold dbl_round. cbv zeta. pose proof (Z.log2_nonneg N) as L0. pose proof (Z.log2_spec N HN) as LS. rewrite <- Z.add_1_r in LS. destruct (Z.le_gt_cases (Z.log2 N) 52) as [H|H].
  - rewrite Z.max_r by lia. rewrite Z.sub_diag. unfold num2, den2. cbn [Z.max Z.opp Z.compare]. rewrite Z.pow_0_r, !Z.mul_1_r. rewrite (rne_div_1 N). exists N. split; [exact HN|]. split; [auto|]. split; [auto|]. right.
    assert (N < 2 ^ 53) by (assert (2 ^ (Z.log2 N + 1) <= 2 ^ 53) by (apply Z.pow_le_mono_r; lia); lia). replace (N =? 2 ^ 53) with false by lia. replace (N =? 0) with false by lia. replace (971 <? -1074) with false by reflexivity.
    exists N, (-1074). split; [reflexivity|]. split; [exact HN|]. split; [lia|]. change (2 ^ (-1074 + 1074)) with 1. lia.
  - set (g := Z.log2 N - 52) in *. rewrite Z.max_l by lia. replace (-1074 - (Z.log2 N + -1074 - 52)) with (- g) by (unfold g; lia). unfold num2, den2. rewrite Z.max_l, Z.max_r by lia. rewrite Z.pow_0_r, Z.mul_1_r, Z.mul_1_l, Z.opp_involutive.
    pose proof (pow2_pos g ltac:(lia)) as Pg. assert (B1 : 2 ^ 52 * 2 ^ g <= N) by (rewrite <- pow2_add by lia; replace (52 + g) with (Z.log2 N) by (unfold g; lia); lia).
    assert (B2 : N <= 2 ^ 53 * 2 ^ g) by (rewrite <- pow2_add by lia; replace (53 + g) with (Z.log2 N + 1) by (unfold g; lia); lia).
    pose proof (rne_bound N (2 ^ g) (2 ^ 52) (2 ^ 53) Pg B1 B2) as RB. set (q := rne_div N (2 ^ g)) in *. exists (q * 2 ^ g). split; [nia|]. split; [|split].
    + intros lo Hf Hl. destruct (fits_or lo g Hf ltac:(lia)) as [(t & ->)|K].
      * apply Z.mul_le_mono_nonneg_r; [lia|]. unfold q. apply (rne_bound N (2 ^ g) t (2 ^ 53)); lia.
      * apply (Z.le_trans _ _ _ K). apply Z.mul_le_mono_nonneg_r; lia.
    + intros hi Hf Hl. destruct (fits_or hi g Hf ltac:(lia)) as [(t & ->)|K].
      * apply Z.mul_le_mono_nonneg_r; [lia|]. unfold q. apply (rne_bound N (2 ^ g) (2 ^ 52) t); lia.
      * assert (EN : N = 2 ^ 52 * 2 ^ g) by lia. assert (q = 2 ^ 52); [|nia]. assert (2 ^ 52 <= q <= 2 ^ 52); [|lia]. apply rne_bound; lia.
    + assert (2 ^ 52 <= q <= 2 ^ 53) as QB by exact RB. clear - H QB Pg HN. replace (q =? 0) with false by lia. destruct (Z.eqb_spec q (2 ^ 53)) as [E|E].
      * destruct (Z.ltb_spec 971 (Z.log2 N + -1074 - 52 + 1)) as [K|K]; [left; split; [reflexivity|]|right].
        -- rewrite E, <- pow2_add by lia. apply Z.pow_le_mono_r; unfold g; lia.
        -- exists (2 ^ 52), (Z.log2 N + -1074 - 52 + 1). split; [reflexivity|]. split; [lia|]. split; [unfold g in *; lia|]. rewrite E. rewrite <- !pow2_add by (unfold g in *; lia). f_equal. unfold g. lia.
      * destruct (Z.ltb_spec 971 (Z.log2 N + -1074 - 52)) as [K|K]; [left; split; [reflexivity|]|right].
        -- assert (2 ^ 2098 <= 2 ^ 52 * 2 ^ g) by (rewrite <- pow2_add by lia; apply Z.pow_le_mono_r; unfold g; lia). apply (Z.le_trans _ _ _ H0). apply Z.mul_le_mono_nonneg_r; lia.
        -- exists q, (Z.log2 N + -1074 - 52). split; [reflexivity|]. split; [lia|]. split; [unfold g in *; lia|]. f_equal. f_equal. unfold g. lia.
Qed.

(** ** Adding up *)
(** At least L: infinite, or a number not below L. *)
Definition atleast (v : fval) (L : Z) : Prop := v = Inf false \/ exists N, dnum v N /\ L <= N.
Lemma pow_fits b : 0 <= b -> fits (2 ^ b).
Proof. intros. exists 1, b. lia. Qed.
Lemma round_least N L : 0 < N -> fits L -> L <= N -> atleast (dbl_round false N (-1074)) L.
Proof. intros HN HL H. destruct (round_int N HN) as (r & _ & Lo & _ & [[I _]|D]); [left; exact I|right]. exists r. split; [exact D|]. apply Lo; assumption. Qed.
Lemma add_least v w L M K : fits K -> atleast v L -> atleast w M -> K <= L \/ K <= M -> atleast (dbl_add v w) K.
Proof.
  intros HK [->|(N & Dv & HN)] [->|(N' & Dw & HN')] HL.
  - left. reflexivity.
  - left. destruct Dw as (m & e & -> & _). reflexivity.
  - left. destruct Dv as (m & e & -> & _). reflexivity.
  - rewrite (add_at_bottom _ _ _ _ Dv Dw). pose proof (dnum_pos _ _ Dv). pose proof (dnum_pos _ _ Dw). apply round_least; [lia|exact HK|lia].
Qed.
Lemma add_between v w N M lo hi : dnum v N -> dnum w M -> fits lo -> fits hi -> lo <= N + M <= hi -> hi < 2 ^ 2098 -> exists r, dnum (dbl_add v w) r /\ lo <= r <= hi.
Proof.
  intros Dv Dw Fl Fh H HM. rewrite (add_at_bottom _ _ _ _ Dv Dw). pose proof (dnum_pos _ _ Dv). pose proof (dnum_pos _ _ Dw).
  destruct (round_int (N + M) ltac:(lia)) as (r & _ & Lo & Up & [[_ I]|D]); [specialize (Up hi Fh ltac:(lia)); exfalso; generalize dependent (2 ^ 2098); intros; lia|].
  exists r. split; [exact D|]. split; [apply Lo; tauto|apply Up; tauto].
Qed.

(** Four exponents: those from b on lie within 39 places (26 if not all of them), the others 14 places below b. *)
Definition split_at (b y0 y1 y2 y3 : Z) : Prop :=
  (b = y0 \/ b = y1 \/ b = y2 \/ b = y3) /\ (b <= y0 \/ y0 <= b - 14) /\ (b <= y1 \/ y1 <= b - 14) /\ (b <= y2 \/ y2 <= b - 14) /\ (b <= y3 \/ y3 <= b - 14) /\
  ((b <= y0 /\ b <= y1 /\ b <= y2 /\ b <= y3 /\ y0 <= b + 39 /\ y1 <= b + 39 /\ y2 <= b + 39 /\ y3 <= b + 39) \/
   (y0 <= b + 26 /\ y1 <= b + 26 /\ y2 <= b + 26 /\ y3 <= b + 26)).
Lemma split_sorted y0 y1 y2 y3 : y3 <= y2 <= y1 -> y1 <= y0 -> exists b, split_at b y0 y1 y2 y3.
Proof.
  intros H1 H2. unfold split_at. destruct (Z.le_gt_cases (y0 - 13) y1); [|exists y0; lia]. destruct (Z.le_gt_cases (y1 - 13) y2); [|exists y1; lia].
  destruct (Z.le_gt_cases (y2 - 13) y3); [exists y3; lia|exists y2; lia].
Qed.
Lemma split_exists y0 y1 y2 y3 : exists b, split_at b y0 y1 y2 y3.
Proof.
  destruct (Z.le_ge_cases y0 y1), (Z.le_ge_cases y0 y2), (Z.le_ge_cases y0 y3), (Z.le_ge_cases y1 y2), (Z.le_ge_cases y1 y3), (Z.le_ge_cases y2 y3);
  first [destruct (split_sorted y0 y1 y2 y3) as (b & K); [lia|lia|] | destruct (split_sorted y0 y1 y3 y2) as (b & K); [lia|lia|] | destruct (split_sorted y0 y2 y1 y3) as (b & K); [lia|lia|]
  | destruct (split_sorted y0 y2 y3 y1) as (b & K); [lia|lia|] | destruct (split_sorted y0 y3 y1 y2) as (b & K); [lia|lia|] | destruct (split_sorted y0 y3 y2 y1) as (b & K); [lia|lia|]
  | destruct (split_sorted y1 y0 y2 y3) as (b & K); [lia|lia|] | destruct (split_sorted y1 y0 y3 y2) as (b & K); [lia|lia|] | destruct (split_sorted y1 y2 y0 y3) as (b & K); [lia|lia|]
  | destruct (split_sorted y1 y2 y3 y0) as (b & K); [lia|lia|] | destruct (split_sorted y1 y3 y0 y2) as (b & K); [lia|lia|] | destruct (split_sorted y1 y3 y2 y0) as (b & K); [lia|lia|]
  | destruct (split_sorted y2 y0 y1 y3) as (b & K); [lia|lia|] | destruct (split_sorted y2 y0 y3 y1) as (b & K); [lia|lia|] | destruct (split_sorted y2 y1 y0 y3) as (b & K); [lia|lia|]
  | destruct (split_sorted y2 y1 y3 y0) as (b & K); [lia|lia|] | destruct (split_sorted y2 y3 y0 y1) as (b & K); [lia|lia|] | destruct (split_sorted y2 y3 y1 y0) as (b & K); [lia|lia|]
  | destruct (split_sorted y3 y0 y1 y2) as (b & K); [lia|lia|] | destruct (split_sorted y3 y0 y2 y1) as (b & K); [lia|lia|] | destruct (split_sorted y3 y1 y0 y2) as (b & K); [lia|lia|]
  | destruct (split_sorted y3 y1 y2 y0) as (b & K); [lia|lia|] | destruct (split_sorted y3 y2 y0 y1) as (b & K); [lia|lia|] | destruct (split_sorted y3 y2 y1 y0) as (b & K); [lia|lia|]];
  exists b; unfold split_at in *; lia.
Qed.
