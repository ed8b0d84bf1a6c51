(** The comparisons, convert and neg_v1, on every back end. *)
From Coq Require Import ZArith Bool List Lia.
From Verif Require Import Fw Spec Flopoco CompareProofs ConvertProofs Circuit CircuitProofs CircuitLimits CircuitCmp CircuitCmpProofs.
Open Scope Z_scope.

Lemma cmp_everywhere EA FA EB FB w x y : 1 <= EA -> 1 <= FA -> 1 <= EB -> 1 <= FB -> Z.max EA EB + Z.max FA FB + 3 <= w -> wf (EA + FA + 3) x -> wf (EB + FB + 3) y ->
  exists lt le gt ge eq ne : bool,
  (forall K, back_end w K ->
    run K (less_than_prog EA FA EB FB x y) = Some (Z.b2z lt) /\ run K (less_than_equal_prog EA FA EB FB x y) = Some (Z.b2z le) /\
    run K (greater_than_prog EA FA EB FB x y) = Some (Z.b2z gt) /\ run K (greater_than_equal_prog EA FA EB FB x y) = Some (Z.b2z ge) /\
    run K (equal_prog EA FA EB FB x y) = Some (Z.b2z eq) /\ run K (not_equal_prog EA FA EB FB x y) = Some (Z.b2z ne)) /\
  let dx := decode EA FA x in let dy := decode EB FB y in
  (~ (exists s, dx = Inf s /\ dy = Inf s) ->
    lt = lt_spec dx dy /\ le = le_spec dx dy /\ gt = gt_spec dx dy /\ ge = ge_spec dx dy /\ eq = eq_spec dx dy /\ ne = negb (eq_spec dx dy)) /\
  (dx <> NaN -> dy <> NaN ->
    ((lt, eq, gt) = (true, false, false) \/ (lt, eq, gt) = (false, true, false) \/ (lt, eq, gt) = (false, false, true)) /\
    le = (lt || eq)%bool /\ ge = (gt || eq)%bool /\ ne = negb eq).
Proof.
  intros H1 H2 H3 H4 Hw Hx Hy. cbv zeta. pose proof (fun K HK => cmp_any w K EA FA EB FB x y HK H1 H2 H3 H4 Hw Hx Hy) as A. set (dx := decode EA FA x). set (dy := decode EB FB y).
  assert (D : (exists s, dx = Inf s /\ dy = Inf s) \/ ~ (exists s, dx = Inf s /\ dy = Inf s)).
  { destruct dx as [|s| |], dy as [|t| |]; try (right; intros (u & B & C); discriminate). destruct (Bool.bool_dec s t) as [->|N]; [left; now exists t|right; intros (u & B & C); congruence]. }
  destruct D as [D|D].
  - assert (N : dx <> NaN /\ dy <> NaN) by (destruct D as (s & -> & ->); split; discriminate). destruct N as [N1 N2].
    destruct (comparisons_consistent EA FA EB FB x y H1 H2 H3 H4 Hx Hy N1 N2) as (lt & eq & gt & E1 & E2 & E3 & T & E4 & E5 & E6 & _).
    exists lt, (lt || eq)%bool, gt, (gt || eq)%bool, eq, (negb eq). split; [|split; [intro C; contradiction|]].
    + intros K HK. destruct (A K HK) as (-> & -> & -> & -> & -> & ->). repeat split; assumption.
    + intros _ _. repeat split. exact T.
  - pose proof (comparisons_correct EA FA EB FB x y H1 H2 H3 H4 Hx Hy D) as S. cbv zeta in S. fold dx dy in S. destruct S as (S1 & S2 & S3 & S4 & S5 & S6).
    exists (lt_spec dx dy), (le_spec dx dy), (gt_spec dx dy), (ge_spec dx dy), (eq_spec dx dy), (negb (eq_spec dx dy)). split; [|split; [intros _; repeat split|]].
    + intros K HK. destruct (A K HK) as (-> & -> & -> & -> & -> & ->). repeat split; assumption.
    + intros N1 N2. destruct (comparisons_consistent EA FA EB FB x y H1 H2 H3 H4 Hx Hy N1 N2) as (lt & eq & gt & E1 & E2 & E3 & T & E4 & E5 & E6 & _).
      assert (B : forall b c : bool, Some (Z.b2z b) = Some (Z.b2z c) -> b = c) by (intros [] []; cbn; congruence).
      rewrite (B _ _ (eq_trans (eq_sym S1) E1)), (B _ _ (eq_trans (eq_sym S3) E3)), (B _ _ (eq_trans (eq_sym S5) E2)), (B _ _ (eq_trans (eq_sym S2) E4)), (B _ _ (eq_trans (eq_sym S4) E5)).
      repeat split. exact T.
Qed.
Lemma convert_everywhere ER FR EX FX w x : 1 <= ER <= 31 -> 1 <= FR -> 1 <= EX <= 31 -> 1 <= FX -> Z.max ER EX + Z.max FR FX + 3 <= w -> wf (EX + FX + 3) x ->
  ~ (ER = EX /\ FR < FX /\ (x / 2 ^ FX) mod 2 ^ EX = 2 ^ EX - 1 /\ match decode EX FX x with Zero _ | NaN => True | _ => False end) ->
  (exists r, (forall K, back_end w K -> run K (convert_prog ER FR EX FX x) = Some r) /\ wf (ER + FR + 3) r /\ decode ER FR r = convert_spec ER FR (decode EX FX x)) /\
  (exists r, (forall K, back_end w K -> run K (neg_prog ER FR EX FX x) = Some r) /\ wf (ER + FR + 3) r /\ decode ER FR r = convert_spec ER FR (neg_spec (decode EX FX x))).
Proof.
  intros H1 H2 H3 H4 Hw Hx N. split.
  - destruct (convert_correct ER FR EX FX x ltac:(lia) H2 ltac:(lia) H4 Hx N) as (r & E & W & D). exists r. split; [|now split]. intros K HK. rewrite <- E. now apply (convert_any w).
  - destruct (neg_correct ER FR EX FX x ltac:(lia) H2 ltac:(lia) H4 Hx N) as (r & E & W & D). exists r. split; [|now split]. intros K HK. change (neg ER FR EX FX x) with (neg_v1 ER FR EX FX x) in E. rewrite <- E. now apply (convert_any w).
Qed.
(** A narrower exponent is tested with to_int. *)
Lemma convert_no_conv ER FR EX FX x : ER < EX -> run (ac_sem false) (convert_prog ER FR EX FX x) = None /\ run (ac_sem false) (neg_prog ER FR EX FX x) = None.
Proof.
  intro H. assert (C : forall y, run (ac_sem false) (convert_prog ER FR EX FX y) = None).
  { intro y. unfold convert_prog. cbv zeta. rewrite (proj2 (Z.ltb_ge EX ER)), (proj2 (Z.eqb_neq ER EX)) by lia.
    do 4 sk. sk. destruct a as [rf wu]. sk. apply stop_bind. repeat sk. }
  split; [apply C|]. unfold neg_prog. cbv zeta. do 8 sk. apply C.
Qed.
