(** Proofs about integers of known range and callN. *)
From Coq Require Import ZArith Bool List Lia.
From Verif Require Import Fw Fixval Intval SpecIntval.
Import ListNotations.
Open Scope Z_scope.

Lemma i64_iff x : i64 x = Some x <-> in64 x.
Proof. unfold i64, in64, assert_. destruct ((- 2 ^ 63 <=? x) && (x <? 2 ^ 63)) eqn:K; cbn [bind]; split; intros H; try lia; try discriminate; reflexivity. Qed.
Lemma i64_some x y : i64 x = Some y -> y = x /\ in64 x.
Proof. unfold i64, in64, assert_. destruct ((- 2 ^ 63 <=? x) && (x <? 2 ^ 63)) eqn:K; cbn [bind]; intros H; [|discriminate]. split; [congruence|lia]. Qed.
Lemma i64_none x : ~ in64 x -> i64 x = None.
Proof. intros H. unfold i64, in64, assert_ in *. replace ((- 2 ^ 63 <=? x) && (x <? 2 ^ 63)) with false by lia. reflexivity. Qed.
Lemma cmin_min a b : cmin a b = Z.min a b.
Proof. unfold cmin. destruct (Z.leb_spec a b); lia. Qed.
Lemma cmax_max a b : cmax a b = Z.max a b.
Proof. unfold cmax. destruct (Z.ltb_spec b a); lia. Qed.
Lemma shl64_0 v : shl64 v 0 = i64 v.
Proof. unfold shl64. change ((0 <=? 0) && (0 <? 64)) with true. cbn [assert_ bind]. f_equal. lia. Qed.
Lemma shr64_iff v k : shr64 v k = if (0 <=? k) && (k <? 64) then Some (v / 2 ^ k) else None.
Proof. unfold shr64, assert_. destruct ((0 <=? k) && (k <? 64)) eqn:K; cbn [bind]; [|reflexivity]. rewrite Z.shiftr_div_pow2 by lia. reflexivity. Qed.

Definition ranged (r : Z * Z) : fixt := Fixt 0 (fst r) (snd r).
Lemma add_type_0 la ha lb hb : in64 la -> in64 ha -> in64 lb -> in64 hb ->
  add_type (Fixt 0 la ha) (Fixt 0 lb hb) = do l <- i64 (la + lb); do h <- i64 (ha + hb); Some (Fixt 0 l h).
Proof.
  intros A B C D. apply i64_iff in A, B, C, D. unfold add_type. cbn [fshift flow fhigh]. change (cmax 0 0) with 0. change (cmin 0 0) with 0. change (0 - 0) with 0. change (i32 0) with (Some 0). cbn [bind].
  rewrite !shl64_0, A, C. cbn [bind]. unfold add64. destruct (i64 (la + lb)); cbn [bind]; [|reflexivity]. rewrite B, D. reflexivity.
Qed.
Lemma bind4 a b c d (K : Z -> Z -> Z -> Z -> option fixt) :
  (do w <- i64 a; do x <- i64 b; do y <- i64 c; do z <- i64 d; K w x y z) <> None -> in64 a /\ in64 b /\ in64 c /\ in64 d.
Proof.
  intros H. destruct (i64 a) eqn:EA; cbn [bind] in H; [|contradiction]. destruct (i64 b) eqn:EB; cbn [bind] in H; [|contradiction]. destruct (i64 c) eqn:EC; cbn [bind] in H; [|contradiction]. destruct (i64 d) eqn:ED; cbn [bind] in H; [|contradiction].
  apply i64_some in EA, EB, EC, ED. tauto.
Qed.
(** The compiler accepts exactly the programs whose ranges fit, and finds those ranges. *)
Lemma itype_fits e : fits e -> itype e = Some (ranged (irange e)) /\ in64 (fst (irange e)) /\ in64 (snd (irange e)).
Proof.
  induction e as [v|lo hi i|a IHa b IHb|a IHa b IHb|k a IHa]; cbn [fits itype irange fst snd].
  - intros H. rewrite (proj2 (i64_iff v) H). cbn [bind]. split; [reflexivity|]. split; exact H.
  - intros [A B]. rewrite (proj2 (i64_iff lo) A), (proj2 (i64_iff hi) B). cbn [bind]. split; [reflexivity|]. split; assumption.
  - intros [A [B [C D]]]. destruct (IHa A) as [-> [A1 A2]]. destruct (IHb B) as [-> [B1 B2]]. cbn [bind]. unfold ranged at 1 2. rewrite add_type_0 by assumption.
    rewrite (proj2 (i64_iff _) C), (proj2 (i64_iff _) D). split; [reflexivity|]. split; assumption.
  - intros [A [B [C D]]]. destruct (IHa A) as [-> [A1 A2]]. destruct (IHb B) as [-> [B1 B2]]. cbn [bind]. destruct (irange a) as [la ha]. destruct (irange b) as [lb hb]. unfold ranged, mul_type. cbn [fst snd fshift flow fhigh] in *.
    change (i32 (0 + 0)) with (Some 0). unfold mul64, in64 in *. cbn [bind]. rewrite !(proj2 (i64_iff _)) by (unfold in64; lia). cbn [bind]. unfold cmin4, cmax4. rewrite !cmin_min, !cmax_max. split; [reflexivity|]. split; assumption.
  - intros [K A]. destruct (IHa A) as [-> [A1 A2]]. cbn [bind]. unfold shr_const_type, ranged. cbn [flow fhigh fshift]. rewrite !shr64_iff. replace ((0 <=? k) && (k <? 64)) with true by lia. cbn [bind]. split; [reflexivity|].
    assert (P : 1 <= 2 ^ k) by (pose proof (Z.pow_pos_nonneg 2 k ltac:(lia) ltac:(lia)); lia).
    assert (S : forall x, in64 x -> in64 (x / 2 ^ k)).
    { intros x [L U]. unfold in64. split.
      - apply Z.div_le_lower_bound; [lia|]. nia.
      - apply Z.div_lt_upper_bound; [lia|]. nia. }
    split; apply S; assumption.
Qed.
Lemma itype_only e : itype e <> None -> fits e.
Proof.
  induction e as [v|lo hi i|a IHa b IHb|a IHa b IHb|k a IHa]; cbn [fits itype].
  - intros H. destruct (i64 v) eqn:K; [apply i64_some in K; tauto|contradiction].
  - intros H. destruct (i64 lo) eqn:K; cbn [bind] in H; [|contradiction]. destruct (i64 hi) eqn:L; cbn [bind] in H; [|contradiction]. apply i64_some in K, L. tauto.
  - intros H. destruct (itype a) as [ta|] eqn:Ta; cbn [bind] in H; [|contradiction]. destruct (itype b) as [tb|] eqn:Tb; cbn [bind] in H; [|contradiction].
    assert (Fa : fits a) by (apply IHa; discriminate). assert (Fb : fits b) by (apply IHb; discriminate). destruct (itype_fits a Fa) as [Ea [A1 A2]]. destruct (itype_fits b Fb) as [Eb [B1 B2]].
    rewrite Ta in Ea. rewrite Tb in Eb. injection Ea as ->. injection Eb as ->. unfold ranged in H. rewrite add_type_0 in H by assumption. cbn [irange fst snd].
    destruct (i64 (fst (irange a) + fst (irange b))) eqn:K; cbn [bind] in H; [|contradiction]. destruct (i64 (snd (irange a) + snd (irange b))) eqn:L; cbn [bind] in H; [|contradiction]. apply i64_some in K, L. tauto.
  - intros H. destruct (itype a) as [ta|] eqn:Ta; cbn [bind] in H; [|contradiction]. destruct (itype b) as [tb|] eqn:Tb; cbn [bind] in H; [|contradiction].
    assert (Fa : fits a) by (apply IHa; discriminate). assert (Fb : fits b) by (apply IHb; discriminate). destruct (itype_fits a Fa) as [Ea [A1 A2]]. destruct (itype_fits b Fb) as [Eb [B1 B2]].
    rewrite Ta in Ea. rewrite Tb in Eb. injection Ea as ->. injection Eb as ->. cbn [irange]. split; [exact Fa|]. split; [exact Fb|].
    destruct (irange a) as [la ha]. destruct (irange b) as [lb hb]. unfold ranged, mul_type in H. cbn [fst snd fshift flow fhigh] in *. change (i32 (0 + 0)) with (Some 0) in H. cbn [bind] in H. unfold mul64 in H. apply bind4 in H. unfold in64 in *. lia.
  - intros H. destruct (itype a) as [ta|] eqn:Ta; cbn [bind] in H; [|contradiction]. split; [|apply IHa; discriminate]. unfold shr_const_type in H. rewrite !shr64_iff in H. destruct ((0 <=? k) && (k <? 64)) eqn:K; [lia|contradiction].
Qed.
Lemma prod_range la ha lb hb x y : la <= x <= ha -> lb <= y <= hb ->
  Z.min (Z.min (la * lb) (la * hb)) (Z.min (ha * lb) (ha * hb)) <= x * y <= Z.max (Z.max (la * lb) (la * hb)) (Z.max (ha * lb) (ha * hb)).
Proof.
  intros A B.
  assert (X : forall u, Z.min (la * u) (ha * u) <= x * u <= Z.max (la * u) (ha * u)) by (intros u; destruct (Z_le_gt_dec 0 u); nia).
  pose proof (X lb). pose proof (X hb). assert (Y : Z.min (x * lb) (x * hb) <= x * y <= Z.max (x * lb) (x * hb)) by (destruct (Z_le_gt_dec 0 x); nia). lia.
Qed.
Lemma mkfix_in lo hi x : lo <= x <= hi -> mkfix (Fixt 0 lo hi) x = Some (Fixt 0 lo hi, x).
Proof. intros H. unfold mkfix, assert_. cbn [flow fhigh]. replace (lo <=? x) with true by lia. replace (x <=? hi) with true by lia. reflexivity. Qed.
Lemma entry_in lo hi x : lo <= x <= hi -> entry (Fixt 0 lo hi, x) = Some tt.
Proof. intros H. unfold entry, assert_. cbn [flow fhigh]. replace (lo <=? x) with true by lia. replace (x <=? hi) with true by lia. reflexivity. Qed.
Lemma irun_ok env e : fits e -> inputs_ok env e -> irun env e = Some (ranged (irange e), ivalue env e) /\ fst (irange e) <= ivalue env e <= snd (irange e).
Proof.
  induction e as [v|lo hi i|a IHa b IHb|a IHa b IHb|k a IHa]; intros F H; pose proof (itype_fits _ F) as [T [R1 R2]]; cbn [fits inputs_ok itype irun ivalue irange fst snd] in *.
  - unfold constant_intval, ranged. cbn [fst snd]. rewrite (proj2 (i64_iff v) F). cbn [bind]. rewrite mkfix_in by lia. split; [reflexivity|lia].
  - destruct F as [A B]. unfold make_intval, ranged. cbn [fst snd]. rewrite (proj2 (i64_iff lo) A), (proj2 (i64_iff hi) B). cbn [bind]. rewrite mkfix_in by lia. split; [reflexivity|lia].
  - destruct F as [A [B [C D]]]. destruct H as [Ha Hb]. destruct (IHa A Ha) as [-> Ba]. destruct (IHb B Hb) as [-> Bb]. destruct (itype_fits a A) as [Ea [A1 A2]]. destruct (itype_fits b B) as [Eb [B1 B2]]. rewrite Ea, Eb in T. cbn [bind] in T |- *.
    unfold fix_add. cbn [fst snd]. rewrite T. cbn [bind]. unfold ranged. cbn [fshift fst snd]. rewrite !entry_in by lia. cbn [bind]. change (cmax 0 0 - 0) with 0. rewrite !shl64_0. unfold in64 in *. unfold add64.
    rewrite !(proj2 (i64_iff (ivalue env a))), !(proj2 (i64_iff (ivalue env b))) by (unfold in64; lia). cbn [bind]. rewrite (proj2 (i64_iff _)) by (unfold in64; lia). cbn [bind]. rewrite mkfix_in by lia. split; [reflexivity|lia].
  - destruct F as [A [B [C D]]]. destruct H as [Ha Hb]. destruct (IHa A Ha) as [-> Ba]. destruct (IHb B Hb) as [-> Bb]. destruct (itype_fits a A) as [Ea [A1 A2]]. destruct (itype_fits b B) as [Eb [B1 B2]]. rewrite Ea, Eb in T. cbn [bind] in T |- *.
    unfold fix_mul. cbn [fst snd]. rewrite T. cbn [bind]. destruct (irange a) as [la ha]. destruct (irange b) as [lb hb]. unfold ranged. cbn [fshift fst snd] in *. rewrite !entry_in by lia. cbn [bind]. pose proof (prod_range _ _ _ _ _ _ Ba Bb) as P. unfold in64 in *. unfold mul64.
    rewrite (proj2 (i64_iff _)) by (unfold in64; lia). cbn [bind]. rewrite mkfix_in by exact P. split; [reflexivity|exact P].
  - destruct F as [K A]. destruct (IHa A H) as [-> Ba]. cbn [bind]. unfold fix_shr_const, ranged. cbn [fst snd flow fhigh fshift]. rewrite !shr64_iff. replace ((0 <=? k) && (k <? 64)) with true by lia. cbn [bind].
    assert (P : 1 <= 2 ^ k) by (pose proof (Z.pow_pos_nonneg 2 k ltac:(lia) ltac:(lia)); lia).
    assert (B : fst (irange a) / 2 ^ k <= ivalue env a / 2 ^ k <= snd (irange a) / 2 ^ k) by (split; apply Z.div_le_mono; lia).
    rewrite mkfix_in by exact B. split; [reflexivity|exact B].
Qed.
Lemma program_ok env e t : itype e = Some t -> inputs_ok env e ->
  irun env e = Some (t, ivalue env e) /\ fshift t = 0 /\ (flow t, fhigh t) = irange e /\ flow t <= ivalue env e <= fhigh t /\ in64 (ivalue env e).
Proof.
  intros T H. assert (F : fits e) by (apply itype_only; rewrite T; discriminate). destruct (itype_fits e F) as [E [R1 R2]]. rewrite T in E. injection E as ->. destruct (irun_ok env e F H) as [R B].
  split; [exact R|]. unfold ranged. cbn [fshift flow fhigh]. split; [reflexivity|]. split; [destruct (irange e); reflexivity|]. split; [exact B|]. unfold in64 in *. lia.
Qed.
Lemma compiles_iff e : (exists t, itype e = Some t) <-> fits e.
Proof. split; [intros [t T]; apply itype_only; rewrite T; discriminate|intros F; eexists; apply (itype_fits e F)]. Qed.
Lemma outside low high v : ~ (low <= v <= high) -> make_intval low high v = None.
Proof.
  intros H. unfold make_intval. destruct (i64 low); cbn [bind]; [|reflexivity]. destruct (i64 high); cbn [bind]; [|reflexivity]. unfold mkfix, assert_. cbn [flow fhigh]. destruct (Z.leb_spec low v); cbn [bind]; [|reflexivity]. destruct (Z.leb_spec v high); [lia|reflexivity].
Qed.
Lemma shr_int64 k a : 0 <= k < 64 -> shr_const_int64 k a = Some (a / 2 ^ k).
Proof. intros H. unfold shr_const_int64. rewrite shr64_iff. replace ((0 <=? k) && (k <? 64)) with true by lia. reflexivity. Qed.

Lemma index_seq n : forall I, make_index_sequence n I = seq 0 n ++ I.
Proof. induction n as [|n IH]; intros I; [reflexivity|]. cbn [make_index_sequence]. rewrite IH. rewrite seq_S, <- app_assoc. reflexivity. Qed.
Lemma elements_seq {A} (x : list A) : forall p, elements (p ++ x) (seq (length p) (length x)) = Some x.
Proof.
  induction x as [|a x IH]; intros p; [reflexivity|]. cbn [length seq elements]. rewrite nth_error_app2 by lia. rewrite Nat.sub_diag. cbn [nth_error bind].
  specialize (IH (p ++ [a])). rewrite <- app_assoc in IH. cbn [app] in IH. rewrite app_length in IH. cbn [length] in IH. rewrite Nat.add_1_r in IH. rewrite IH. reflexivity.
Qed.
Lemma callN_ok {A B} (f : list A -> B) x : callN f x = Some (f x).
Proof. unfold callN. rewrite index_seq, app_nil_r. pose proof (elements_seq x []) as E. cbn [app length] in E. rewrite E. reflexivity. Qed.
