(** SoftFloat: the binary32 and binary64 functions. *)
From Coq Require Import ZArith Bool Lia.
From Verif Require Import Spec Spec754 Fw FwLemmas Sf754Lemmas SoftFloat SfProofs1 SfProofs2 SfProofs3 SfProofs4 SfProofs5 SfProofs6 SfProofs7 SfProofs8 SfProofs9.
Open Scope Z_scope.

Lemma pow32 : exists w, 0 <= w /\ 32 = 2 ^ w. Proof. exists 5. split; [lia|reflexivity]. Qed.
Lemma pow64 : exists w, 0 <= w /\ 64 = 2 ^ w. Proof. exists 6. split; [lia|reflexivity]. Qed.

Lemma f32_add_ok U a b : 32 <= U -> 0 <= a < 2 ^ 32 -> 0 <= b < 2 ^ 32 ->
  exists r, f32_add U a b = Some r /\ 0 <= r < 2 ^ 32 /\ decode754 8 23 r = add754 8 23 (decode754 8 23 a) (decode754 8 23 b).
Proof. intros HU Ha Hb. apply (sf_add_ok 8 23 U 32 32); try assumption; try lia. exact pow32. Qed.
Lemma f64_add_ok a b : 0 <= a < 2 ^ 64 -> 0 <= b < 2 ^ 64 ->
  exists r, f64_add a b = Some r /\ 0 <= r < 2 ^ 64 /\ decode754 11 52 r = add754 11 52 (decode754 11 52 a) (decode754 11 52 b).
Proof. intros Ha Hb. apply (sf_add_ok 11 52 64 16 64); try assumption; try lia. exact pow64. Qed.
Lemma f32_mul_ok U a b : 32 <= U -> 0 <= a < 2 ^ 32 -> 0 <= b < 2 ^ 32 ->
  exists r, f32_mul U a b = Some r /\ 0 <= r < 2 ^ 32 /\ decode754 8 23 r = mul754 8 23 (decode754 8 23 a) (decode754 8 23 b).
Proof. intros HU Ha Hb. apply (sf_mul_ok 8 23 U 32 32); try assumption; try lia; [exact pow32|]. intros. apply (f32_mulsig_ok U); assumption. Qed.
Lemma f64_mul_ok a b : 0 <= a < 2 ^ 64 -> 0 <= b < 2 ^ 64 ->
  exists r, f64_mul a b = Some r /\ 0 <= r < 2 ^ 64 /\ decode754 11 52 r = mul754 11 52 (decode754 11 52 a) (decode754 11 52 b).
Proof. intros Ha Hb. apply (sf_mul_ok 11 52 64 16 64); try assumption; try lia; [exact pow64|]. intros. apply f64_mulsig_ok; assumption. Qed.
Lemma f32_div_ok U a b : 32 <= U -> 0 <= a < 2 ^ 32 -> 0 <= b < 2 ^ 32 ->
  exists r, f32_div U a b = Some r /\ 0 <= r < 2 ^ 32 /\ decode754 8 23 r = div754 8 23 (decode754 8 23 a) (decode754 8 23 b).
Proof. intros HU Ha Hb. apply (sf_div_ok 8 23 U 32 32); try assumption; try lia; [exact pow32|]. intros. apply (f32_divsig_ok U); assumption. Qed.
Lemma f64_div_ok a b : 0 <= a < 2 ^ 64 -> 0 <= b < 2 ^ 64 ->
  exists r, f64_div a b = Some r /\ 0 <= r < 2 ^ 64 /\ decode754 11 52 r = div754 11 52 (decode754 11 52 a) (decode754 11 52 b).
Proof. intros Ha Hb. apply (sf_div_ok 11 52 64 16 64); try assumption; try lia; [exact pow64|]. intros. apply f64_divsig_ok; assumption. Qed.

Lemma cmp754_antisym x y : cmp754 y x = option_map CompOpp (cmp754 x y).
Proof.
  destruct x as [|s|s|s m e]; destruct y as [|t|t|t n f]; cbn [cmp754 option_map]; try reflexivity; try (destruct s; reflexivity); try (destruct t; reflexivity);
    try (destruct s, t; reflexivity).
  cbv zeta. rewrite (Z.min_comm f e). f_equal. apply Z.compare_antisym.
Qed.

Lemma f32_cmp_ok a b : 0 <= a < 2 ^ 32 -> 0 <= b < 2 ^ 32 ->
  let c := cmp754 (decode754 8 23 a) (decode754 8 23 b) in
  f32_eq a b = match c with Some Eq => true | _ => false end /\
  f32_ne a b = match c with Some Eq => false | _ => true end /\
  f32_lt a b = match c with Some Lt => true | _ => false end /\
  f32_gt a b = match c with Some Gt => true | _ => false end /\
  f32_le a b = match c with Some Lt | Some Eq => true | _ => false end /\
  f32_ge a b = match c with Some Gt | Some Eq => true | _ => false end.
Proof.
  intros Ha Hb. cbv zeta. destruct (sf_cmp_ok 8 23 32 eq_refl ltac:(lia) ltac:(lia) a b Ha Hb) as (X1 & X2 & X3).
  destruct (sf_cmp_ok 8 23 32 eq_refl ltac:(lia) ltac:(lia) b a Hb Ha) as (_ & Y2 & Y3).
  unfold f32_ne, f32_gt, f32_ge, f32_eq, f32_lt, f32_le. rewrite X1, X2, X3, Y2, Y3. unfold eq754, lt754, le754.
  rewrite (cmp754_antisym (decode754 8 23 a)). destruct (cmp754 (decode754 8 23 a) (decode754 8 23 b)) as [[]|]; repeat split; reflexivity.
Qed.
Lemma f64_cmp_ok a b : 0 <= a < 2 ^ 64 -> 0 <= b < 2 ^ 64 ->
  let c := cmp754 (decode754 11 52 a) (decode754 11 52 b) in
  f64_eq a b = match c with Some Eq => true | _ => false end /\
  f64_ne a b = match c with Some Eq => false | _ => true end /\
  f64_lt a b = match c with Some Lt => true | _ => false end /\
  f64_gt a b = match c with Some Gt => true | _ => false end /\
  f64_le a b = match c with Some Lt | Some Eq => true | _ => false end /\
  f64_ge a b = match c with Some Gt | Some Eq => true | _ => false end.
Proof.
  intros Ha Hb. cbv zeta. destruct (sf_cmp_ok 11 52 64 eq_refl ltac:(lia) ltac:(lia) a b Ha Hb) as (X1 & X2 & X3).
  destruct (sf_cmp_ok 11 52 64 eq_refl ltac:(lia) ltac:(lia) b a Hb Ha) as (_ & Y2 & Y3).
  unfold f64_ne, f64_gt, f64_ge, f64_eq, f64_lt, f64_le. rewrite X1, X2, X3, Y2, Y3. unfold eq754, lt754, le754.
  rewrite (cmp754_antisym (decode754 11 52 a)). destruct (cmp754 (decode754 11 52 a) (decode754 11 52 b)) as [[]|]; repeat split; reflexivity.
Qed.

(** The constants. *)
Lemma sf32_min_ok : decode754 8 23 sf32_min = Num false (2 ^ 23) (1 - bias 8 - 23).
Proof. vm_compute. reflexivity. Qed.
Lemma sf32_infinity_ok : decode754 8 23 sf32_infinity = Inf false.
Proof. vm_compute. reflexivity. Qed.
Lemma sf32_round_error_ok : decode754 8 23 sf32_round_error = Num false (2 ^ 23) (- 1 - 23).
Proof. vm_compute. reflexivity. Qed.
Lemma sf32_denorm_min_ok x : 0 <= x < 2 ^ 32 -> lt754 (Zero false) (decode754 8 23 x) = true ->
  lt754 (Zero false) (decode754 8 23 sf32_denorm_min) = true /\ le754 (decode754 8 23 sf32_denorm_min) (decode754 8 23 x) = true.
Proof.
  intros Hx H. split; [reflexivity|].
  assert (H1 : 0 <= sf32_denorm_min < 2 ^ 32) by (unfold sf32_denorm_min; lia). assert (H0 : 0 <= 0 < 2 ^ 32) by lia.
  destruct (f32_cmp_ok sf32_denorm_min x H1 Hx) as (_ & _ & _ & _ & L & _).
  destruct (f32_cmp_ok 0 x H0 Hx) as (_ & _ & G & _).
  change (decode754 8 23 0) with (Zero false) in G. unfold lt754 in H. rewrite H in G. unfold le754. rewrite <- L.
  unfold f32_lt, sf_lt in G. unfold f32_le, sf_le.
  change (isNaNUI 8 23 0) with false in G. change (isNaNUI 8 23 sf32_denorm_min) with false. cbn [orb] in *.
  destruct (isNaNUI 8 23 x); [discriminate|].
  change (signUI 8 23 0) with false in G. change (signUI 8 23 sf32_denorm_min) with false.
  destruct (signUI 8 23 x); cbn [Bool.eqb negb andb xorb] in *; [discriminate|].
  apply andb_prop in G. destruct G as [G1 G2]. apply negb_true_iff, Z.eqb_neq in G1. unfold sf32_denorm_min.
  destruct (Z.eqb_spec 1 x); [reflexivity|]. destruct (Z.ltb_spec 1 x); [reflexivity|lia].
Qed.
