(** C61: the SoftFloat operations on finite words are the operations on real numbers, rounded by Flocq's rounding to nearest
    even in the format with F+1 bits and smallest exponent 1-bias-F (rounded754, SpecFlocq754.v). rv is the real value of a
    decoded word. These theorems depend on the axioms of the standard library's real numbers, and on no others. *)
From Coq Require Import ZArith Bool Lia Reals.
From Flocq Require Import Core.
From Verif Require Import Spec Spec754 SpecFlocq SpecReal SpecFlocq754 SoftFloat SfProofs10.
Open Scope Z_scope.

(** The binary32 sum. *)
Theorem C61_f32_add U a b : 32 <= U -> 0 <= a < 2 ^ 32 -> 0 <= b < 2 ^ 32 -> finite_v (decode754 8 23 a) -> finite_v (decode754 8 23 b) ->
  exists r, f32_add U a b = Some r /\ 0 <= r < 2 ^ 32 /\ rounded754 8 23 (rv (decode754 8 23 a) + rv (decode754 8 23 b)) (decode754 8 23 r).
Proof.
  intros HU Ha Hb Fa Fb. destruct (f32_add_ok U a b HU Ha Hb) as (r & R1 & R2 & R3). exists r. split; [exact R1|]. split; [exact R2|]. rewrite R3.
  apply add754_real; try apply decode754_number; (assumption || lia).
Qed.
Print Assumptions C61_f32_add.
Example C61_f32_add_ex : finite_v (decode754 8 23 0x40490FDB) /\ finite_v (decode754 8 23 0x00000001) /\ f32_add 32 0x40490FDB 0x00000001 = Some 0x40490FDB.
Proof. split; [exact I|]. split; [exact I|]. vm_compute. reflexivity. Qed.

(** The binary32 product. *)
Theorem C61_f32_mul U a b : 32 <= U -> 0 <= a < 2 ^ 32 -> 0 <= b < 2 ^ 32 -> finite_v (decode754 8 23 a) -> finite_v (decode754 8 23 b) ->
  exists r, f32_mul U a b = Some r /\ 0 <= r < 2 ^ 32 /\ rounded754 8 23 (rv (decode754 8 23 a) * rv (decode754 8 23 b)) (decode754 8 23 r).
Proof.
  intros HU Ha Hb Fa Fb. destruct (f32_mul_ok U a b HU Ha Hb) as (r & R1 & R2 & R3). exists r. split; [exact R1|]. split; [exact R2|]. rewrite R3.
  apply mul754_real; try apply decode754_number; (assumption || lia).
Qed.
Print Assumptions C61_f32_mul.
Example C61_f32_mul_ex : finite_v (decode754 8 23 0x40490FDB) /\ finite_v (decode754 8 23 0x00000001) /\ f32_mul 32 0x40490FDB 0x00000001 = Some 3.
Proof. split; [exact I|]. split; [exact I|]. vm_compute. reflexivity. Qed.

(** The binary32 quotient. *)
Theorem C61_f32_div U a b : 32 <= U -> 0 <= a < 2 ^ 32 -> 0 <= b < 2 ^ 32 -> finite_v (decode754 8 23 a) -> finite_v (decode754 8 23 b) -> rv (decode754 8 23 b) <> 0%R ->
  exists r, f32_div U a b = Some r /\ 0 <= r < 2 ^ 32 /\ rounded754 8 23 (rv (decode754 8 23 a) / rv (decode754 8 23 b)) (decode754 8 23 r).
Proof.
  intros HU Ha Hb Fa Fb N. destruct (f32_div_ok U a b HU Ha Hb) as (r & R1 & R2 & R3). exists r. split; [exact R1|]. split; [exact R2|]. rewrite R3.
  apply div754_real; try apply decode754_number; (assumption || lia).
Qed.
Print Assumptions C61_f32_div.
Example C61_f32_div_ex : finite_v (decode754 8 23 0x3F800000) /\ rv (decode754 8 23 0x40400000) <> 0%R /\ f32_div 32 0x3F800000 0x40400000 = Some 0x3EAAAAAB.
Proof.
  split; [exact I|]. split; [|vm_compute; reflexivity]. change (decode754 8 23 0x40400000) with (Num false 0xC00000 (-22)).
  cbn [rv]. apply Rgt_not_eq, Rmult_gt_0_compat; [apply IZR_lt; lia|apply bpow_gt_0].
Qed.

(** The binary32 comparisons of finite words are those of the real numbers. *)
Theorem C61_f32_compare a b : 0 <= a < 2 ^ 32 -> 0 <= b < 2 ^ 32 -> finite_v (decode754 8 23 a) -> finite_v (decode754 8 23 b) ->
  (f32_eq a b = true <-> (rv (decode754 8 23 a) = rv (decode754 8 23 b))%R) /\
  (f32_lt a b = true <-> (rv (decode754 8 23 a) < rv (decode754 8 23 b))%R) /\
  (f32_le a b = true <-> (rv (decode754 8 23 a) <= rv (decode754 8 23 b))%R).
Proof.
  intros Ha Hb Fa Fb. destruct (f32_cmp_ok a b Ha Hb) as (C1 & _ & C2 & _ & C3 & _). rewrite C1, C2, C3.
  rewrite (cmp754_real _ _ (decode754_number 8 23 ltac:(lia) a ltac:(lia) Fa) (decode754_number 8 23 ltac:(lia) b ltac:(lia) Fb)).
  case Rcompare_spec; intros H; (repeat split); intros; try reflexivity; try discriminate; try Lra.lra; try assumption.
Qed.
Print Assumptions C61_f32_compare.
Example C61_f32_compare_ex : finite_v (decode754 8 23 1) /\ finite_v (decode754 8 23 2) /\ f32_lt 1 2 = true.
Proof. split; [exact I|]. split; [exact I|]. reflexivity. Qed.

(** The binary64 sum. *)
Theorem C61_f64_add a b : 0 <= a < 2 ^ 64 -> 0 <= b < 2 ^ 64 -> finite_v (decode754 11 52 a) -> finite_v (decode754 11 52 b) ->
  exists r, f64_add a b = Some r /\ 0 <= r < 2 ^ 64 /\ rounded754 11 52 (rv (decode754 11 52 a) + rv (decode754 11 52 b)) (decode754 11 52 r).
Proof.
  intros Ha Hb Fa Fb. destruct (f64_add_ok a b Ha Hb) as (r & R1 & R2 & R3). exists r. split; [exact R1|]. split; [exact R2|]. rewrite R3.
  apply add754_real; try apply decode754_number; (assumption || lia).
Qed.
Print Assumptions C61_f64_add.
Example C61_f64_add_ex : finite_v (decode754 11 52 0x400921FB54442D18) /\ finite_v (decode754 11 52 0x0000000000000001) /\ f64_add 0x400921FB54442D18 0x0000000000000001 = Some 0x400921FB54442D18.
Proof. split; [exact I|]. split; [exact I|]. vm_compute. reflexivity. Qed.

(** The binary64 product. *)
Theorem C61_f64_mul a b : 0 <= a < 2 ^ 64 -> 0 <= b < 2 ^ 64 -> finite_v (decode754 11 52 a) -> finite_v (decode754 11 52 b) ->
  exists r, f64_mul a b = Some r /\ 0 <= r < 2 ^ 64 /\ rounded754 11 52 (rv (decode754 11 52 a) * rv (decode754 11 52 b)) (decode754 11 52 r).
Proof.
  intros Ha Hb Fa Fb. destruct (f64_mul_ok a b Ha Hb) as (r & R1 & R2 & R3). exists r. split; [exact R1|]. split; [exact R2|]. rewrite R3.
  apply mul754_real; try apply decode754_number; (assumption || lia).
Qed.
Print Assumptions C61_f64_mul.
Example C61_f64_mul_ex : finite_v (decode754 11 52 0x400921FB54442D18) /\ finite_v (decode754 11 52 0x0000000000000001) /\ f64_mul 0x400921FB54442D18 0x0000000000000001 = Some 3.
Proof. split; [exact I|]. split; [exact I|]. vm_compute. reflexivity. Qed.

(** The binary64 quotient. *)
Theorem C61_f64_div a b : 0 <= a < 2 ^ 64 -> 0 <= b < 2 ^ 64 -> finite_v (decode754 11 52 a) -> finite_v (decode754 11 52 b) -> rv (decode754 11 52 b) <> 0%R ->
  exists r, f64_div a b = Some r /\ 0 <= r < 2 ^ 64 /\ rounded754 11 52 (rv (decode754 11 52 a) / rv (decode754 11 52 b)) (decode754 11 52 r).
Proof.
  intros Ha Hb Fa Fb N. destruct (f64_div_ok a b Ha Hb) as (r & R1 & R2 & R3). exists r. split; [exact R1|]. split; [exact R2|]. rewrite R3.
  apply div754_real; try apply decode754_number; (assumption || lia).
Qed.
Print Assumptions C61_f64_div.
Example C61_f64_div_ex : finite_v (decode754 11 52 0x3FF0000000000000) /\ rv (decode754 11 52 0x4008000000000000) <> 0%R /\ f64_div 0x3FF0000000000000 0x4008000000000000 = Some 0x3FD5555555555555.
Proof.
  split; [exact I|]. split; [|vm_compute; reflexivity]. change (decode754 11 52 0x4008000000000000) with (Num false 0x18000000000000 (-51)).
  cbn [rv]. apply Rgt_not_eq, Rmult_gt_0_compat; [apply IZR_lt; lia|apply bpow_gt_0].
Qed.

(** The binary64 comparisons of finite words are those of the real numbers. *)
Theorem C61_f64_compare a b : 0 <= a < 2 ^ 64 -> 0 <= b < 2 ^ 64 -> finite_v (decode754 11 52 a) -> finite_v (decode754 11 52 b) ->
  (f64_eq a b = true <-> (rv (decode754 11 52 a) = rv (decode754 11 52 b))%R) /\
  (f64_lt a b = true <-> (rv (decode754 11 52 a) < rv (decode754 11 52 b))%R) /\
  (f64_le a b = true <-> (rv (decode754 11 52 a) <= rv (decode754 11 52 b))%R).
Proof.
  intros Ha Hb Fa Fb. destruct (f64_cmp_ok a b Ha Hb) as (C1 & _ & C2 & _ & C3 & _). rewrite C1, C2, C3.
  rewrite (cmp754_real _ _ (decode754_number 11 52 ltac:(lia) a ltac:(lia) Fa) (decode754_number 11 52 ltac:(lia) b ltac:(lia) Fb)).
  case Rcompare_spec; intros H; (repeat split); intros; try reflexivity; try discriminate; try Lra.lra; try assumption.
Qed.
Print Assumptions C61_f64_compare.
Example C61_f64_compare_ex : finite_v (decode754 11 52 1) /\ finite_v (decode754 11 52 2) /\ f64_lt 1 2 = true.
Proof. split; [exact I|]. split; [exact I|]. reflexivity. Qed.

