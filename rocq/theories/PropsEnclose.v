(** C91: with SoftFloat's directed rounding modes the computed words enclose the exact result, as tightly as the format allows,
    and interval arithmetic built on them is sound. The library declares the modes (softfloat.h:74-81) and its rounding
    functions honour them (C88); as delivered, only "near_even" is selected. at_most, at_least, tightest, encloses and inside
    are in SpecEnclose.v. These theorems depend on the axioms of the standard library's real numbers, and on no others. *)
From Coq Require Import ZArith Bool Lia Reals Lra List.
From Flocq Require Import Core.
From Verif Require Import Spec Spec754 Spec754Mode SpecFlocq SpecReal SpecFlocq754Mode SoftFloatMode SpecSfMode SpecEnclose EncloseProofs EncloseProofs2 PropsSfModeReal Inst InstR.
Import ListNotations.
Open Scope Z_scope.

(** The binary32 sum. *)
Theorem C91_f32_add odd U a b : 32 <= U -> 0 <= a < 2 ^ 32 -> 0 <= b < 2 ^ 32 -> finite_v (decode754 8 23 a) -> finite_v (decode754 8 23 b) -> 
  encloses 8 23 odd (fun md => f32_addM md odd U a b) (rv (decode754 8 23 a) + rv (decode754 8 23 b)).
Proof.
  intros HU Ha Hb Fa Fb. apply enclose; [lia|lia|]. intros md S.
  destruct (C88_f32_add_real md odd U a b S HU Ha Hb Fa Fb) as (r & R1 & R2 & R3). exists r. split; [exact R1|]. split; [exact R2|]. split; [|exact R3].
  exact (rounded_not_nan 8 23 md _ _ R3).
Qed.
Print Assumptions C91_f32_add.
Example C91_f32_add_at := C91_f32_add true 32 0x40490FDB 0x40400000 ltac:(hyp) ltac:(hyp) ltac:(hyp) ltac:(hyp) ltac:(hyp).

(** The binary32 product. *)
Theorem C91_f32_mul odd U a b : 32 <= U -> 0 <= a < 2 ^ 32 -> 0 <= b < 2 ^ 32 -> finite_v (decode754 8 23 a) -> finite_v (decode754 8 23 b) -> 
  encloses 8 23 odd (fun md => f32_mulM md odd U a b) (rv (decode754 8 23 a) * rv (decode754 8 23 b)).
Proof.
  intros HU Ha Hb Fa Fb. apply enclose; [lia|lia|]. intros md S.
  destruct (C88_f32_mul_real md odd U a b S HU Ha Hb Fa Fb) as (r & R1 & R2 & R3). exists r. split; [exact R1|]. split; [exact R2|]. split; [|exact R3].
  exact (rounded_not_nan 8 23 md _ _ R3).
Qed.
Print Assumptions C91_f32_mul.
Example C91_f32_mul_at := C91_f32_mul true 32 0x40490FDB 0x40400000 ltac:(hyp) ltac:(hyp) ltac:(hyp) ltac:(hyp) ltac:(hyp).

(** The binary32 quotient. *)
Theorem C91_f32_div odd U a b : 32 <= U -> 0 <= a < 2 ^ 32 -> 0 <= b < 2 ^ 32 -> finite_v (decode754 8 23 a) -> finite_v (decode754 8 23 b) -> rv (decode754 8 23 b) <> 0%R -> 
  encloses 8 23 odd (fun md => f32_divM md odd U a b) (rv (decode754 8 23 a) / rv (decode754 8 23 b)).
Proof.
  intros HU Ha Hb Fa Fb N. apply enclose; [lia|lia|]. intros md S.
  destruct (C88_f32_div_real md odd U a b S HU Ha Hb Fa Fb N) as (r & R1 & R2 & R3). exists r. split; [exact R1|]. split; [exact R2|]. split; [|exact R3].
  exact (rounded_not_nan 8 23 md _ _ R3).
Qed.
Print Assumptions C91_f32_div.
Example C91_f32_div_at := C91_f32_div true 32 0x40490FDB 0x40400000 ltac:(hyp) ltac:(hyp) ltac:(hyp) ltac:(hyp) ltac:(hyp) ltac:(hypr).

(** Intervals with binary32 end points: the sum of two intervals lies between the lower ends added downward and the upper ends
    added upward. *)
Theorem C91_f32_interval_add odd U a1 a2 b1 b2 : 32 <= U -> 0 <= a1 < 2 ^ 32 -> 0 <= a2 < 2 ^ 32 -> 0 <= b1 < 2 ^ 32 -> 0 <= b2 < 2 ^ 32 -> 
  finite_v (decode754 8 23 a1) -> finite_v (decode754 8 23 a2) -> finite_v (decode754 8 23 b1) -> finite_v (decode754 8 23 b2) -> 
  exists lo hi, f32_addM (enum_of Min) odd U a1 b1 = Some lo /\ f32_addM (enum_of Max) odd U a2 b2 = Some hi /\
    forall x y, inside 8 23 a1 a2 x -> inside 8 23 b1 b2 y -> at_most (decode754 8 23 lo) (x + y) /\ at_least (decode754 8 23 hi) (x + y).
Proof.
  intros. apply (iv_add 8 23 odd (fun md a b => f32_addM md odd U a b)); apply C91_f32_add; assumption.
Qed.
Print Assumptions C91_f32_interval_add.
Example C91_f32_interval_add_at := C91_f32_interval_add true 32 0x3F800000 0x40490FDB 0xBF800000 0x40000000 ltac:(hyp) ltac:(hyp) ltac:(hyp) ltac:(hyp) ltac:(hyp) ltac:(hyp) ltac:(hyp) ltac:(hyp) ltac:(hyp).

(** The product of two intervals lies above one of the four products of end points computed downward, and below one of the four
    computed upward. *)
Theorem C91_f32_interval_mul odd U a1 a2 b1 b2 x y : 32 <= U -> 0 <= a1 < 2 ^ 32 -> 0 <= a2 < 2 ^ 32 -> 0 <= b1 < 2 ^ 32 -> 0 <= b2 < 2 ^ 32 -> 
  finite_v (decode754 8 23 a1) -> finite_v (decode754 8 23 a2) -> finite_v (decode754 8 23 b1) -> finite_v (decode754 8 23 b2) -> 
  inside 8 23 a1 a2 x -> inside 8 23 b1 b2 y ->
  (exists a b lo, In a [a1; a2] /\ In b [b1; b2] /\ f32_mulM (enum_of Min) odd U a b = Some lo /\ at_most (decode754 8 23 lo) (x * y)) /\
  (exists a b hi, In a [a1; a2] /\ In b [b1; b2] /\ f32_mulM (enum_of Max) odd U a b = Some hi /\ at_least (decode754 8 23 hi) (x * y)).
Proof.
  intros. apply (iv_mul 8 23 odd (fun md a b => f32_mulM md odd U a b)); try assumption.
  intros a b IA IB. apply C91_f32_mul; cbn [In] in IA, IB; try assumption; try (destruct IA as [<-|[<-|[]]]; assumption); destruct IB as [<-|[<-|[]]]; assumption.
Qed.
Print Assumptions C91_f32_interval_mul.
Example C91_f32_interval_mul_at := C91_f32_interval_mul true 32 0xBF800000 0x40490FDB 0xBF800000 0x40000000 1 1 ltac:(hyp) ltac:(hyp) ltac:(hyp) ltac:(hyp) ltac:(hyp) ltac:(hyp) ltac:(hyp) ltac:(hyp) ltac:(hyp) ltac:(unfold inside; split; hypr) ltac:(unfold inside; split; hypr).

(** The quotient of two intervals, the divisor not containing zero, lies above one of the four quotients of end points computed downward, and below one of the four
    computed upward. *)
Theorem C91_f32_interval_div odd U a1 a2 b1 b2 x y : 32 <= U -> 0 <= a1 < 2 ^ 32 -> 0 <= a2 < 2 ^ 32 -> 0 <= b1 < 2 ^ 32 -> 0 <= b2 < 2 ^ 32 -> 
  finite_v (decode754 8 23 a1) -> finite_v (decode754 8 23 a2) -> finite_v (decode754 8 23 b1) -> finite_v (decode754 8 23 b2) -> 
  (0 < rv (decode754 8 23 b1) \/ rv (decode754 8 23 b2) < 0)%R -> inside 8 23 a1 a2 x -> inside 8 23 b1 b2 y ->
  (exists a b lo, In a [a1; a2] /\ In b [b1; b2] /\ f32_divM (enum_of Min) odd U a b = Some lo /\ at_most (decode754 8 23 lo) (x / y)) /\
  (exists a b hi, In a [a1; a2] /\ In b [b1; b2] /\ f32_divM (enum_of Max) odd U a b = Some hi /\ at_least (decode754 8 23 hi) (x / y)).
Proof.
  intros.  match goal with Z : (_ \/ _)%R |- _ => rename Z into ZZ end.
  apply (iv_div 8 23 odd (fun md a b => f32_divM md odd U a b)); try assumption.
  assert (D : (rv (decode754 8 23 b1) <= rv (decode754 8 23 b2))%R) by (match goal with Y : inside _ _ b1 b2 _ |- _ => destruct Y; eapply Rle_trans; eassumption end).
  intros a b IA IB. apply C91_f32_div; cbn [In] in IA, IB; try assumption; try (destruct IA as [<-|[<-|[]]]; assumption); try (destruct IB as [<-|[<-|[]]]; assumption).
  destruct IB as [<-|[<-|[]]]; destruct ZZ; intros Q; rewrite Q in *; lra.
Qed.
Print Assumptions C91_f32_interval_div.
Example C91_f32_interval_div_at := C91_f32_interval_div true 32 0xBF800000 0x40490FDB 0x3F800000 0x40000000 1 (3 / 2) ltac:(hyp) ltac:(hyp) ltac:(hyp) ltac:(hyp) ltac:(hyp) ltac:(hyp) ltac:(hyp) ltac:(hyp) ltac:(hyp) ltac:(left; hypr) ltac:(unfold inside; split; hypr) ltac:(unfold inside; split; hypr).

(** The binary64 sum. *)
Theorem C91_f64_add odd a b : 0 <= a < 2 ^ 64 -> 0 <= b < 2 ^ 64 -> finite_v (decode754 11 52 a) -> finite_v (decode754 11 52 b) -> 
  encloses 11 52 odd (fun md => f64_addM md odd a b) (rv (decode754 11 52 a) + rv (decode754 11 52 b)).
Proof.
  intros Ha Hb Fa Fb. apply enclose; [lia|lia|]. intros md S.
  destruct (C88_f64_add_real md odd a b S Ha Hb Fa Fb) as (r & R1 & R2 & R3). exists r. split; [exact R1|]. split; [exact R2|]. split; [|exact R3].
  exact (rounded_not_nan 11 52 md _ _ R3).
Qed.
Print Assumptions C91_f64_add.
Example C91_f64_add_at := C91_f64_add true 0x400921FB54442D18 0x4008000000000000 ltac:(hyp) ltac:(hyp) ltac:(hyp) ltac:(hyp).

(** The binary64 product. *)
Theorem C91_f64_mul odd a b : 0 <= a < 2 ^ 64 -> 0 <= b < 2 ^ 64 -> finite_v (decode754 11 52 a) -> finite_v (decode754 11 52 b) -> 
  encloses 11 52 odd (fun md => f64_mulM md odd a b) (rv (decode754 11 52 a) * rv (decode754 11 52 b)).
Proof.
  intros Ha Hb Fa Fb. apply enclose; [lia|lia|]. intros md S.
  destruct (C88_f64_mul_real md odd a b S Ha Hb Fa Fb) as (r & R1 & R2 & R3). exists r. split; [exact R1|]. split; [exact R2|]. split; [|exact R3].
  exact (rounded_not_nan 11 52 md _ _ R3).
Qed.
Print Assumptions C91_f64_mul.
Example C91_f64_mul_at := C91_f64_mul true 0x400921FB54442D18 0x4008000000000000 ltac:(hyp) ltac:(hyp) ltac:(hyp) ltac:(hyp).

(** The binary64 quotient. *)
Theorem C91_f64_div odd a b : 0 <= a < 2 ^ 64 -> 0 <= b < 2 ^ 64 -> finite_v (decode754 11 52 a) -> finite_v (decode754 11 52 b) -> rv (decode754 11 52 b) <> 0%R -> 
  encloses 11 52 odd (fun md => f64_divM md odd a b) (rv (decode754 11 52 a) / rv (decode754 11 52 b)).
Proof.
  intros Ha Hb Fa Fb N. apply enclose; [lia|lia|]. intros md S.
  destruct (C88_f64_div_real md odd a b S Ha Hb Fa Fb N) as (r & R1 & R2 & R3). exists r. split; [exact R1|]. split; [exact R2|]. split; [|exact R3].
  exact (rounded_not_nan 11 52 md _ _ R3).
Qed.
Print Assumptions C91_f64_div.
Example C91_f64_div_at := C91_f64_div true 0x400921FB54442D18 0x4008000000000000 ltac:(hyp) ltac:(hyp) ltac:(hyp) ltac:(hyp) ltac:(hypr).

(** Intervals with binary64 end points: the sum of two intervals lies between the lower ends added downward and the upper ends
    added upward. *)
Theorem C91_f64_interval_add odd a1 a2 b1 b2 : 0 <= a1 < 2 ^ 64 -> 0 <= a2 < 2 ^ 64 -> 0 <= b1 < 2 ^ 64 -> 0 <= b2 < 2 ^ 64 -> 
  finite_v (decode754 11 52 a1) -> finite_v (decode754 11 52 a2) -> finite_v (decode754 11 52 b1) -> finite_v (decode754 11 52 b2) -> 
  exists lo hi, f64_addM (enum_of Min) odd a1 b1 = Some lo /\ f64_addM (enum_of Max) odd a2 b2 = Some hi /\
    forall x y, inside 11 52 a1 a2 x -> inside 11 52 b1 b2 y -> at_most (decode754 11 52 lo) (x + y) /\ at_least (decode754 11 52 hi) (x + y).
Proof.
  intros. apply (iv_add 11 52 odd (fun md a b => f64_addM md odd a b)); apply C91_f64_add; assumption.
Qed.
Print Assumptions C91_f64_interval_add.
Example C91_f64_interval_add_at := C91_f64_interval_add true 0x3FF0000000000000 0x400921FB54442D18 0xBFF0000000000000 0x4000000000000000 ltac:(hyp) ltac:(hyp) ltac:(hyp) ltac:(hyp) ltac:(hyp) ltac:(hyp) ltac:(hyp) ltac:(hyp).

(** The product of two intervals lies above one of the four products of end points computed downward, and below one of the four
    computed upward. *)
Theorem C91_f64_interval_mul odd a1 a2 b1 b2 x y : 0 <= a1 < 2 ^ 64 -> 0 <= a2 < 2 ^ 64 -> 0 <= b1 < 2 ^ 64 -> 0 <= b2 < 2 ^ 64 -> 
  finite_v (decode754 11 52 a1) -> finite_v (decode754 11 52 a2) -> finite_v (decode754 11 52 b1) -> finite_v (decode754 11 52 b2) -> 
  inside 11 52 a1 a2 x -> inside 11 52 b1 b2 y ->
  (exists a b lo, In a [a1; a2] /\ In b [b1; b2] /\ f64_mulM (enum_of Min) odd a b = Some lo /\ at_most (decode754 11 52 lo) (x * y)) /\
  (exists a b hi, In a [a1; a2] /\ In b [b1; b2] /\ f64_mulM (enum_of Max) odd a b = Some hi /\ at_least (decode754 11 52 hi) (x * y)).
Proof.
  intros. apply (iv_mul 11 52 odd (fun md a b => f64_mulM md odd a b)); try assumption.
  intros a b IA IB. apply C91_f64_mul; cbn [In] in IA, IB; try assumption; try (destruct IA as [<-|[<-|[]]]; assumption); destruct IB as [<-|[<-|[]]]; assumption.
Qed.
Print Assumptions C91_f64_interval_mul.
Example C91_f64_interval_mul_at := C91_f64_interval_mul true 0xBFF0000000000000 0x400921FB54442D18 0xBFF0000000000000 0x4000000000000000 1 1 ltac:(hyp) ltac:(hyp) ltac:(hyp) ltac:(hyp) ltac:(hyp) ltac:(hyp) ltac:(hyp) ltac:(hyp) ltac:(unfold inside; split; hypr) ltac:(unfold inside; split; hypr).

(** The quotient of two intervals, the divisor not containing zero, lies above one of the four quotients of end points computed downward, and below one of the four
    computed upward. *)
Theorem C91_f64_interval_div odd a1 a2 b1 b2 x y : 0 <= a1 < 2 ^ 64 -> 0 <= a2 < 2 ^ 64 -> 0 <= b1 < 2 ^ 64 -> 0 <= b2 < 2 ^ 64 -> 
  finite_v (decode754 11 52 a1) -> finite_v (decode754 11 52 a2) -> finite_v (decode754 11 52 b1) -> finite_v (decode754 11 52 b2) -> 
  (0 < rv (decode754 11 52 b1) \/ rv (decode754 11 52 b2) < 0)%R -> inside 11 52 a1 a2 x -> inside 11 52 b1 b2 y ->
  (exists a b lo, In a [a1; a2] /\ In b [b1; b2] /\ f64_divM (enum_of Min) odd a b = Some lo /\ at_most (decode754 11 52 lo) (x / y)) /\
  (exists a b hi, In a [a1; a2] /\ In b [b1; b2] /\ f64_divM (enum_of Max) odd a b = Some hi /\ at_least (decode754 11 52 hi) (x / y)).
Proof.
  intros.  match goal with Z : (_ \/ _)%R |- _ => rename Z into ZZ end.
  apply (iv_div 11 52 odd (fun md a b => f64_divM md odd a b)); try assumption.
  assert (D : (rv (decode754 11 52 b1) <= rv (decode754 11 52 b2))%R) by (match goal with Y : inside _ _ b1 b2 _ |- _ => destruct Y; eapply Rle_trans; eassumption end).
  intros a b IA IB. apply C91_f64_div; cbn [In] in IA, IB; try assumption; try (destruct IA as [<-|[<-|[]]]; assumption); try (destruct IB as [<-|[<-|[]]]; assumption).
  destruct IB as [<-|[<-|[]]]; destruct ZZ; intros Q; rewrite Q in *; lra.
Qed.
Print Assumptions C91_f64_interval_div.
Example C91_f64_interval_div_at := C91_f64_interval_div true 0xBFF0000000000000 0x400921FB54442D18 0x3FF0000000000000 0x4000000000000000 1 (3 / 2) ltac:(hyp) ltac:(hyp) ltac:(hyp) ltac:(hyp) ltac:(hyp) ltac:(hyp) ltac:(hyp) ltac:(hyp) ltac:(left; hypr) ltac:(unfold inside; split; hypr) ltac:(unfold inside; split; hypr).

(** 1/3 in binary32: the two words around it; the nearest is the upper one. Overflow: the largest number and infinity. *)
Example C91_instance : f32_divM (enum_of Min) true 32 0x3F800000 0x40400000 = Some 0x3EAAAAAA /\ f32_divM (enum_of Max) true 32 0x3F800000 0x40400000 = Some 0x3EAAAAAB /\
  f32_divM (enum_of NearEven) true 32 0x3F800000 0x40400000 = Some 0x3EAAAAAB /\
  f32_mulM (enum_of Min) true 32 0x7F7FFFFF 0x7F7FFFFF = Some 0x7F7FFFFF /\ f32_mulM (enum_of Max) true 32 0x7F7FFFFF 0x7F7FFFFF = Some 0x7F800000.
Proof. vm_compute. repeat split; reflexivity. Qed.
