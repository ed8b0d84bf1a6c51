(** Fixed-point values with static ranges (C37) and their compile-time comparison (C38). *)
From Coq Require Import ZArith Bool List QArith.
From Verif Require Import Fw SpecFix Fixval FixvalProofs FixvalProofs2 Inst.
Import ListNotations.
Open Scope Z_scope.

(** ** C37. [in_range a] is: the value of a lies between the bounds of its type. When the result type
    exists (its bounds fit 64 bits), the operation is defined for every pair of values in range, its
    result is in the range of the result type, and it is exact. *)
Theorem C37_add a b t : add_type (fst a) (fst b) = Some t -> in_range a -> in_range b ->
  exists v, fix_add a b = Some (t, v) /\ flow t <= v <= fhigh t /\
    (fixq (fshift t) v == fixq (fshift (fst a)) (snd a) + fixq (fshift (fst b)) (snd b))%Q.
Proof. exact (add_num a b t). Qed.
Print Assumptions C37_add.
Example C37_add_at := C37_add (Fixt 2 (-8) 7, 5) (Fixt 0 0 100, 99) (Fixt 0 (-32) 128) ltac:(hyp) ltac:(hyp) ltac:(hyp).
Theorem C37_mul a b t : mul_type (fst a) (fst b) = Some t -> in_range a -> in_range b ->
  exists v, fix_mul a b = Some (t, v) /\ flow t <= v <= fhigh t /\
    (fixq (fshift t) v == fixq (fshift (fst a)) (snd a) * fixq (fshift (fst b)) (snd b))%Q.
Proof. exact (mul_num a b t). Qed.
Print Assumptions C37_mul.
Example C37_mul_at := C37_mul (Fixt 2 (-8) 7, 5) (Fixt 0 0 100, 99) (Fixt 2 (-800) 700) ltac:(hyp) ltac:(hyp) ltac:(hyp).
(** The bounds of a sum are reached: the range is the smallest possible. *)
Theorem C37_add_range_reached a b t : add_type a b = Some t -> flow a <= fhigh a -> flow b <= fhigh b ->
  (exists v, fix_add (a, flow a) (b, flow b) = Some (t, v) /\ v = flow t) /\
  (exists v, fix_add (a, fhigh a) (b, fhigh b) = Some (t, v) /\ v = fhigh t).
Proof. exact (add_tight a b t). Qed.
Print Assumptions C37_add_range_reached.
Example C37_add_range_reached_at := C37_add_range_reached (Fixt 2 (-8) 7) (Fixt 0 0 100) (Fixt 0 (-32) 128) ltac:(hyp) ltac:(hyp) ltac:(hyp).
(** A shift by a constant divides, rounding down. *)
Theorem C37_shift_const k a : 0 <= k < 64 -> in_range a -> exists t v, fix_shr_const k a = Some (t, v) /\
  fshift t = fshift (fst a) /\ flow t = flow (fst a) / 2 ^ k /\ fhigh t = fhigh (fst a) / 2 ^ k /\
  flow t <= v <= fhigh t /\ v = snd a / 2 ^ k.
Proof. exact (shr_const_exact k a). Qed.
Print Assumptions C37_shift_const.
Example C37_shift_const_at := C37_shift_const 3 (Fixt 2 (-8) 700, 55) ltac:(hyp) ltac:(hyp).
(** A shift by a variable is right when the shift is a single number, or when the values straddle zero. *)
Theorem C37_shift_variable_partial v s t : shr_type (fst v) (fst s) = Some t -> in_range v -> in_range s -> snd s < 64 ->
  flow (fst v) <= 0 -> - 1 <= fhigh (fst v) ->
  exists r, fix_shr v s = Some (t, r) /\ r = snd v / 2 ^ snd s /\ flow t <= r <= fhigh t.
Proof. exact (shr_straddle v s t). Qed.
Print Assumptions C37_shift_variable_partial.
Example C37_shift_variable_partial_at := C37_shift_variable_partial (Fixt 0 (-80) 700, 55) (Fixt 0 1 3, 2) (Fixt 0 (-40) 350) ltac:(hyp) ltac:(hyp) ltac:(hyp) ltac:(hyp) ltac:(hyp) ltac:(hyp).
Theorem C37_shift_single_partial v s t : shr_type (fst v) (fst s) = Some t -> in_range v -> in_range s ->
  flow (fst s) = fhigh (fst s) ->
  exists r, fix_shr v s = Some (t, r) /\ r = snd v / 2 ^ snd s /\ flow t <= r <= fhigh t.
Proof. exact (shr_fixed v s t). Qed.
Print Assumptions C37_shift_single_partial.
Example C37_shift_single_partial_at := C37_shift_single_partial (Fixt 0 8 700, 55) (Fixt 0 2 2, 2) (Fixt 0 2 175) ltac:(hyp) ltac:(hyp) ltac:(hyp) ltac:(hyp).
(** In general it is not: the result range is that of the smallest shift, so larger shifts leave it. *)
Theorem C37_shift_variable_refuted : exists v s t, shr_type (fst v) (fst s) = Some t /\ in_range v /\ in_range s /\
  0 <= snd s < 64 /\ fix_shr v s = None.
Proof. exact shr_fails. Qed.
Print Assumptions C37_shift_variable_refuted.
Theorem C37_shift_variable_negative_refuted : exists v s t, shr_type (fst v) (fst s) = Some t /\ in_range v /\ in_range s /\
  0 <= snd s < 64 /\ snd v < 0 /\ fix_shr v s = None.
Proof. exact shr_fails_neg. Qed.
Print Assumptions C37_shift_variable_negative_refuted.
(** Products of many values and polynomials by Horner's rule are exact and in range, whatever their number. *)
Theorem C37_product xs t : product_type (map fst xs) = Some t -> Forall in_range xs ->
  exists v, fix_product xs = Some (t, v) /\ flow t <= v <= fhigh t /\
    (fixq (fshift t) v == qprod (map (fun a => fixq (fshift (fst a)) (snd a)) xs))%Q.
Proof. exact (product_num xs t). Qed.
Print Assumptions C37_product.
Example C37_product_at := C37_product [(Fixt 2 (-8) 7, 5); (Fixt 0 0 100, 99)] (Fixt 2 (-800) 700) ltac:(hyp) ltac:(hyp).
Theorem C37_horner x cs t : in_range x -> horner_type (fst x) (map fst cs) = Some t -> Forall in_range cs ->
  exists v, fix_horner x cs = Some (t, v) /\ flow t <= v <= fhigh t /\
    (fixq (fshift t) v == qpoly (fixq (fshift (fst x)) (snd x)) 0 (map (fun a => fixq (fshift (fst a)) (snd a)) cs))%Q.
Proof. exact (fun Hx => horner_num x Hx cs t). Qed.
Print Assumptions C37_horner.
Example C37_horner_at := C37_horner (Fixt 0 0 3, 2) [(Fixt 0 0 5, 4); (Fixt 0 (-2) 2, 1)] (Fixt 0 (-6) 11) ltac:(hyp) ltac:(hyp) ltac:(hyp).
(** The union of two types holds every value of both. *)
Theorem C37_union a b t x : union_type a b = Some t -> fshift t = Z.min (fshift a) (fshift b) /\
  (flow a <= x <= fhigh a -> flow t <= x * 2 ^ (fshift a - fshift t) <= fhigh t) /\
  (flow b <= x <= fhigh b -> flow t <= x * 2 ^ (fshift b - fshift t) <= fhigh t).
Proof. exact (union_contains a b t x). Qed.
Print Assumptions C37_union.
Example C37_union_at := C37_union (Fixt 2 (-8) 7) (Fixt (-1) 0 100) (Fixt (-1) (-64) 100) 5 ltac:(hyp).
(** Construction from an integer checks the range. *)
Theorem C37_construct t x : (flow t <= x <= fhigh t -> mkfix t x = Some (t, x)) /\ (~ (flow t <= x <= fhigh t) -> mkfix t x = None).
Proof. exact (conj (mkfix_ok t x) (mkfix_bad t x)). Qed.
Print Assumptions C37_construct.
Example C37_construct_at := C37_construct (Fixt 2 (-8) 7) 5.
(** A conversion that compiles never carries the value over, nor does select, which converts. *)
Theorem C37_convert_refuted t a r : convert_fix t a = Some r -> r = (t, None).
Proof. exact (convert_value t a r). Qed.
Print Assumptions C37_convert_refuted.
Theorem C37_select_refuted sel a b r : fix_select sel a b = Some r -> snd r = None.
Proof. exact (select_value sel a b r). Qed.
Print Assumptions C37_select_refuted.
(** And it compiles though the target range is too small. *)
Theorem C37_convert_range_refuted : exists t a, convert_fix t a = Some (t, None) /\ in_range a /\
  fshift t = fshift (fst a) /\ ~ (flow t <= snd a <= fhigh t).
Proof. exact convert_loses. Qed.
Print Assumptions C37_convert_range_refuted.

Example C37_ex : let a := (Fixt (-3) (-20) 50, -17) in let b := (Fixt 2 (-4) 9, 5) in
  add_type (fst a) (fst b) = Some (Fixt (-3) (-148) 338) /\ fix_add a b = Some (Fixt (-3) (-148) 338, 143) /\
  mul_type (fst a) (fst b) = Some (Fixt (-1) (-200) 450) /\ fix_mul a b = Some (Fixt (-1) (-200) 450, -85) /\
  fix_shr_const 2 a = Some (Fixt (-3) (-5) 12, -5) /\
  shr_type (fst a) (Fixt 0 1 4) = Some (Fixt (-3) (-10) 25) /\ fix_shr a (Fixt 0 1 4, 3) = Some (Fixt (-3) (-10) 25, -3) /\
  fix_shr a (Fixt 0 2 2, 2) = Some (Fixt (-3) (-5) 12, -5) /\
  union_type (fst a) (fst b) = Some (Fixt (-3) (-128) 288).
Proof. vm_compute. repeat split; reflexivity. Qed.
Example C37_poly_ex : let x := (Fixt (-2) (-8) 8, 3) in let c0 := (Fixt 0 0 7, 5) in let c1 := (Fixt (-1) (-4) 4, -3) in
  fix_product [x; c0; c1] = Some (Fixt (-3) (-224) 224, -45) /\ fix_horner x [c0; c1; c0] = Some (Fixt (-4) (-512) 624, 107) /\
  mkfix (Fixt 0 0 7) 8 = None /\ snd x = 3.
Proof. vm_compute. repeat split; reflexivity. Qed.
Example C37_convert_ex : convert_fix (Fixt (-2) 0 100) (Fixt 0 0 7, 5) = Some (Fixt (-2) 0 100, None) /\
  fix_select true (Fixt 0 0 7, 5) (Fixt 0 0 9, 2) = Some (Fixt 0 0 9, None).
Proof. vm_compute. split; reflexivity. Qed.

(** ** C38. The comparison, whenever it compiles, answers "equal": the second operand is never looked at. *)
Theorem C38_compare_refuted : exists eA vA eB vB c, fix_compare eA vA eB vB = Some c /\
  vA * 2 ^ (eA - Z.min eA eB) < vB * 2 ^ (eB - Z.min eA eB) /\ c <> -1.
Proof. exact compare_wrong. Qed.
Print Assumptions C38_compare_refuted.
Theorem C38_compare_constant eA vA eB vB c : fix_compare eA vA eB vB = Some c -> c = 0.
Proof. exact (fix_compare_zero eA vA eB vB c). Qed.
Print Assumptions C38_compare_constant.
Example C38_compare_constant_at := C38_compare_constant 2 5 0 20 0 ltac:(hyp).
(** So it is the sign of the difference exactly when the numbers are equal. *)
Theorem C38_compare_partial eA vA eB vB c : fix_compare eA vA eB vB = Some c ->
  (c = Z.sgn (vA * 2 ^ (eA - Z.min eA eB) - vB * 2 ^ (eB - Z.min eA eB)) <->
   vA * 2 ^ (eA - Z.min eA eB) = vB * 2 ^ (eB - Z.min eA eB)).
Proof. exact (fix_compare_right eA vA eB vB c). Qed.
Print Assumptions C38_compare_partial.
Example C38_compare_partial_at := C38_compare_partial 2 5 0 20 0 ltac:(hyp).
(** The five predicates follow the comparison. *)
Theorem C38_predicates eA vA eB vB c : fix_compare eA vA eB vB = Some c ->
  fix_lt eA vA eB vB = Some (c <? 0) /\ fix_le eA vA eB vB = Some (c <=? 0) /\ fix_eq eA vA eB vB = Some (c =? 0) /\
  fix_ge eA vA eB vB = Some (0 <=? c) /\ fix_gt eA vA eB vB = Some (0 <? c).
Proof. exact (predicates eA vA eB vB c). Qed.
Print Assumptions C38_predicates.
Example C38_predicates_at := C38_predicates 2 5 0 20 0 ltac:(hyp).
(** The checked shift multiplies, and is rejected exactly when the product does not fit 64 bits or the
    distance is not between 0 and 63. *)
Theorem C38_checked_shift v k s : checked_shl v k = Some s <-> 0 <= k < 64 /\ - 2 ^ 63 <= v * 2 ^ k < 2 ^ 63 /\ s = v * 2 ^ k.
Proof. exact (checked_shl_ok v k s). Qed.
Print Assumptions C38_checked_shift.
Example C38_ex : fix_compare 2 5 0 20 = Some 0 /\ fix_compare 2 5 0 21 = Some 0 /\ fix_lt 2 5 0 21 = Some false /\
  fix_ge 2 5 0 21 = Some true /\ checked_shl (-3) 62 = None /\ checked_shl (-3) 60 = Some (-3458764513820540928).
Proof. vm_compute. repeat split; reflexivity. Qed.
