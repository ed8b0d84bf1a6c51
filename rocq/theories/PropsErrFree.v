(** C76: error-free transformations. The programs are in SpecErrFree.v: clients of the library's [add], [neg], [mul] and [fma]
    that also return the rounding error of a sum or a product. These theorems depend on the axioms of the standard library's
    real numbers, and on no others. *)
From Coq Require Import ZArith Bool Lia Reals Lra.
From Flocq Require Import Core.
From Verif Require Import Fw Spec SpecFlocq SpecErrFree Mul AddDual AddDualProofs Fma ErrFreeProofs ErrFreeProofs2 Inst InstR.
Open Scope Z_scope.

(** Fast2Sum: three operations on |y| <= |x| give the rounded sum a and a number b with a + b = x + y exactly, whenever the sum
    does not overflow. Operands that are not zero are at least 2^(emin+F) (below that a difference can vanish, see
    C75_lost_difference_refuted). Missing: the widths at which the adder is wrong (C04). *)
Theorem C76_fast_two_sum_partial E F x y a : dual_ok_width E F -> F + 2 <= 2 ^ E -> wf (E + F + 3) x -> wf (E + F + 3) y ->
  not_tiny E F x -> not_tiny E F y -> (Rabs (real E F y) <= Rabs (real E F x))%R ->
  add_dual E F E F E F x y = Some a -> finite_v (decode E F a) ->
  exists b, fast_two_sum E F x y = Some (a, b) /\ finite_v (decode E F b) /\ (real E F a + real E F b = real E F x + real E F y)%R.
Proof. exact (fast_two_sum_top E F x y a). Qed.
Print Assumptions C76_fast_two_sum_partial.
Example C76_fast_two_sum_partial_at := C76_fast_two_sum_partial 8 23 0x140490FDB 0x1BF800000 5369303003 ltac:(hypx) ltac:(hypx) ltac:(hypx) ltac:(hypx) ltac:(split; [hyp|right; hypr]) ltac:(split; [hyp|right; hypr]) ltac:(hypx) ltac:(hypx) ltac:(hypx).

(** 2Sum: six operations do it without knowing which operand is the larger, whenever the sum does not overflow and y is not the
    largest number of the format or its negative... *)
Theorem C76_two_sum_partial E F x y a : dual_ok_width E F -> F + 2 <= 2 ^ E -> wf (E + F + 3) x -> wf (E + F + 3) y ->
  not_tiny E F x -> not_tiny E F y -> (forall s, decode E F y <> Num s (2 ^ (F + 1) - 1) (emax E - F)) ->
  add_dual E F E F E F x y = Some a -> finite_v (decode E F a) ->
  exists b, two_sum E F x y = Some (a, b) /\ finite_v (decode E F b) /\ (real E F a + real E F b = real E F x + real E F y)%R.
Proof. exact (two_sum_top E F x y a). Qed.
Print Assumptions C76_two_sum_partial.
Example C76_two_sum_partial_at := C76_two_sum_partial 8 23 0x140490FDB 0x1BF800000 5369303003 ltac:(hypx) ltac:(hypx) ltac:(hypx) ltac:(hypx) ltac:(split; [hyp|right; hypr]) ltac:(split; [hyp|right; hypr]) ltac:(intros s H; vm_compute in H; destruct s; discriminate H) ltac:(hypx) ltac:(hypx).
(** ... where it can return NaN: x is minus three halves of the last place of y. *)
Theorem C76_two_sum_refuted : forall E F, (E, F) = (5, 4) \/ (E, F) = (8, 23) \/ (E, F) = (11, 52) -> exists x y a b,
  wf (E + F + 3) x /\ wf (E + F + 3) y /\ decode E F x = Num true (3 * 2 ^ (F - 1)) (emax E - 2 * F) /\ decode E F y = Num false (2 ^ (F + 1) - 1) (emax E - F) /\
  two_sum E F x y = Some (a, b) /\ finite_v (decode E F a) /\ decode E F b = NaN.
Proof. exact two_sum_overflow. Qed.
Print Assumptions C76_two_sum_refuted.

(** 2Product: the rounded product p and fma(x, y, -p) add up to x * y exactly, although this [fma] rounds twice (C21), whenever
    the product does not overflow. The product, if not zero, is at least 2^(emin+2F+1). *)
Theorem C76_two_product_partial E F x y p : 2 <= E -> 1 <= F -> dual_ok_width (E + 2) (2 * F + 2) -> wf (E + F + 3) x -> wf (E + F + 3) y ->
  finite_v (decode E F x) -> finite_v (decode E F y) ->
  (real E F x * real E F y = 0)%R \/ (bpow radix2 (emin E + 2 * F + 1) <= Rabs (real E F x * real E F y))%R ->
  mul E F E F F x y = Some p -> finite_v (decode E F p) ->
  exists e, two_product E F x y = Some (p, e) /\ finite_v (decode E F e) /\ (real E F p + real E F e = real E F x * real E F y)%R.
Proof. exact (two_product_top E F x y p). Qed.
Print Assumptions C76_two_product_partial.

(** 1 + 17/128 = 18/16 + 1/128, and (17/16)^2 = 18/16 + 1/256, in the format with 5 and 4 bits. *)
Example C76_instance : dual_ok_width 5 4 /\ dual_ok_width 7 10 /\ wf 12 1264 /\ wf 12 1217 /\ wf 12 1265 /\
  decode 5 4 1264 = Num false 16 (-4) /\ decode 5 4 1217 = Num false 17 (-7) /\ decode 5 4 1265 = Num false 17 (-4) /\
  decode 5 4 1266 = Num false 18 (-4) /\ decode 5 4 1152 = Num false 16 (-11) /\ decode 5 4 1136 = Num false 16 (-12) /\
  fast_two_sum 5 4 1264 1217 = Some (1266, 1152) /\ two_sum 5 4 1217 1264 = Some (1266, 1152) /\ two_product 5 4 1265 1265 = Some (1266, 1136) /\
  emin 5 + 4 = -11 /\ emin 5 + 2 * 4 + 1 = -6.
Proof. split; [unfold dual_ok_width; split; [lia|]; split; [lia|]; split; [lia|]; split; [lia|]; right; right; right; right; vm_compute; discriminate|]. split; [unfold dual_ok_width; split; [lia|]; split; [lia|]; split; [lia|]; split; [lia|]; right; right; right; right; vm_compute; discriminate|]. decide_example. Qed.
Example C76_sized_instance : not_tiny 5 4 1217 /\ (real 5 4 1217 <= real 5 4 1264)%R /\ (bpow radix2 (-6) <= real 5 4 1265 * real 5 4 1265)%R.
Proof.
  assert (D : decode 5 4 1217 = Num false 17 (-7)) by (vm_compute; reflexivity). assert (D1 : decode 5 4 1264 = Num false 16 (-4)) by (vm_compute; reflexivity). assert (D2 : decode 5 4 1265 = Num false 17 (-4)) by (vm_compute; reflexivity).
  unfold not_tiny. rewrite D, D1, D2. cbn. split; [split; [exact I|right; rewrite Rabs_pos_eq; lra]|]. split; lra.
Qed.
