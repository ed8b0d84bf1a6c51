(** Properties of the composite kernels (C72). *)
From Coq Require Import ZArith List Reals Lia.
From Flocq Require Import Core.
From Verif Require Import Fw Spec Spec754 SpecFlocq SpecApp SpecComposite Flopoco AddDualProofs App Composite CompositeProofs CompositeProofs2 CompositeProofs3 Inst.
Import ListNotations.
Open Scope Z_scope.

(** ** Over the FloPoCo wrapper *)
(** The sum of an array of any length: in order, one rounding per addition, and so close to the exact sum. *)
Theorem C72_sum_array E F x : dual_ok_width E F -> Forall (wf (E + F + 3)) x ->
  exists r, fp_sum_array (wrapper E F) (length x) x = Some r /\ wf (E + F + 3) r /\ decode E F r = sum_spec E F (map (decode E F) x) /\
  (finite_v (decode E F r) -> let u := bpow radix2 (- (F + 1)) in let n := Nat.pred (length x) in let xs := map (fun p => rv (decode E F p)) x in
    (Rabs (rv (decode E F r) - Rsum xs) <= ((1 + u) ^ n - 1) * Rabssum xs + INR n * (1 + u) ^ n * bpow radix2 (emin E))%R).
Proof. exact (sum_array_ok E F x). Qed.
Print Assumptions C72_sum_array.
Example C72_sum_array_at := C72_sum_array 8 23 [0x140490FDB; 0x13F800000; 0x1BF800000] ltac:(hyp) ltac:(hyp).
Theorem C72_dot_product E F a b : dual_ok_width E F -> length a = length b -> Forall (wf (E + F + 3)) a -> Forall (wf (E + F + 3)) b ->
  dots E F (combine a b) (fp_dot_product (wrapper E F) (length a) a b).
Proof. exact (dot_product_ok E F a b). Qed.
Print Assumptions C72_dot_product.
Example C72_dot_product_at := C72_dot_product 8 23 [0x140490FDB; 0x13F800000] [0x1BF800000; 0x140000000] ltac:(hyp) ltac:(hyp) ltac:(hyp) ltac:(hyp).
Theorem C72_sum_vec4 E F a b c d : dual_ok_width E F -> wf (E + F + 3) a -> wf (E + F + 3) b -> wf (E + F + 3) c -> wf (E + F + 3) d ->
  exists r, fp_sum_vec4_balanced (wrapper E F) a b c d = Some r /\ wf (E + F + 3) r /\ let D := decode E F in
  D r = add_spec E F (add_spec E F (D a) (D b)) (add_spec E F (D c) (D d)) /\
  (finite_v (D r) -> let u := bpow radix2 (- (F + 1)) in
    (Rabs (rv (D r) - (rv (D a) + rv (D b) + rv (D c) + rv (D d))) <= ((1 + u) ^ 2 - 1) * (Rabs (rv (D a)) + Rabs (rv (D b)) + Rabs (rv (D c)) + Rabs (rv (D d))) + (3 + 2 * u) * bpow radix2 (emin E))%R).
Proof. exact (vec4_wrapper E F a b c d). Qed.
Print Assumptions C72_sum_vec4.
(** 1, 2, -2, 1.5 in single precision: sum 2.5, dot product with itself 11.25. *)
Definition v4 : list Z := [2 ^ 32 + 127 * 2 ^ 23; 2 ^ 32 + 128 * 2 ^ 23; 2 ^ 32 + 2 ^ 31 + 128 * 2 ^ 23; 2 ^ 32 + 127 * 2 ^ 23 + 2 ^ 22].
Example C72_wrapper_ex : dual_ok_width 8 23 /\ Forall (wf 34) v4 /\ option_map (decode 8 23) (fp_sum_array (wrapper 8 23) 4 v4) = Some (Num false (5 * 2 ^ 21) (-22)) /\
  option_map (decode 8 23) (fp_dot_product (wrapper 8 23) 4 v4 v4) = Some (Num false (45 * 2 ^ 18) (-20)) /\
  option_map (decode 8 23) (fp_sum_vec4_balanced (wrapper 8 23) (nth 0 v4 0) (nth 1 v4 0) (nth 2 v4 0) (nth 3 v4 0)) = Some (Num false (5 * 2 ^ 21) (-22)).
Proof.
  split; [unfold dual_ok_width; vm_compute; intuition congruence|]. split; [repeat constructor; unfold wf; lia|].
  split; [vm_compute; reflexivity|]. split; vm_compute; reflexivity.
Qed.

(** ** Over float *)
(** Two products a turn, in the same order as one a turn; an odd length stops at the assertion. *)
Theorem C72_dot_product_u2 a b : length a = length b -> Nat.even (length a) = true -> Forall (fun x => 0 <= x < 2 ^ 32) a -> Forall (fun x => 0 <= x < 2 ^ 32) b -> let D := decode754 8 23 in
  exists v, fp_dot_product_u2 (native 8 23) (length a) (map D a) (map D b) = Some v /\ let xys := combine (map D a) (map D b) in v = dot754 8 23 xys /\
  (finite_v v -> let u := bpow radix2 (-24) in let n := length a in
    (Rabs (rv v - Rdot xys) <= ((1 + u) ^ S n - 1) * Rabsdot xys + INR n * (1 + u) ^ S n * bpow radix2 (-149))%R).
Proof. exact (dot_u2_float a b). Qed.
Print Assumptions C72_dot_product_u2.
Example C72_dot_product_u2_at := C72_dot_product_u2 [0x40490FDB; 0x3F800000] [0x3F800000; 0xBF800000] ltac:(hyp) ltac:(hyp) ltac:(hyp) ltac:(hyp).
(** The value, in any IEEE format. *)
Theorem C72_dot_product_u2_value E F x y : length x = length y -> Nat.even (length x) = true -> fp_dot_product_u2 (native E F) (length x) x y = Some (dot754 E F (combine x y)).
Proof. exact (dot_u2_ok E F x y). Qed.
Print Assumptions C72_dot_product_u2_value.
Example C72_dot_product_u2_value_at := C72_dot_product_u2_value 8 23 [Num false 3 (-1); Zero false] [Num false 1 0; Inf true] ltac:(hyp) ltac:(hyp).
Theorem C72_sum_vec4_float a b c d : 0 <= a < 2 ^ 32 -> 0 <= b < 2 ^ 32 -> 0 <= c < 2 ^ 32 -> 0 <= d < 2 ^ 32 -> let D := decode754 8 23 in
  exists v, fp_sum_vec4_balanced (native 8 23) (D a) (D b) (D c) (D d) = Some v /\ v = add754 8 23 (add754 8 23 (D a) (D b)) (add754 8 23 (D c) (D d)) /\
  (finite_v v -> let u := bpow radix2 (-24) in
    (Rabs (rv v - (rv (D a) + rv (D b) + rv (D c) + rv (D d))) <= ((1 + u) ^ 2 - 1) * (Rabs (rv (D a)) + Rabs (rv (D b)) + Rabs (rv (D c)) + Rabs (rv (D d))) + (3 + 2 * u) * bpow radix2 (-150))%R).
Proof. exact (vec4_float a b c d). Qed.
Print Assumptions C72_sum_vec4_float.
(** 1*1 + 2*2: five. *)
Example C72_float_ex : let D := decode754 8 23 in fp_dot_product_u2 (native 8 23) 2 (map D [0x3F800000; 0x40000000]) (map D [0x3F800000; 0x40000000]) = Some (Num false (5 * 2 ^ 21) (-21)) /\
  fp_sum_vec4_balanced (native 8 23) (D 0x3F800000) (D 0x40000000) (D 0x3F800000) (D 0x3F800000) = Some (Num false (5 * 2 ^ 21) (-21)).
Proof. vm_compute. split; reflexivity. Qed.
Theorem C72_odd_length_refuted {T} (S : scalar T) n a b : Nat.even n = false -> fp_dot_product_u2 S n a b = None /\ mmm_u2 S n a b = None.
Proof. exact (dot_u2_odd S n a b). Qed.
Print Assumptions C72_odd_length_refuted.
Example C72_odd_ex : fp_dot_product_u2 exact 3 [1; 2; 3] [4; 5; 6] = None /\ fp_dot_product_u2 exact 2 [1; 2; 3] [4; 5; 6] = Some 14.
Proof. vm_compute. split; reflexivity. Qed.
(** The other kernels accumulate into an uninitialised variable, which over float is indeterminate; those above need a
    conversion from int, which the wrapper does not have. *)
Theorem C72_uninitialised_refuted E F n x a b : fp_sum_array (native E F) n x = None /\ fp_dot_product (native E F) n a b = None /\ mmm (native E F) (S n) a b = None.
Proof. exact (uninitialised E F n x a b). Qed.
Print Assumptions C72_uninitialised_refuted.
Theorem C72_wrapper_u2_refuted E F n a b : fp_dot_product_u2 (wrapper E F) n a b = None /\ mmm_u2 (wrapper E F) (S n) a b = None.
Proof. exact (no_zero E F n a b). Qed.
Print Assumptions C72_wrapper_u2_refuted.

(** ** The matrix products *)
(** They read the second matrix at r*i+c where i*n+c is meant: even in exact arithmetic the result is wrong for every size
    from two on. *)
Theorem C72_mmm_refuted n : (2 <= n)%nat -> exists a b m, length a = (n * n)%nat /\ length b = (n * n)%nat /\ mmm exact n a b = Some m /\ (Nat.even n = true -> mmm_u2 exact n a b = Some m) /\
  ~ is_product n a b m /\ product_at n a b 1 0 = 1 /\ exists row, nth_error m 1 = Some row /\ nth_error row 0 = Some 0.
Proof. exact (mmm_wrong n). Qed.
Print Assumptions C72_mmm_refuted.
Example C72_mmm_ex : mmm exact 2 [1; 0; 0; 1] [1; 2; 3; 4] = Some [[1; 2]; [2; 3]] /\ mmm_u2 exact 2 [1; 0; 0; 1] [1; 2; 3; 4] = Some [[1; 2]; [2; 3]] /\
  product_at 2 [1; 0; 0; 1] [1; 2; 3; 4] 1 0 = 3.
Proof. vm_compute. repeat split. Qed.
(** Only for size one (and zero) is it the product. *)
Theorem C72_mmm_partial n a b : (n <= 1)%nat -> length a = (n * n)%nat -> length b = (n * n)%nat -> exists m, mmm exact n a b = Some m /\ is_product n a b m.
Proof. exact (mmm_small n a b). Qed.
Print Assumptions C72_mmm_partial.
Example C72_mmm_partial_at := C72_mmm_partial 1%nat [5] [7] ltac:(hyp) ltac:(hyp) ltac:(hyp).
(** What they do compute, without reading past the end: over the wrapper, and two products a turn over float. *)
Theorem C72_mmm_value E F n a b : dual_ok_width E F -> length a = (n * n)%nat -> length b = (n * n)%nat -> Forall (wf (E + F + 3)) a -> Forall (wf (E + F + 3)) b ->
  exists m, mmm (wrapper E F) n a b = Some m /\ entries n m (fun r c z => dots E F (mmm_pairs n a b r c) (Some z)).
Proof. exact (mmm_ok E F n a b). Qed.
Print Assumptions C72_mmm_value.
Example C72_mmm_value_at := C72_mmm_value 8 23 2%nat [0x140490FDB; 0x13F800000; 0x140000000; 0x1BF800000] [0x140490FDB; 0x13F800000; 0x140000000; 0x13F000000] ltac:(hyp) ltac:(hyp) ltac:(hyp) ltac:(hyp) ltac:(hyp).
Theorem C72_mmm_u2_value E F n a b : Nat.even n = true -> length a = (n * n)%nat -> length b = (n * n)%nat ->
  mmm_u2 (native E F) n a b = Some (map (fun r => map (u2_754 E F n a b r) (seq 0 n)) (seq 0 n)).
Proof. exact (mmm_u2_native E F n a b). Qed.
Print Assumptions C72_mmm_u2_value.
Example C72_mmm_value_ex : option_map (map (map (decode 8 23))) (mmm (wrapper 8 23) 2 v4 v4) = Some [[Num false (3 * 2 ^ 22) (-22); Num false (3 * 2 ^ 22) (-21)]; [Num false (2 ^ 23) (-23); Num true (7 * 2 ^ 21) (-21)]] /\
  mmm_pairs 2 v4 v4 1 0 = [(nth 2 v4 0, nth 0 v4 0); (nth 3 v4 0, nth 1 v4 0)].
Proof. split; vm_compute; reflexivity. Qed.
