(** C63: the operators and conversions the programs use, on the wrapper type. *)
From Coq Require Import ZArith List Bool Lia.
From Verif Require Import Fw Spec Flopoco Ieee AddDualProofs App WrapProofs.
Open Scope Z_scope.

(** Sum, product and quotient of the wrapper are correctly rounded. *)
Theorem C63_wrapper_operators E F x y : dual_ok_width E F -> wf (E + F + 3) x -> wf (E + F + 3) y ->
  (exists r, fl_add E F x y = Some r /\ wf (E + F + 3) r /\ decode E F r = add_spec E F (decode E F x) (decode E F y)) /\
  (exists r, fl_mul E F x y = Some r /\ wf (E + F + 3) r /\ decode E F r = mul_spec E F (decode E F x) (decode E F y)) /\
  (exists r, fl_div E F x y = Some r /\ wf (E + F + 3) r /\ decode E F r = div_spec E F (decode E F x) (decode E F y)).
Proof. exact (wrap_ops E F x y). Qed.
Print Assumptions C63_wrapper_operators.
(** 3 and 1.5 in binary32. *)
Example C63_wrapper_operators_ex : let three := to_flopoco 8 23 0x40400000 in let x := to_flopoco 8 23 0x3FC00000 in
  option_map (to_ieee 8 23) (fl_add 8 23 three x) = Some 0x40900000 /\ option_map (to_ieee 8 23) (fl_mul 8 23 three x) = Some 0x40900000 /\
  option_map (to_ieee 8 23) (fl_div 8 23 three x) = Some 0x40000000 /\ option_map (to_ieee 8 23) (fl_div 8 23 x three) = Some 0x3F000000.
Proof. vm_compute. repeat split; reflexivity. Qed.

(** Its comparisons order values as IEEE 754 does, except two infinities of one sign (C11). *)
Theorem C63_wrapper_comparisons_partial E F x y : 1 <= E -> 1 <= F -> wf (E + F + 3) x -> wf (E + F + 3) y -> ~ (exists s, decode E F x = Inf s /\ decode E F y = Inf s) ->
  let dx := decode E F x in let dy := decode E F y in
  fl_cmp less_than E F x y = Some (lt_spec dx dy) /\ fl_cmp less_than_equal E F x y = Some (le_spec dx dy) /\
  fl_cmp greater_than E F x y = Some (gt_spec dx dy) /\ fl_cmp greater_than_equal E F x y = Some (ge_spec dx dy) /\
  fl_cmp equal E F x y = Some (eq_spec dx dy) /\ fl_cmp not_equal E F x y = Some (negb (eq_spec dx dy)).
Proof. exact (wrap_cmp E F x y). Qed.
Print Assumptions C63_wrapper_comparisons_partial.
Example C63_wrapper_comparisons_ex : let three := to_flopoco 8 23 0x40400000 in let x := to_flopoco 8 23 0x3FC00000 in
  fl_cmp less_than 8 23 three x = Some false /\ fl_cmp greater_than 8 23 three x = Some true /\ fl_cmp not_equal 8 23 three x = Some true.
Proof. vm_compute. repeat split; reflexivity. Qed.

(** Conversion from and to float without permission to lose anything compiles for binary32's format and no other. *)
Theorem C63_wrapper_conversions E F x : (to_fl E F x <> None <-> E = 8 /\ F = 23) /\ (of_fl E F x <> None <-> E = 8 /\ F = 23).
Proof. exact (wrap_convert E F x). Qed.
Print Assumptions C63_wrapper_conversions.
Example C63_wrapper_conversions_ex : (do y <- to_fl 8 23 0x3FC00000; of_fl 8 23 y) = Some 0x3FC00000 /\ to_fl 9 23 0x3FC00000 = None.
Proof. vm_compute. split; reflexivity. Qed.
