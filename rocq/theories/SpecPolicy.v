(** What the test program of policy_test.hpp should accept: the operators of a number type, and when their results are
    right. Nothing here refers to the model of the code. *)
From Coq Require Import ZArith Bool.
From Verif Require Import Spec.
Open Scope Z_scope.

(** The operators of a number type under test, on the words of its values; None if a call does not return. *)
Record operators := Operators {
  o_eq : Z -> Z -> option bool; o_ne : Z -> Z -> option bool;
  o_lt : Z -> Z -> option bool; o_le : Z -> Z -> option bool;
  o_gt : Z -> Z -> option bool; o_ge : Z -> Z -> option bool;
  o_mul : Z -> Z -> option Z; o_add : Z -> Z -> option Z; o_div : Z -> Z -> option Z
}.
(** Every operator returns, the arithmetic ones a word of the type. *)
Definition returns (V : Z -> Prop) (O : operators) (a b : Z) : Prop :=
  (exists c, o_eq O a b = Some c) /\ (exists c, o_ne O a b = Some c) /\ (exists c, o_lt O a b = Some c) /\
  (exists c, o_le O a b = Some c) /\ (exists c, o_gt O a b = Some c) /\ (exists c, o_ge O a b = Some c) /\
  (exists r, o_mul O a b = Some r /\ V r) /\ (exists r, o_add O a b = Some r /\ V r) /\ (exists r, o_div O a b = Some r /\ V r).

(** Equal as numbers (the two zeros are equal), or both NaN. *)
Definition same_value (x y : fval) : Prop :=
  match x, y with NaN, NaN => True | _, _ => vcmp x y = Some Eq end.
(** The result of an operator is a word whose value is v. *)
Definition gives (D : Z -> fval) (o : option Z) (v : fval) : Prop := exists r, o = Some r /\ same_value (D r) v.
(** The nine operators are right on the words a and b: D gives the value of a word, the last three arguments are the
    operations on values. *)
Definition right_comparisons (D : Z -> fval) (O : operators) (a b : Z) : Prop :=
  o_eq O a b = Some (eq_spec (D a) (D b)) /\ o_ne O a b = Some (negb (eq_spec (D a) (D b))) /\
  o_lt O a b = Some (lt_spec (D a) (D b)) /\ o_le O a b = Some (le_spec (D a) (D b)) /\
  o_gt O a b = Some (gt_spec (D a) (D b)) /\ o_ge O a b = Some (ge_spec (D a) (D b)).
Definition right_arithmetic (D : Z -> fval) (mul add div : fval -> fval -> fval) (O : operators) (a b : Z) : Prop :=
  gives D (o_mul O a b) (mul (D a) (D b)) /\ gives D (o_add O a b) (add (D a) (D b)) /\ gives D (o_div O a b) (div (D a) (D b)).
