(** What the C++ standard says of the constants of std::numeric_limits (radix 2), for a set V of data. *)
From Coq Require Import ZArith.
From Verif Require Import Fw Spec.
Open Scope Z_scope.

(** The data of a format: what its words of w bits mean. *)
Definition data (w : Z) (dec : Z -> fval) (v : fval) : Prop := exists x, wf w x /\ dec x = v.
(** p*2^k is one of them. *)
Definition holds (V : fval -> Prop) (p k : Z) : Prop := exists m e, V (Num false m e) /\ cmp_num m e p k = Eq.
(** digits: every p of d binary digits can be represented (at some exponent), not every p of d+1 digits. *)
Definition is_digits (V : fval -> Prop) (d : Z) : Prop :=
  (forall p, 0 < p < 2 ^ d -> exists k, holds V p k) /\ (exists p, 0 < p < 2 ^ (d + 1) /\ forall k, ~ holds V p k).
(** min_exponent: the least k such that 2^(k-1) is a normalised number. max_exponent: the largest k such that 2^(k-1) is finite
    and representable. *)
Definition is_min_exponent (V : fval -> Prop) (k : Z) : Prop := holds V 1 (k - 1) /\ forall j, j < k -> ~ holds V 1 (j - 1).
Definition is_max_exponent (V : fval -> Prop) (k : Z) : Prop := holds V 1 (k - 1) /\ forall j, k < j -> ~ holds V 1 (j - 1).
(** epsilon: the distance from 1 to the next larger number: 1 + 2^k is representable, nothing lies between. *)
Definition is_epsilon (V : fval -> Prop) (v : fval) : Prop :=
  exists k, 0 < k /\ veq v (Num false 1 (- k)) /\ holds V (2 ^ k + 1) (- k) /\
    forall m e, V (Num false m e) -> cmp_num m e 1 0 = Gt -> cmp_num m e (2 ^ k + 1) (- k) <> Lt.
