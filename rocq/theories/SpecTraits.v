(** What the C++ standard says of the boolean members of std::numeric_limits, for the set V of the data of a type. *)
From Coq Require Import ZArith Bool List.
From Verif Require Import Spec SpecLimits Traits.
Open Scope Z_scope.

(** A flag says whether P holds. *)
Definition says (flag : bool) (P : Prop) : Prop := (flag = true -> P) /\ (flag = false -> ~ P).

(** is_signed *)
Definition has_negative (V : fval -> Prop) : Prop := exists m e, V (Num true m e).
(** is_integer *)
Definition all_integers (V : fval -> Prop) : Prop := forall s m e, V (Num s m e) -> exists n, cmp_num m e n 0 = Eq.
(** is_exact: no rounding. A sum of two numbers not above some number of the type is a number of the type. *)
Definition sum (m e n f : Z) : Z * Z := (m * 2 ^ (e - Z.min e f) + n * 2 ^ (f - Z.min e f), Z.min e f).
Definition sums_are_exact (V : fval -> Prop) : Prop :=
  forall m e n f p k, V (Num false m e) -> V (Num false n f) -> V (Num false p k) ->
    cmp_num (fst (sum m e n f)) (snd (sum m e n f)) p k <> Gt -> holds V (fst (sum m e n f)) (snd (sum m e n f)).
(** is_bounded: the set of values is finite. *)
Definition finitely_many (V : fval -> Prop) : Prop := exists l, forall v, V v -> In v l.
(** has_infinity, has_quiet_NaN *)
Definition has_inf (V : fval -> Prop) : Prop := V (Inf false).
Definition has_nan (V : fval -> Prop) : Prop := V NaN.
(** has_denorm: some number lies in a binade [2^k, 2^(k+1)) whose numbers of d digits are not all there. *)
Definition has_subnormals (V : fval -> Prop) (d : Z) : Prop :=
  exists m e k p, V (Num false m e) /\ cmp_num m e 1 k <> Lt /\ cmp_num m e 1 (k + 1) = Lt /\
    2 ^ (d - 1) <= p < 2 ^ d /\ ~ holds V p (k - (d - 1)).

(** The flags of a type with the data V and d digits. *)
Definition describes (t : traits) (V : fval -> Prop) (d : Z) : Prop :=
  says (is_signed t) (has_negative V) /\ says (is_integer t) (all_integers V) /\ says (is_exact t) (sums_are_exact V) /\
  says (has_infinity t) (has_inf V) /\ says (has_quiet_NaN t) (has_nan V) /\ says (has_denorm t) (has_subnormals V d) /\
  says (is_bounded t) (finitely_many V).
(** "Shall be true for all specializations in which is_iec559 != false." *)
Definition iec559_consistent (t : traits) : Prop :=
  is_iec559 t = true -> has_infinity t = true /\ has_quiet_NaN t = true /\ has_signaling_NaN t = true.
