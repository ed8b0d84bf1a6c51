(** Specification for C74: what it means that a result is not above another. *)
From Coq Require Import ZArith Bool.
From Verif Require Import Fw Spec Flopoco.
Open Scope Z_scope.

(** The datum of r is at most that of s, and the library's own operator <= says so too, except between two equal
    infinities, which it orders by their unused bits. *)
Definition not_above (E F r s : Z) : Prop :=
  le_spec (decode E F r) (decode E F s) = true /\
  (less_than_equal E F E F r s = Some 1 \/ exists t, decode E F r = Inf t /\ decode E F s = Inf t).
