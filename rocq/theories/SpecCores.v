(** What it means for a core to be right: for all operands it delivers a word, and the number in it is the exact result
    rounded once. *)
From Coq Require Import ZArith.
From Verif Require Import Fw Spec.
Open Scope Z_scope.

(** A flopoco core with operands of E, FA and E, FB bits and a result of E, F bits. *)
Definition core_right (E F FA FB : Z) (spec : fval -> fval -> fval) (core : Z -> Z -> option Z) : Prop :=
  forall a b, 0 <= a < 2 ^ (E + FA + 3) -> 0 <= b < 2 ^ (E + FB + 3) ->
  exists r, core a b = Some r /\ 0 <= r < 2 ^ (E + F + 3) /\ decode E F r = spec (decode E FA a) (decode E FB b).
(** An IEEE core. *)
Definition ieee_core_right (E F : Z) (spec : fval -> fval -> fval) (core : Z -> Z -> option Z) : Prop :=
  forall a b, 0 <= a < 2 ^ (E + F + 1) -> 0 <= b < 2 ^ (E + F + 1) ->
  exists r, core a b = Some r /\ 0 <= r < 2 ^ (E + F + 1) /\
    decode_ieee E F r = spec (decode_ieee E F a) (decode_ieee E F b).
