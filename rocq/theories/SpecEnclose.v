(** Small vocabulary for C91: enclosing a real number between two words. *)
From Coq Require Import ZArith Reals.
From Verif Require Import Spec Spec754 Spec754Mode SpecFlocq SpecSfMode.
Open Scope Z_scope.

(** The value v, possibly an infinity, is at most, or at least, the real number x. *)
Definition at_most (v : fval) (x : R) : Prop :=
  match v with NaN => False | Inf neg => neg = true | _ => (rv v <= x)%R end.
Definition at_least (v : fval) (x : R) : Prop :=
  match v with NaN => False | Inf neg => neg = false | _ => (x <= rv v)%R end.
(** The same number, or the same infinity. *)
Definition same_value (v w : fval) : Prop :=
  match v, w with
  | NaN, _ | _, NaN => False
  | Inf s, Inf t => s = t
  | Inf _, _ | _, Inf _ => False
  | _, _ => rv v = rv w
  end.
(** x lies between the words lo and hi of the interchange format, and no finite word lies strictly between lo and x, or
    strictly between x and hi. *)
Definition tightest (E F lo hi : Z) (x : R) : Prop :=
  at_most (decode754 E F lo) x /\ at_least (decode754 E F hi) x /\
  forall w, 0 <= w < 2 ^ (E + F + 1) -> finite_v (decode754 E F w) ->
    ((rv (decode754 E F w) <= x)%R -> at_least (decode754 E F lo) (rv (decode754 E F w))) /\
    ((x <= rv (decode754 E F w))%R -> at_most (decode754 E F hi) (rv (decode754 E F w))).
(** An operation, given the rounding mode, encloses its exact result x: "min" and "max" give the tightest two words around x,
    and every other supported mode gives the value of one of the two. *)
Definition encloses (E F : Z) (odd : bool) (op : Z -> option Z) (x : R) : Prop :=
  exists lo hi, op (enum_of Min) = Some lo /\ op (enum_of Max) = Some hi /\ 0 <= lo < 2 ^ (E + F + 1) /\ 0 <= hi < 2 ^ (E + F + 1) /\
    tightest E F lo hi x /\
    forall md, supported md odd -> exists r, op (enum_of md) = Some r /\
      (same_value (decode754 E F r) (decode754 E F lo) \/ same_value (decode754 E F r) (decode754 E F hi)).
(** x is a point of the interval between the finite words lo and hi. *)
Definition inside (E F lo hi : Z) (x : R) : Prop := (rv (decode754 E F lo) <= x <= rv (decode754 E F hi))%R.
