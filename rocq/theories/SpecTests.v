(** What the test programs' comparison of neighbours should mean. *)
From Coq Require Import ZArith.
From Verif Require Import Fw Spec.
Open Scope Z_scope.

(** z lies strictly between a and b. *)
Definition between (a z b : fval) : Prop := vcmp a z = Some Lt /\ vcmp z b = Some Lt.
(** One of the two is NaN, or no number with F+1 significant bits, of whatever exponent, separates them: they are equal in
    value (the two zeros are) or next to each other. *)
Definition near (F : Z) (g v : fval) : Prop :=
  g = NaN \/ v = NaN \/
  forall s q k, 2 ^ F <= q < 2 ^ (F + 1) -> ~ between g (Num s q k) v /\ ~ between v (Num s q k) g.
(** Both NaN, or neither and no datum of the format lies strictly between them. *)
Definition one_place (E F : Z) (g v : fval) : Prop :=
  g = NaN /\ v = NaN \/
  g <> NaN /\ v <> NaN /\ forall w, wf (E + F + 3) w -> ~ between g (decode E F w) v /\ ~ between v (decode E F w) g.

(** The formats whose test programs are treated. *)
Definition fmt (E F : Z) : Prop := 4 <= E <= 30 /\ 1 <= F <= 128.
(** Draws of mpfr_urandomb at precision F+1. *)
Definition draws_ok (F : Z) (u : nat -> Z) : Prop := forall i, 0 <= u i < 2 ^ (F + 1).
(** A word whose exponent field is zero unless it is a normal number. *)
Definition plain (E F w : Z) : Prop := wf (E + F + 3) w /\ match decode E F w with Num _ _ _ => True | _ => (w / 2 ^ F) mod 2 ^ E = 0 end.
(** An operation on two operands, or one, that always returns a word of the result format. *)
Definition total2 (E F EA FA EB FB : Z) (impl : Z -> Z -> option Z) : Prop :=
  forall a b, wf (EA + FA + 3) a -> wf (EB + FB + 3) b -> exists r, impl a b = Some r /\ wf (E + F + 3) r.
Definition total1 (E F EA FA : Z) (impl : Z -> option Z) : Prop :=
  forall a, wf (EA + FA + 3) a -> exists r, impl a = Some r /\ wf (E + F + 3) r.
(** The value returned is in relation [rel] to the wanted one. *)
Definition result (E F : Z) (rel : fval -> fval -> Prop) (o : option Z) (v : fval) : Prop := exists r, o = Some r /\ rel (decode E F r) v.
