(** Specification of the dot products of positive numbers, rounded towards minus infinity.
    Nothing here refers to the model of the code. *)
From Coq Require Import ZArith Bool.
From Verif Require Import Spec.
Open Scope Z_scope.

(** (-1)^neg * (n/d) * 2^k rounded towards zero to F+1 significant bits; below the exponent
    range it becomes zero, above it infinity. *)
Definition trunc_range (lo hi F : Z) (neg : bool) (n d k : Z) : fval :=
  let '(m, e) := trunc_pos F n d in finish lo hi F neg (m, e + k).

(** Exact product and sum of the positive numbers m*2^e, as pairs (m,e). *)
Definition dmul (x y : fval) : Z * Z :=
  match x, y with Num _ m e, Num _ n f => (m * n, e + f) | _, _ => (0, 0) end.
Definition dadd (p q : Z * Z) : Z * Z :=
  let '(m, e) := p in let '(n, f) := q in
  let k := Z.min e f in (m * 2 ^ (e - k) + n * 2 ^ (f - k), k).

Definition rndd (E F : Z) (p : Z * Z) : fval :=
  let '(m, e) := p in trunc_range (emin E) (emax E) F false m 1 e.

Definition pos_normal (x : fval) : Prop := exists m e, x = Num false m e.

Definition dot2_spec (E F : Z) (a0 a1 b0 b1 : fval) : fval :=
  rndd E F (dadd (dmul a0 b0) (dmul a1 b1)).
Definition dot4_exact (a0 a1 a2 a3 b0 b1 b2 b3 : fval) : Z * Z :=
  dadd (dadd (dmul a0 b0) (dmul a1 b1)) (dadd (dmul a2 b2) (dmul a3 b3)).
Definition dot4_spec (E F : Z) (a0 a1 a2 a3 b0 b1 b2 b3 : fval) : fval :=
  rndd E F (dot4_exact a0 a1 a2 a3 b0 b1 b2 b3).

(** How many of four numbers lie more than 4F-1 below the largest. *)
Definition far_count (F X0 X1 X2 X3 : Z) : Z :=
  let top := Z.max (Z.max X0 X1) (Z.max X2 X3) in
  Z.b2z (4 * F - 1 <? top - X0) + Z.b2z (4 * F - 1 <? top - X1) + Z.b2z (4 * F - 1 <? top - X2) + Z.b2z (4 * F - 1 <? top - X3).
