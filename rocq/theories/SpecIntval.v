(** Programs that compute with integers of known range, and what they should give. *)
From Coq Require Import ZArith.
From Verif Require Import Fw Fixval Intval.
Open Scope Z_scope.

(** A constant, a variable with its range, sum, product and shift right by a constant. *)
Inductive iexpr := Const (v : Z) | Var (low high : Z) (i : nat) | Sum (a b : iexpr) | Prod (a b : iexpr) | Shr (k : Z) (a : iexpr).
(** The integer it stands for. *)
Fixpoint ivalue (env : nat -> Z) (e : iexpr) : Z :=
  match e with
  | Const v => v
  | Var _ _ i => env i
  | Sum a b => ivalue env a + ivalue env b
  | Prod a b => ivalue env a * ivalue env b
  | Shr k a => ivalue env a / 2 ^ k
  end.
(** Every variable is within its range. *)
Fixpoint inputs_ok (env : nat -> Z) (e : iexpr) : Prop :=
  match e with
  | Const _ => True
  | Var low high i => low <= env i <= high
  | Sum a b | Prod a b => inputs_ok env a /\ inputs_ok env b
  | Shr _ a => inputs_ok env a
  end.
(** The type the compiler finds; None if the program is rejected. *)
Fixpoint itype (e : iexpr) : option fixt :=
  match e with
  | Const v => do _ <- i64 v; Some (Fixt 0 v v)
  | Var low high _ => do _ <- i64 low; do _ <- i64 high; Some (Fixt 0 low high)
  | Sum a b => do s <- itype a; do t <- itype b; add_type s t
  | Prod a b => do s <- itype a; do t <- itype b; mul_type s t
  | Shr k a => do t <- itype a; shr_const_type k t
  end.
(** Running it. *)
Fixpoint irun (env : nat -> Z) (e : iexpr) : option (fixt * Z) :=
  match e with
  | Const v => constant_intval v
  | Var low high i => make_intval low high (env i)
  | Sum a b => do x <- irun env a; do y <- irun env b; fix_add x y
  | Prod a b => do x <- irun env a; do y <- irun env b; fix_mul x y
  | Shr k a => do x <- irun env a; fix_shr_const k x
  end.
(** The range of the values by interval arithmetic over the integers. *)
Fixpoint irange (e : iexpr) : Z * Z :=
  match e with
  | Const v => (v, v)
  | Var low high _ => (low, high)
  | Sum a b => (fst (irange a) + fst (irange b), snd (irange a) + snd (irange b))
  | Prod a b =>
      let (la, ha) := irange a in let (lb, hb) := irange b in
      (Z.min (Z.min (la * lb) (la * hb)) (Z.min (ha * lb) (ha * hb)), Z.max (Z.max (la * lb) (la * hb)) (Z.max (ha * lb) (ha * hb)))
  | Shr k a => (fst (irange a) / 2 ^ k, snd (irange a) / 2 ^ k)
  end.
(** All of it within an int64_t. *)
Definition in64 (x : Z) : Prop := - 2 ^ 63 <= x < 2 ^ 63.
Fixpoint fits (e : iexpr) : Prop :=
  match e with
  | Const v => in64 v
  | Var low high _ => in64 low /\ in64 high
  | Sum a b => fits a /\ fits b /\ in64 (fst (irange (Sum a b))) /\ in64 (snd (irange (Sum a b)))
  | Prod a b => fits a /\ fits b /\ in64 (fst (irange (Prod a b))) /\ in64 (snd (irange (Prod a b)))
  | Shr k a => 0 <= k < 64 /\ fits a
  end.
