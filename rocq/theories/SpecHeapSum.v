(** Sums of unsigned integers of various widths, written down in any order and with any brackets. *)
From Coq Require Import ZArith.
Open Scope Z_scope.

(** One W x is the number x as a W-bit word; Plus is the operator that adds two heaps. *)
Inductive expr := One (W x : Z) | Plus (s t : expr).
Fixpoint legal (t : expr) : Prop :=
  match t with One W x => 1 <= W /\ 0 <= x < 2 ^ W | Plus s t => legal s /\ legal t end.
(** The exact sum of the numbers, and the width of the widest. *)
Fixpoint exact (t : expr) : Z := match t with One _ x => x | Plus s t => exact s + exact t end.
Fixpoint widest (t : expr) : Z := match t with One W _ => W | Plus s t => Z.max (widest s) (widest t) end.
Fixpoint terms (t : expr) : Z := match t with One _ _ => 1 | Plus s t => terms s + terms t end.

(** A program that adds with [plus] what it builds with [one]. *)
Fixpoint run {A : Type} (one : Z -> Z -> option A) (plus : A -> A -> option A) (t : expr) : option A :=
  match t with
  | One W x => one W x
  | Plus s t =>
      match run one plus s, run one plus t with
      | Some a, Some b => plus a b
      | _, _ => None
      end
  end.
