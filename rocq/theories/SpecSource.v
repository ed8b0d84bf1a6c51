(** Specification for the random test source (C69): classes by weight, and the bits generator words make. *)
From Coq Require Import ZArith List.
From Verif Require Import Spec SpecFw FwWord Source.
Import ListNotations.
Open Scope Z_scope.

(** The weight of the classes listed before a class, and of all of them. *)
Definition weight_before (p : pdf) (c : class) : Z :=
  match c with
  | PosZero => 0
  | NegZero => p PosZero
  | PosNormal => p PosZero + p NegZero
  | NegNormal => p PosZero + p NegZero + p PosNormal
  | PosInf => p PosZero + p NegZero + p PosNormal + p NegNormal
  | NegInf => p PosZero + p NegZero + p PosNormal + p NegNormal + p PosInf
  | ClassNaN => p PosZero + p NegZero + p PosNormal + p NegNormal + p PosInf + p NegInf
  end.
Definition weights (p : pdf) : Z := weight_before p ClassNaN + p ClassNaN.
(** The class a value belongs to. *)
Definition value_class (v : fval) : class :=
  match v with Zero s => if s then NegZero else PosZero | Num s _ _ => if s then NegNormal else PosNormal | Inf s => if s then NegInf else PosInf | NaN => ClassNaN end.
(** The generator words that fill W bits, and the number their top W bits make. *)
Definition enough (W : Z) (ws : list Z) : Prop := Z.of_nat (length ws) = (W + 31) / 32 /\ Forall (fun w => 0 <= w < 2 ^ 32) ws.
Definition top_bits (W : Z) (ws : list Z) : Z := number (2 ^ 32) ws / 2 ^ (32 * Z.of_nat (length ws) - W).
