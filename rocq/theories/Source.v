(** Model of fp_flopoco_random_test_source<ExpBits,FracBits>: include/thls/tops/fp_flopoco.hpp:1082-1176. *)
From Coq Require Import ZArith QArith List.
From Verif Require Import Fw FwWord Flopoco.
Import ListNotations.
Open Scope Z_scope.

(** enum Class: lines 1086-1094. *)
Inductive class := PosZero | NegZero | PosNormal | NegNormal | PosInf | NegInf | ClassNaN.
Definition classes : list class := [PosZero; NegZero; PosNormal; NegNormal; PosInf; NegInf; ClassNaN].
Definition class_eqb (a b : class) : bool :=
  match a, b with
  | PosZero, PosZero | NegZero, NegZero | PosNormal, PosNormal | NegNormal, NegNormal
  | PosInf, PosInf | NegInf, NegInf | ClassNaN, ClassNaN => true
  | _, _ => false
  end.
(** class_pdf and the constructor: lines 1100, 1115-1126. The entries are the numbers 0, 1 and 64, so they and their sums are
    exact as doubles; integers here. *)
Definition pdf := class -> Z.
Definition source_init : pdf := fun c => match c with PosNormal | NegNormal => 64 | _ => 1 end.
(** disable_class: lines 1128-1132. *)
Definition disable_class (c : class) (p : pdf) : pdf := fun d => if class_eqb d c then 0 else p d.
(** update_cdf: lines 1103-1110. *)
Fixpoint cdf_from (acc : Z) (p : pdf) (l : list class) : list (class * Z) :=
  match l with [] => [] | c :: l => let cdf := acc + p c in (c, cdf) :: cdf_from cdf p l end.
Definition class_cdf (p : pdf) : list (class * Z) := cdf_from 0 p classes.
(** class_cdf.back(). *)
Definition cdf_back (p : pdf) : Z := snd (last (class_cdf p) (PosZero, 0)).
(** The selection loop: lines 1143-1149. None when no entry reaches u. *)
Fixpoint select_class (u : Q) (l : list (class * Z)) : option class :=
  match l with
  | [] => None
  | (c, cdf) :: l => if Qle_bool u (inject_Z cdf) then Some c else select_class u l
  end.
(** operator(): lines 1134-1174, on the words rng delivers. [draw] is m_udist( rng )*class_cdf.back(), line 1143: it is given the
    factor and the words. *)
Definition source_next (draw : Z -> list Z -> option (Q * list Z)) (E F : Z) (p : pdf) (rng : list Z) : option (Z * list Z) :=
  do r <- m_random E rng; let '(ex, rng) := r in
  do r <- m_random F rng; let '(frac, rng) := r in
  do r <- draw (cdf_back p) rng; let '(u, rng) := r in
  do r <- match select_class u (class_cdf p) with
          | Some NegZero => Some (0, 1, rng)
          | Some PosZero => Some (0, 0, rng)
          | Some NegInf => Some (2, 1, rng)
          | Some PosInf => Some (2, 0, rng)
          | Some ClassNaN => do s <- m_random 1 rng; Some (3, fst s, snd s)
          | Some NegNormal => Some (1, 1, rng)
          | Some PosNormal => Some (1, 0, rng)
          | None => Some (0, 0, rng)
          end;
  let '(flags, sign, rng) := r in
  Some (mk E F flags sign ex frac, rng).
