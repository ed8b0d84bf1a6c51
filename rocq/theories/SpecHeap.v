(** What a bit heap stands for: columns of bits, most significant column first. *)
From Coq Require Import ZArith List.
Import ListNotations.
Open Scope Z_scope.

(** The number of ones among the H lowest bits of x. *)
Definition ones (H x : Z) : Z :=
  fold_right Z.add 0 (map (fun i => Z.b2z (Z.testbit x (Z.of_nat i))) (seq 0 (Z.to_nat H))).
(** The sum of all bits, each weighted by the power of two of its column. *)
Fixpoint total (h : list (Z * Z)) : Z :=
  match h with
  | [] => 0
  | (H, x) :: t => ones H x * 2 ^ Z.of_nat (length t) + total t
  end.
(** The number of columns. *)
Definition width (h : list (Z * Z)) : Z := Z.of_nat (length h).
(** At least one column, and each holds a number of its own height in bits. *)
Definition heap_ok (h : list (Z * Z)) : Prop :=
  h <> [] /\ Forall (fun c => 0 <= fst c /\ 0 <= snd c < 2 ^ fst c) h.
Definition heights (h : list (Z * Z)) : list Z := map fst h.
(** The heights after one level of 3:2 compressors, from the comment at bit_heap.hpp:345-363:
    nC(h) = (h+1)/3, nS(h) = (h+2)/3, h'(i) = nS(h(i)) + nC(h(i-1)). *)
Fixpoint next_heights (l : list Z) : list Z :=
  match l with
  | [] => []
  | h :: t => ((h + 2) / 3 + match t with [] => 0 | h1 :: _ => (h1 + 1) / 3 end) :: next_heights t
  end.
(** The sum of the rows of a row heap. *)
Definition row_total (l : list Z) : Z := fold_right Z.add 0 l.
