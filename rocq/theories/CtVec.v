(** Model of the compile-time vectors: include/thls/tops/ct/ct_vec.hpp, ct_vec_create.hpp,
    ct_vec_permute.hpp, ct_vec_unique.hpp, ct_vec_algorithms.hpp. A type-level vector becomes a
    tree; a program that does not instantiate becomes None. The static member N is an int; the
    model does not wrap it, since no compiler reaches 2^31 elements. *)
From Coq Require Import ZArith Bool List.
From Verif Require Import Fw.
Import ListNotations.
Open Scope Z_scope.

(** ct_vec_empty, ct_vec_branch, ct_vec_leaf: ct_vec.hpp:22-39. *)
Inductive vec (T : Type) : Type := Empty | Leaf (v : T) | Branch (l r : vec T).
Arguments Empty {T}. Arguments Leaf {T}. Arguments Branch {T}.

(** The member N: ct_vec.hpp:24, 30, 36. *)
Fixpoint vN {T} (t : vec T) : Z :=
  match t with Empty => 0 | Leaf _ => 1 | Branch l r => vN l + vN r end.

(** ct_vec_read: ct_vec.hpp:44-63. Both sides of a branch are instantiated, the index of a leaf is
    not checked, and there is no specialisation for ct_vec_empty. *)
Fixpoint vread {T} (i : Z) (t : vec T) : option T :=
  match t with
  | Empty => None
  | Leaf v => Some v
  | Branch l r =>
      do a <- vread i l;
      do b <- vread (i - vN l) r;
      Some (if i <? vN l then a else b)
  end.

(** ct_vec_write: ct_vec.hpp:68-88. *)
Fixpoint vwrite {T} (i : Z) (w : T) (t : vec T) : option (vec T) :=
  match t with
  | Empty => None
  | Leaf _ => Some (Leaf w)
  | Branch l r =>
      do wl <- vwrite i w l;
      do wr <- vwrite (i - vN l) w r;
      Some (Branch (if i <? vN l then wl else l) (if i <? vN l then r else wr))
  end.

(** ct_vec_swap: ct_vec.hpp:98-105. *)
Definition vswap {T} (i0 i1 : Z) (t : vec T) : option (vec T) :=
  do v0 <- vread i0 t;
  do v1 <- vread i1 t;
  do t1 <- vwrite i1 v0 t;
  vwrite i0 v1 t1.

(** create_ct_vec: ct_vec_create.hpp:13-32. *)
Fixpoint vcreate {T} (fuel : nat) (n : Z) (v : T) : option (vec T) :=
  match fuel with
  | O => None
  | S f =>
      if n =? 1 then Some (Leaf v)
      else if n =? 0 then Some Empty
      else
        do l <- vcreate f (Z.quot n 2) v;
        do r <- vcreate f (n - Z.quot n 2) v;
        Some (Branch l r)
  end.
(** create_ct_vec_rotation_impl: ct_vec_create.hpp:43-56; there is no case for LocN = 0. *)
Fixpoint vrot {T} (fuel : nat) (mk : Z -> T) (o n m : Z) : option (vec T) :=
  match fuel with
  | O => None
  | S f =>
      if n =? 1 then do _ <- assert_ (negb (m =? 0)); Some (Leaf (mk (Z.rem o m)))
      else
        do l <- vrot f mk o (Z.quot n 2) m;
        do r <- vrot f mk (o + Z.quot n 2) (n - Z.quot n 2) m;
        Some (Branch l r)
  end.
(** create_ct_vec_rotation: ct_vec_create.hpp:58-62. *)
Definition vrotation {T} (mk : Z -> T) (o n : Z) : option (vec T) := vrot 64 mk o n n.

(** ct_vec_permute_impl<J,Rng,Vec>: ct_vec_permute.hpp:23-46, J = n. The generator is any state
    with a 32-bit value and a step. J = 0 divides by zero. *)
Fixpoint vpermute_impl {T G} (value : G -> Z) (next : G -> option G) (n : nat) (g : G) (t : vec T) : option (vec T * G) :=
  match n with
  | O => None
  | S O => Some (t, g)
  | S m =>
      let J := Z.of_nat n in
      let R := Z.shiftr (value g) 16 in
      do _ <- assert_ ((J - 1 <? vN t) && (Z.rem R J <? vN t));
      do t1 <- vswap (J - 1) (Z.rem R J) t;
      do g1 <- next g;
      vpermute_impl value next m g1 t1
  end.
(** ct_vec_permute: ct_vec_permute.hpp:48-57. *)
Definition vpermute {T G} (value : G -> Z) (next : G -> option G) (g : G) (t : vec T) : option (vec T * G) :=
  vpermute_impl value next (Z.to_nat (vN t)) g t.

(** An element of a vector of integral constants, or one of the sentinels: ct_vec_unique.hpp:17-18. *)
Inductive cv : Type := Lower | Upper | IC (z : Z).
(** ct_vec_compare: ct_vec_unique.hpp:20-58. Where two partial specialisations match and neither is
    more specialised the program is ambiguous. *)
Definition vcompare (x y : cv) : option Z :=
  match x, y with
  | IC a, IC b => Some (if a <? b then -1 else if a >? b then 1 else 0)
  | Upper, Upper => Some 0
  | Upper, Lower | Lower, Upper | Lower, Lower => None
  | _, Upper => Some (-1)
  | Upper, _ => Some 1
  | _, Lower => Some 1
  | Lower, _ => Some (-1)
  end.
(** ct_vec_next_above: ct_vec_unique.hpp:62-87. *)
Fixpoint next_above (v : cv) (t : vec cv) : option cv :=
  match t with
  | Empty => None
  | Leaf x => do c <- vcompare v x; Some (if c <? 0 then x else Upper)
  | Branch l r =>
      do vL <- next_above v l;
      do vR <- next_above v r;
      do c <- vcompare vL vR;
      Some (if c <? 0 then vL else vR)
  end.
Definition is_upper (v : cv) : bool := match v with Upper => true | _ => false end.
(** ct_vec_reduce_unique_impl<Prev,Vec>::N: ct_vec_unique.hpp:89-95, 106-109. *)
Fixpoint uniq_N (fuel : nat) (prev : cv) (t : vec cv) : option Z :=
  match fuel with
  | O => None
  | S f =>
      if is_upper prev then Some 0
      else
        do curr <- next_above prev t;
        do n <- uniq_N f curr t;
        Some (if is_upper curr then 0 else 1 + n)
  end.
(** ct_vec_reduce_unique_impl<Prev,Vec>::build<I,Acc>: ct_vec_unique.hpp:97-104, 111-114. The level
    that finds the sentinel writes it too, one past the end. *)
Fixpoint uniq_build (fuel : nat) (prev : cv) (t : vec cv) (i : Z) (acc : vec cv) : option (vec cv) :=
  match fuel with
  | O => None
  | S f =>
      if is_upper prev then Some acc
      else
        do curr <- next_above prev t;
        do next_acc <- uniq_build f curr t (i + 1) acc;
        vwrite i curr next_acc
  end.
(** ct_vec_unique: ct_vec_unique.hpp:118-129. *)
Definition vunique (t : vec cv) : option (vec cv) :=
  let fuel := (Z.to_nat (vN t) + 2)%nat in
  do n <- uniq_N fuel Lower t;
  do zeros <- vcreate 64 n (IC 0);
  uniq_build fuel Lower t 0 zeros.

(** ct_vec_for_each: ct_vec_algorithms.hpp:14-40; the calls made, in order. *)
Fixpoint vfor_each {T} (off : Z) (t : vec T) : option (list (Z * T)) :=
  match t with
  | Empty => None
  | Leaf c => Some [(off, c)]
  | Branch l r => do a <- vfor_each off l; do b <- vfor_each (off + vN l) r; Some (a ++ b)
  end.
(** ct_vec_map_reduce: ct_vec_algorithms.hpp:46-82. *)
Fixpoint vmap_reduce {T A} (map : Z -> T -> option A) (reduce : A -> A -> option A) (off : Z) (t : vec T) : option A :=
  match t with
  | Empty => None
  | Leaf c => map off c
  | Branch l r =>
      do a <- vmap_reduce map reduce off l;
      do b <- vmap_reduce map reduce (off + vN l) r;
      reduce a b
  end.

(** Observations used by the theorems: the elements from left to right, whether every part is
    non-empty, and the shape. *)
Fixpoint velems {T} (t : vec T) : list T :=
  match t with Empty => [] | Leaf v => [v] | Branch l r => velems l ++ velems r end.
Fixpoint vfull {T} (t : vec T) : bool :=
  match t with Empty => false | Leaf _ => true | Branch l r => vfull l && vfull r end.
Fixpoint vshape {T} (t : vec T) : vec unit :=
  match t with Empty => Empty | Leaf _ => Leaf tt | Branch l r => Branch (vshape l) (vshape r) end.
