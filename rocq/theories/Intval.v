(** Model of include/thls/types/intval.hpp, of the int64_t operations of core/base_ops.hpp and of tops/function_utils.hpp.
    intval<low,high> is fixval<0,low,high> (intval.hpp:34-35), with the operators of Fixval.v; the operators of intval itself are
    inside a comment. The macro names are read as in Fixval.v. *)
From Coq Require Import ZArith Bool List.
From Verif Require Import Fw Fixval.
Import ListNotations.
Open Scope Z_scope.

(** constant_intval<v>(), make_intval<low,high>(v): intval.hpp:37-43. A template argument is an int64_t. *)
Definition constant_intval (v : Z) : option fixv := do _ <- i64 v; mkfix (Fixt 0 v v) v.
Definition make_intval (low high v : Z) : option fixv := do _ <- i64 low; do _ <- i64 high; mkfix (Fixt 0 low high) v.
(** shift_right_const_type of a fixval: fixval.hpp:187-193; of an int64_t with the function itself: base_ops.hpp:45-54. *)
Definition shr_const_type (places : Z) (t : fixt) : option fixt :=
  do l <- shr64 (flow t) places; do h <- shr64 (fhigh t) places; Some (Fixt (fshift t) l h).
Definition shr_const_int64 (places a : Z) : option Z := shr64 a places.

(** make_index_sequence<N,I...>: function_utils.hpp:9-19. *)
Fixpoint make_index_sequence (N : nat) (I : list nat) : list nat :=
  match N with O => I | S M => make_index_sequence M (M :: I) end.
(** x[I]... of callN_impl; an index beyond the array is undefined. *)
Fixpoint elements {A : Type} (x : list A) (I : list nat) : option (list A) :=
  match I with [] => Some [] | i :: t => do a <- nth_error x i; do r <- elements x t; Some (a :: r) end.
(** callN_impl, callN: function_utils.hpp:23-33. f takes its arguments as a list; an array of N elements is a list of length N. *)
Definition callN {A B : Type} (f : list A -> B) (x : list A) : option B :=
  do args <- elements x (make_index_sequence (length x) []); Some (f args).
