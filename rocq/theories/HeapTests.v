(** Model of the test programs src/fp_ops/test_bit_heap.cpp and test_row_heap.cpp. None is a program that does
    not compile or stops at an assertion. The functions under test are arguments, so that wrong ones can be put in.
    Simplification: of what is printed, only the pairs (expected, found) are kept, without the operands. *)
From Coq Require Import ZArith Bool List.
From Verif Require Import Fw Heap.
Import ListNotations.
Open Scope Z_scope.

Notation output := (list (Z * Z)).
(** if(mpz_cmp(ref, got)) print: test_bit_heap.cpp:45-48, 53-56, 63-66 and the like. *)
Definition differ (ref got : Z) : output := if ref =? got then [] else [(ref, got)].
Definition then_ (a b : option output) : option output := do x <- a; do y <- b; Some (x ++ y).
(** for(int i=...; n times; i++). *)
Fixpoint for_up (n : nat) (i : Z) (body : Z -> option output) : option output :=
  match n with O => Some [] | S m => then_ (body i) (for_up m (i + 1) body) end.
Definition for_width (W : Z) (body : Z -> option output) : option output :=
  for_up (Z.to_nat (2 ^ W)) 0 (fun i => do a <- of_int W i; body a).
(** #ifndef QUICK: both programs define QUICK, test_bit_heap.cpp:17, test_row_heap.cpp:19. *)
Definition unless (quick : bool) (a : option output) : option output := if quick then Some [] else a.
(** The reference sums, e.g. extu<WT>(a)+extu<WT>(b): test_bit_heap.cpp:40, 92, 133, test_row_heap.cpp:95, 148, 209. *)
Fixpoint ref_sum (WT acc : Z) (l : list (Z * Z)) : option Z :=
  match l with [] => Some acc | (W, x) :: t => do e <- extu W WT x; ref_sum WT (fadd WT acc e) t end.
Definition ref_add (WT WA a : Z) (l : list (Z * Z)) : option Z := do e <- extu WA WT a; ref_sum WT e l.

(** ** test_bit_heap.cpp *)
Record bit_ops := BitOps { b_merge : heap -> heap -> option heap; b_compress : heap -> option heap; b_collapse : heap -> option Z }.
(** The library's. Eight template levels are more than four operands need. *)
Definition bit_library : bit_ops := BitOps merge_bit_heaps (compress 8) bit_heap_collapse.
(** A mistake to look for: a final adder with its carry in stuck at one. *)
Definition bit_wrong : bit_ops := BitOps merge_bit_heaps (compress 8) (fun h => do v <- bit_heap_collapse h; Some (fadd (hwidth h) v 1)).
Definition bit_of (W x : Z) : option heap := uint_to_bit_heap (Z.to_nat W) x.
(** test_level_4: test_bit_heap.cpp:19-71. *)
Definition bit_level_4 (o : bit_ops) (WA WB WC WD b c d : Z) : option output :=
  for_width WA (fun a =>
    do ha <- bit_of WA a; do hb <- bit_of WB b; do hc <- bit_of WC c; do hd <- bit_of WD d;
    let WT := ctMax (ctMax WC WD) (ctMax WA WB) in
    do ab <- b_merge o ha hb; do cd <- b_merge o hc hd; do abcd <- b_merge o ab cd;
    do ref <- ref_add WT WA a [(WB, b); (WC, c); (WD, d)];
    do got1 <- bit_heap_to_mpz abcd;
    do comp <- b_compress o abcd;
    do got2 <- bit_heap_to_mpz comp;
    do _ <- assert_ (max_height comp <=? 2);
    do got3 <- b_collapse o comp;
    Some (differ ref got1 ++ differ ref got2 ++ differ ref got3)).
(** test_level_3: test_bit_heap.cpp:73-113. *)
Definition bit_level_3 (o : bit_ops) (quick : bool) (WA WB WC b c : Z) : option output :=
  for_width WA (fun a =>
    do ha <- bit_of WA a; do hb <- bit_of WB b; do hc <- bit_of WC c;
    let WT := ctMax WC (ctMax WA WB) in
    do ab <- b_merge o ha hb; do abc <- b_merge o ab hc;
    do ref <- ref_add WT WA a [(WB, b); (WC, c)];
    do got <- bit_heap_to_mpz abc;
    then_ (Some (differ ref got))
      (then_ (unless quick (bit_level_4 o 2 WA WB WC a b c))
        (then_ (bit_level_4 o 4 WA WB WC a b c) (unless quick (bit_level_4 o 5 WA WB WC a b c))))).
(** test_level_2: test_bit_heap.cpp:116-152. *)
Definition bit_level_2 (o : bit_ops) (quick : bool) (WA WB b : Z) : option output :=
  for_width WA (fun a =>
    do ha <- bit_of WA a; do hb <- bit_of WB b;
    let WT := ctMax WA WB in
    do ab <- b_merge o ha hb;
    do ref <- ref_add WT WA a [(WB, b)];
    do got <- bit_heap_to_mpz ab;
    then_ (Some (differ ref got))
      (then_ (unless quick (bit_level_3 o quick 1 WA WB a b))
        (then_ (unless quick (bit_level_3 o quick 3 WA WB a b)) (bit_level_3 o quick 5 WA WB a b)))).
(** test_level_1: test_bit_heap.cpp:154-168. *)
Definition bit_level_1 (o : bit_ops) (quick : bool) (W : Z) : option output :=
  for_width W (fun x =>
    then_ (unless quick (bit_level_2 o quick 2 W x)) (then_ (bit_level_2 o quick 4 W x) (unless quick (bit_level_2 o quick 5 W x)))).
(** test, main: test_bit_heap.cpp:170-177, 180-258: the output and the exit status. *)
Definition bit_main (o : bit_ops) (quick : bool) : option (output * Z) :=
  do out <- then_ (unless quick (bit_level_1 o quick 1)) (then_ (unless quick (bit_level_1 o quick 2)) (bit_level_1 o quick 5));
  Some (out, 0).

(** ** test_row_heap.cpp; its test_level_5 is never instantiated. *)
Record row_ops := RowOps {
  r_add : Z -> Z -> list Z -> list Z -> option (Z * list Z); r_compress : Z -> list Z -> option (list Z); r_collapse : Z -> list Z -> option Z }.
Definition row_library : row_ops := RowOps row_add (row_compress 8) row_collapse.
Definition row_wrong : row_ops := RowOps row_add (row_compress 8) (fun W rows => do v <- row_collapse W rows; Some (fadd W v 1)).
(** A number as a row heap with its width, and operator+ of two: row_heap.hpp:159-182. *)
Definition row_one (W x : Z) : option (Z * list Z) := Some (W, fw_uint_to_row_heap x).
Definition row_plus (a b : Z * list Z) : option (Z * list Z) := row_add (fst a) (fst b) (snd a) (snd b).
(** The part that test_level_3 and test_level_4 share: test_row_heap.cpp:97-122, 150-174. *)
Definition row_checks (o : row_ops) (ref : Z) (s : Z * list Z) : option output :=
  let (W, rows) := s in
  do comp <- r_compress o W rows;
  do _ <- assert_ (Z.of_nat (length comp) <=? 2);
  do got3 <- r_collapse o W comp;
  Some (differ ref (row_heap_to_mpz W rows) ++ differ ref (row_heap_to_mpz W comp) ++ differ ref got3).
(** bh_a+bh_b+...: test_row_heap.cpp:93, 146, 207. *)
Fixpoint row_chain (o : row_ops) (s : Z * list Z) (l : list (Z * Z)) : option (Z * list Z) :=
  match l with
  | [] => Some s
  | (W, x) :: t => do n <- r_add o (fst s) W (snd s) (fw_uint_to_row_heap x); row_chain o n t
  end.
(** test_level_4: test_row_heap.cpp:77-128. *)
Definition row_level_4 (o : row_ops) (WA WB WC WD b c d : Z) : option output :=
  for_width WA (fun a =>
    let WT := ctMax (ctMax WC WD) (ctMax WA WB) in
    do s <- row_chain o (WA, fw_uint_to_row_heap a) [(WB, b); (WC, c); (WD, d)];
    do ref <- ref_add WT WA a [(WB, b); (WC, c); (WD, d)];
    row_checks o ref s).
(** test_level_3: test_row_heap.cpp:130-190. *)
Definition row_level_3 (o : row_ops) (quick : bool) (WA WB WC b c : Z) : option output :=
  for_width WA (fun a =>
    let WT := ctMax WC (ctMax WA WB) in
    do s <- row_chain o (WA, fw_uint_to_row_heap a) [(WB, b); (WC, c)];
    do ref <- ref_add WT WA a [(WB, b); (WC, c)];
    then_ (row_checks o ref s)
      (then_ (unless quick (then_ (row_level_4 o 1 WA WB WC a b c) (then_ (row_level_4 o 2 WA WB WC a b c) (row_level_4 o 3 WA WB WC a b c))))
        (then_ (row_level_4 o 4 WA WB WC a b c) (unless quick (row_level_4 o 5 WA WB WC a b c))))).
(** test_level_2: test_row_heap.cpp:192-231. *)
Definition row_level_2 (o : row_ops) (quick : bool) (WA WB b : Z) : option output :=
  for_width WA (fun a =>
    let WT := ctMax WA WB in
    do s <- row_chain o (WA, fw_uint_to_row_heap a) [(WB, b)];
    do ref <- ref_add WT WA a [(WB, b)];
    then_ (Some (differ ref (row_heap_to_mpz (fst s) (snd s))))
      (then_ (unless quick (then_ (row_level_3 o quick 1 WA WB a b) (then_ (row_level_3 o quick 2 WA WB a b)
                 (then_ (row_level_3 o quick 3 WA WB a b) (row_level_3 o quick 4 WA WB a b)))))
        (row_level_3 o quick 5 WA WB a b))).
(** test_level_1: test_row_heap.cpp:233-267. *)
Definition row_level_1 (o : row_ops) (quick : bool) (W : Z) : option output :=
  for_width W (fun x =>
    then_ (Some (differ x (row_heap_to_mpz W (fw_uint_to_row_heap x))))
      (then_ (unless quick (then_ (row_level_2 o quick 1 W x) (then_ (row_level_2 o quick 2 W x) (row_level_2 o quick 3 W x))))
        (then_ (row_level_2 o quick 4 W x) (unless quick (row_level_2 o quick 5 W x))))).
(** test, main: test_row_heap.cpp:269-280, 283-292. *)
Definition row_main (o : row_ops) (quick : bool) : option (output * Z) :=
  do out <- then_ (unless quick (then_ (row_level_1 o quick 1) (row_level_1 o quick 2)))
     (then_ (row_level_1 o quick 3) (unless quick (then_ (row_level_1 o quick 4) (row_level_1 o quick 5))));
  Some (out, 0).
