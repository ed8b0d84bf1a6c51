(** Model of include/thls/tops/bit_heap.hpp, bit_heap_mul.hpp and row_heap.hpp.
    A heap type with its contents becomes a list of columns (height, bits), most significant first;
    the last one is the bit_heap_root, the others are bit_heap_link. What does not compile is None.
    The limit of 128 bits on the height of a column and on the width of a row is not modelled. *)
From Coq Require Import ZArith Bool List.
From Verif Require Import Fw.
Import ListNotations.
Open Scope Z_scope.

Notation column := (Z * Z)%type.
Notation heap := (list (Z * Z)).
(** The static members: bit_heap.hpp:16-18, 34-36. *)
Definition hwidth (h : heap) : Z := Z.of_nat (length h).
Fixpoint max_height (h : heap) : Z :=
  match h with
  | [] => 0
  | [(H, _)] => H
  | (H, _) :: t => ctMax H (max_height t)
  end.

(** detail::uint_to_bit_heap<W>::build, fw_uint_to_bit_heap: bit_heap.hpp:47-78. There is no case
    for W = 0. *)
Fixpoint uint_to_bit_heap (n : nat) (x : Z) : option heap :=
  match n with
  | O => None
  | S O => Some [(1, x)]
  | S m =>
      do t <- take_msb (Z.of_nat n) x;
      do r <- drop_msb (Z.of_nat n) x;
      do h <- uint_to_bit_heap m r;
      Some ((1, t) :: h)
  end.

(** The loop over one column: bit_heap.hpp:94-103, 117-124. *)
Fixpoint count_bits (n : nat) (H tmp dst : Z) : option Z :=
  match n with
  | O => Some dst
  | S n =>
      do l <- take_lsb H tmp;
      do tmp1 <- (if 1 <? H then fshr H tmp 1 else Some tmp);
      count_bits n H tmp1 (if to_bool l then dst + 1 else dst)
  end.
(** detail::bit_heap_to_mpz<T>::build: bit_heap.hpp:83-126. *)
Fixpoint to_mpz_build (dst : Z) (h : heap) : option Z :=
  match h with
  | [] => None
  | [(H, x)] => count_bits (Z.to_nat H) H x dst
  | (H, x) :: t => do d <- count_bits (Z.to_nat H) H x dst; to_mpz_build (d * 2) t
  end.
(** bit_heap_to_mpz: bit_heap.hpp:128-137. *)
Definition bit_heap_to_mpz (h : heap) : option Z :=
  do r <- to_mpz_build 0 h; Some (Z.rem r (2 ^ hwidth h)).
(** operator<< of a bit_heap_link: bit_heap.hpp:161-182; only whether it can be called, and its
    calls. There is none for a bit_heap_root. *)
Definition heap_print (h : heap) : option unit :=
  do _ <- assert_ (2 <=? hwidth h); do _ <- bit_heap_to_mpz h; Some tt.

(** detail::merge_equal_width_bit_heaps: bit_heap.hpp:188-215. *)
Fixpoint merge_equal (a b : heap) : option heap :=
  match a, b with
  | [(HA, x)], [(HB, y)] => Some [(HA + HB, cat HB x y)]
  | (HA, x) :: ((_ :: _) as ta), (HB, y) :: ((_ :: _) as tb) =>
      do r <- merge_equal ta tb; Some ((HA + HB, cat HB x y) :: r)
  | _, _ => None
  end.
(** detail::pad_bit_heap_impl<Todo,TA>: bit_heap.hpp:218-236. *)
Fixpoint pad_impl (todo : nat) (a : heap) : heap :=
  match todo with O => a | S n => (0, zg 0) :: pad_impl n a end.
(** pad_bit_heap<W>: bit_heap.hpp:328-332. *)
Definition pad_bit_heap (W : Z) (a : heap) : option heap :=
  do _ <- assert_ (0 <=? W - hwidth a); Some (pad_impl (Z.to_nat (W - hwidth a)) a).
(** detail::bit_heap_zeros<places>: bit_heap.hpp:239-259. *)
Fixpoint heap_zeros (n : nat) : option heap :=
  match n with
  | O => None
  | S O => Some [(0, zg 0)]
  | S m => do r <- heap_zeros m; Some ((0, zg 0) :: r)
  end.
(** detail::bit_heap_shift_left_impl<places,T>: bit_heap.hpp:262-305. A negative number of places
    never reaches the last case of bit_heap_zeros. *)
Fixpoint shift_left (places : Z) (h : heap) : option heap :=
  match h with
  | [] => None
  | [c] => if places =? 0 then Some [c] else do z <- heap_zeros (Z.to_nat places); Some (c :: z)
  | c :: t => if places =? 0 then Some h else do r <- shift_left places t; Some (c :: r)
  end.
(** merge_bit_heaps: bit_heap.hpp:308-338. *)
Definition merge_bit_heaps (a b : heap) : option heap :=
  let W := ctMax (hwidth a) (hwidth b) in
  do pa <- pad_bit_heap W a;
  do pb <- pad_bit_heap W b;
  merge_equal pa pb.

(** detail::compress_3_2: bit_heap.hpp:387-394. *)
Definition compress_3_2 (x : Z) : option (Z * Z) :=
  do b0 <- get_bit 3 0 x;
  do b1 <- get_bit 3 1 x;
  do b2 <- get_bit 3 2 x;
  let tmp := fadd 2 (fadd 2 (zpad_hi 1 1 b0) (zpad_hi 1 1 b1)) (zpad_hi 1 1 b2) in
  do c <- get_bit 2 1 tmp;
  do s <- get_bit 2 0 tmp;
  Some (c, s).
(** detail::compress_column_impl<W>: bit_heap.hpp:429-480; carry and sum with their widths. *)
Fixpoint compress_column (n : nat) (x : Z) : option (column * column) :=
  match n with
  | O => Some ((0, zg 0), (0, zg 0))
  | S O => Some ((0, zg 0), (1, x))
  | S (S O) =>
      do m <- take_msb 2 x;
      do l <- take_lsb 2 x;
      Some ((1, fand m l), (1, fxor 1 m l))
  | S (S (S m)) =>
      do t <- take_lsbs (Z.of_nat n) 3 x;
      do local <- compress_3_2 t;
      do d <- drop_lsbs (Z.of_nat n) 3 x;
      do next <- compress_column m d;
      let '(lc, ls) := local in
      let '((cw, c), (sw, s)) := next in
      Some ((cw + 1, cat cw lc c), (sw + 1, cat sw ls s))
  end.
(** detail::compress_step<T>: bit_heap.hpp:483-536; the declared widths nCarry and nSum must be
    those of the column. *)
Fixpoint compress_step (h : heap) : option (column * heap) :=
  match h with
  | [] => None
  | [(H, x)] =>
      do cols <- compress_column (Z.to_nat H) x;
      let '((cw, c), (sw, s)) := cols in
      do _ <- assert_ ((cw =? (H + 1) / 3) && (sw =? (H + 2) / 3));
      Some (((H + 1) / 3, c), [((H + 2) / 3, s)])
  | (H, x) :: t =>
      do cols <- compress_column (Z.to_nat H) x;
      do next <- compress_step t;
      let '((cw, c), (sw, s)) := cols in
      let '((ncw, nc), nh) := next in
      do _ <- assert_ ((cw =? (H + 1) / 3) && (sw =? (H + 2) / 3));
      Some (((H + 1) / 3, c), ((H + 2) / 3 + ncw, cat ncw s nc) :: nh)
  end.
(** detail::compress<Done,T>, compress: bit_heap.hpp:540-572. The fuel counts template levels. *)
Fixpoint compress (fuel : nat) (h : heap) : option heap :=
  if max_height h <=? 2 then Some h
  else match fuel with
  | O => None
  | S f => do n <- compress_step h; compress f (snd n)
  end.

(** detail::collapse<T>::get_a: bit_heap.hpp:574-650. *)
Fixpoint collapse_a (h : heap) : option Z :=
  match h with
  | [] => None
  | [(H, x)] =>
      if (H =? 0) || (H =? 1) then Some (zg 1) else if H =? 2 then get_bit 2 0 x else None
  | (H, x) :: t =>
      do r <- collapse_a t;
      if H =? 0 then Some (cat (hwidth t) (zg 1) r)
      else if (H =? 1) || (H =? 2) then do b <- get_bit H 0 x; Some (cat (hwidth t) b r)
      else None
  end.
(** detail::collapse<T>::get_b: bit_heap.hpp:574-650. *)
Fixpoint collapse_b (h : heap) : option Z :=
  match h with
  | [] => None
  | [(H, x)] =>
      if H =? 0 then Some (zg 1) else if H =? 1 then Some x else if H =? 2 then get_bit 2 1 x else None
  | (H, x) :: t =>
      do r <- collapse_b t;
      if (H =? 0) || (H =? 1) then Some (cat (hwidth t) (zg 1) r)
      else if H =? 2 then do b <- get_bit 2 1 x; Some (cat (hwidth t) b r)
      else None
  end.
(** bit_heap_collapse: bit_heap.hpp:652-659. *)
Definition bit_heap_collapse (h : heap) : option Z :=
  do a <- collapse_a h; do b <- collapse_b h; Some (fadd (hwidth h) a b).

(** ** bit_heap_mul.hpp *)
(** bit_heap_mul_build<TILE,WA,WB,false,false>: bit_heap_mul.hpp:14-27. *)
Definition mul_tile (WA WB a b : Z) : option heap :=
  do _ <- assert_ ((0 <=? WA) && (0 <=? WB)); uint_to_bit_heap (Z.to_nat (WA + WB)) (fmul a b).
(** <TILE,WA,WB,false,splitB>: bit_heap_mul.hpp:29-64. The heaps are printed, so they must be links. *)
Fixpoint mul_split_b (fuel : nat) (TILE WA WB : Z) (splitB : bool) (a b : Z) : option heap :=
  match fuel with
  | O => None
  | S f =>
      if negb splitB then mul_tile WA WB a b
      else
        let WB_LO := WB - TILE in
        do bh <- take_msbs WB TILE b;
        do hi_orig <- mul_tile WA TILE a bh;
        do _ <- heap_print hi_orig;
        do hi <- shift_left WB_LO hi_orig;
        do _ <- heap_print hi;
        do bl <- drop_msbs WB TILE b;
        do lo <- mul_split_b f TILE WA WB_LO (TILE <? WB_LO) a bl;
        do _ <- heap_print lo;
        do res <- merge_bit_heaps hi lo;
        do _ <- heap_print res;
        Some res
  end.
(** <TILE,WA,WB,true,true>, and <false,true> once A is short enough: bit_heap_mul.hpp:84-117. *)
Fixpoint mul_split_a (fuel : nat) (TILE WA WB : Z) (splitA : bool) (a b : Z) : option heap :=
  match fuel with
  | O => None
  | S f =>
      if negb splitA then mul_split_b (Z.to_nat WB) TILE WA WB true a b
      else
        let WA_LO := WA - TILE in
        do ah <- take_msbs WA TILE a;
        do hi_orig <- mul_split_b (Z.to_nat WB) TILE TILE WB true ah b;
        do hi <- shift_left WA_LO hi_orig;
        do al <- drop_msbs WA TILE a;
        do lo <- mul_split_a f TILE WA_LO WB (TILE <? WA_LO) al b;
        merge_bit_heaps hi lo
  end.
(** bit_heap_mul<SPLIT>: bit_heap_mul.hpp:120-124; <true,false> swaps the operands, 66-82. A tile of
    no or negative width makes the recursion endless or a width negative. *)
Definition bit_heap_mul (TILE WA WB a b : Z) : option heap :=
  do _ <- assert_ ((0 <=? WA) && (0 <=? WB));
  match TILE <? WA, TILE <? WB with
  | false, false => mul_tile WA WB a b
  | false, true => do _ <- assert_ (0 <? TILE); mul_split_b (Z.to_nat WB) TILE WA WB true a b
  | true, false => do _ <- assert_ (0 <? TILE); mul_split_b (Z.to_nat WA) TILE WB WA true b a
  | true, true => do _ <- assert_ (0 <? TILE); mul_split_a (Z.to_nat WA) TILE WA WB true a b
  end.

(** ** row_heap.hpp; a row_heap_holder<W,D> is W with the list of its D rows. *)
(** detail::row_heap_compressor: row_heap.hpp:44-88. *)
Fixpoint row_compressor (W : Z) (rows : list Z) : option (list Z) :=
  match rows with
  | A :: B :: C :: rest =>
      let sum := fxor W (fxor W A B) C in
      let carry := for_ W (for_ W (fand A B) (fand B C)) (fand A C) in
      do c <- (if 1 <? W then fshl W carry 1 else Some (zg W));
      do r <- row_compressor W rest;
      Some (sum :: c :: r)
  | _ => Some rows
  end.
(** detail::row_heap_compress_iterate, compress: row_heap.hpp:91-127. The fuel counts template
    levels; one row or none is rejected. *)
Fixpoint row_compress (fuel : nat) (W : Z) (rows : list Z) : option (list Z) :=
  match rows with
  | [] | [_] => None
  | [_; _] => Some rows
  | _ => match fuel with O => None | S f => do r <- row_compressor W rows; row_compress f W r end
  end.
(** collapse: row_heap.hpp:130-135. *)
Definition row_collapse (W : Z) (rows : list Z) : option Z :=
  match rows with [a; b] => Some (fadd W a b) | _ => None end.
(** row_heap_to_mpz: row_heap.hpp:138-155. *)
Definition row_heap_to_mpz (W : Z) (rows : list Z) : Z := Z.rem (fold_left Z.add rows 0) (2 ^ W).
(** fw_uint_to_row_heap: row_heap.hpp:159-165. *)
Definition fw_uint_to_row_heap (x : Z) : list Z := [x].
Fixpoint extu_rows (W B : Z) (rows : list Z) : option (list Z) :=
  match rows with
  | [] => Some []
  | x :: t => do y <- extu W B x; do r <- extu_rows W B t; Some (y :: r)
  end.
(** operator+ of two row heaps: row_heap.hpp:167-182; width and rows. *)
Definition row_add (WA WB : Z) (a b : list Z) : option (Z * list Z) :=
  let W := ctMax WA WB in
  do ra <- extu_rows WA W a; do rb <- extu_rows WB W b; Some (W, ra ++ rb).
(** operator+ of a row heap and a number: row_heap.hpp:184-195. *)
Definition row_add_uint (WA WB : Z) (a : list Z) (b : Z) : option (Z * list Z) :=
  let W := ctMax WA WB in
  do ra <- extu_rows WA W a; do rb <- extu WB W b; Some (W, ra ++ [rb]).
