(** Model of include/thls/types/fixval.hpp, core/constfunc_helpers.hpp, functions/product.hpp,
    functions/horner.hpp and functions/select.hpp.
    fixval.hpp uses macros (HLS_STATIC_ASSERT, HLS_SC) that the repository defines under other names
    (THLS_STATIC_ASSERT, THLS_STATIC_CONST), and names of namespace thls outside it; the model reads
    them as meant. An int64_t or int result that does not fit is None (undefined, or rejected as a
    template argument). Shifting a negative number left multiplies, as GCC defines it. *)
From Coq Require Import ZArith Bool List.
From Verif Require Import Fw.
Import ListNotations.
Open Scope Z_scope.

Definition i64 (x : Z) : option Z := do _ <- assert_ ((- 2 ^ 63 <=? x) && (x <? 2 ^ 63)); Some x.
Definition i32 (x : Z) : option Z := do _ <- assert_ ((- 2 ^ 31 <=? x) && (x <? 2 ^ 31)); Some x.
Definition shl64 (v k : Z) : option Z := do _ <- assert_ ((0 <=? k) && (k <? 64)); i64 (v * 2 ^ k).
Definition shr64 (v k : Z) : option Z := do _ <- assert_ ((0 <=? k) && (k <? 64)); Some (Z.shiftr v k).
Definition add64 (a b : Z) : option Z := i64 (a + b).
Definition mul64 (a b : Z) : option Z := i64 (a * b).

(** ctMax, ctMin, ctMax4, ctMin4: constfunc_helpers.hpp:35-49. *)
Definition cmax (a b : Z) : Z := if b <? a then a else b.
Definition cmin (a b : Z) : Z := if a <=? b then a else b.
Definition cmax4 (a b c d : Z) : Z := cmax (cmax a b) (cmax c d).
Definition cmin4 (a b c d : Z) : Z := cmin (cmin a b) (cmin c d).
(** ctCheckedShiftLeft: constfunc_helpers.hpp:51-59. *)
Definition checked_shl (v places : Z) : option Z :=
  do s <- shl64 v places; do b <- shr64 s places; do _ <- assert_ (b =? v); Some s.
(** ctFixCompare: constfunc_helpers.hpp:61-70; nB is computed from vA and eA (line 67). *)
Definition fix_compare (eA vA eB vB : Z) : option Z :=
  let eLo := cmin eA eB in
  do nA <- checked_shl vA (eA - eLo);
  do nB <- checked_shl vA (eA - eLo);
  Some (if nA <? nB then -1 else if nA >? nB then 1 else 0).
(** ctFixLessThan ... ctFixGreaterThan: constfunc_helpers.hpp:73-91. *)
Definition fix_lt (eA vA eB vB : Z) : option bool := do c <- fix_compare eA vA eB vB; Some (c <? 0).
Definition fix_le (eA vA eB vB : Z) : option bool := do c <- fix_compare eA vA eB vB; Some (c <=? 0).
Definition fix_eq (eA vA eB vB : Z) : option bool := do c <- fix_compare eA vA eB vB; Some (c =? 0).
Definition fix_ge (eA vA eB vB : Z) : option bool := do c <- fix_compare eA vA eB vB; Some (c >=? 0).
Definition fix_gt (eA vA eB vB : Z) : option bool := do c <- fix_compare eA vA eB vB; Some (c >? 0).

(** The type fixval<shift,low,high>: fixval.hpp:8-13. *)
Record fixt : Type := Fixt { fshift : Z; flow : Z; fhigh : Z }.
(** A value: the member val, fixval.hpp:31. *)
Notation fixv := (fixt * Z)%type (only parsing).
(** fixval(int64_t): fixval.hpp:24-29. *)
Definition mkfix (t : fixt) (x : Z) : option fixv :=
  do _ <- assert_ (flow t <=? x); do _ <- assert_ (x <=? fhigh t); Some (t, x).
(** The entry assertions of the operators, e.g. fixval.hpp:113-117. *)
Definition entry (a : fixv) : option unit := let (t, x) := a in do _ <- assert_ (flow t <=? x); assert_ (x <=? fhigh t).
(** Converting constructor: fixval.hpp:15-22. It checks types only; val is not initialised, so the
    value of the result is None. *)
Definition convert_fix (t : fixt) (a : fixv) : option (fixt * option Z) :=
  let (ta, x) := a in
  do _ <- assert_ (flow ta <=? fhigh ta);
  do _ <- assert_ (fshift t <=? fshift ta);
  do l <- fix_le (fshift t) (flow t) (fshift ta) (flow ta);
  do _ <- assert_ l;
  do g <- fix_ge (fshift ta) (fhigh ta) (fshift t) (fhigh t);
  do _ <- assert_ g;
  Some (t, None).
(** fixval_constant: fixval.hpp:65-67. *)
Definition fix_constant (s v : Z) : option fixv := mkfix (Fixt s v v) v.

(** union_type: fixval.hpp:70-88. *)
Definition union_type (a b : fixt) : option fixt :=
  let eMin := cmin (fshift a) (fshift b) in
  let eMax := cmax (fshift a) (fshift b) in
  do sA <- i32 (eMax - fshift b);
  do sB <- i32 (eMax - fshift a);
  do nLowA <- shl64 (flow a) sA;
  do nHighA <- shl64 (fhigh a) sA;
  do nLowB <- shl64 (flow b) sB;
  do nHighB <- shl64 (fhigh b) sB;
  Some (Fixt eMin (cmin nLowA nLowB) (cmax nHighA nHighB)).
(** add_type: fixval.hpp:95-109. *)
Definition add_type (a b : fixt) : option fixt :=
  let eMin := cmin (fshift a) (fshift b) in
  let eMax := cmax (fshift a) (fshift b) in
  do sA <- i32 (eMax - fshift b);
  do sB <- i32 (eMax - fshift a);
  do la <- shl64 (flow a) sA;
  do lb <- shl64 (flow b) sB;
  do low <- add64 la lb;
  do ha <- shl64 (fhigh a) sA;
  do hb <- shl64 (fhigh b) sB;
  do high <- add64 ha hb;
  Some (Fixt eMin low high).
(** operator+: fixval.hpp:112-124. *)
Definition fix_add (a b : fixv) : option fixv :=
  do t <- add_type (fst a) (fst b);
  do _ <- entry a;
  do _ <- entry b;
  let eMax := cmax (fshift (fst a)) (fshift (fst b)) in
  do x <- shl64 (snd a) (eMax - fshift (fst b));
  do y <- shl64 (snd b) (eMax - fshift (fst a));
  do s <- add64 x y;
  mkfix t s.
(** mul_type: fixval.hpp:128-137. *)
Definition mul_type (a b : fixt) : option fixt :=
  do e <- i32 (fshift a + fshift b);
  do ll <- mul64 (flow a) (flow b);
  do lh <- mul64 (flow a) (fhigh b);
  do hl <- mul64 (fhigh a) (flow b);
  do hh <- mul64 (fhigh a) (fhigh b);
  Some (Fixt e (cmin4 ll lh hl hh) (cmax4 ll lh hl hh)).
(** operator*: fixval.hpp:139-150. *)
Definition fix_mul (a b : fixv) : option fixv :=
  do t <- mul_type (fst a) (fst b);
  do _ <- entry a;
  do _ <- entry b;
  do p <- mul64 (snd a) (snd b);
  mkfix t p.
(** shift_right_type: fixval.hpp:156-163. *)
Definition shr_type (v s : fixt) : option fixt :=
  do _ <- assert_ (fshift s =? 0);
  do _ <- assert_ (0 <=? flow s);
  do l <- shr64 (flow v) (flow s);
  do h <- shr64 (fhigh v) (flow s);
  Some (Fixt (fshift v) l h).
(** operator>>: fixval.hpp:166-177 (declared with "struct" before its result type, which no compiler
    accepts; read as "typename"). *)
Definition fix_shr (v s : fixv) : option fixv :=
  do t <- shr_type (fst v) (fst s);
  do _ <- entry v;
  do _ <- entry s;
  do r <- shr64 (snd v) (snd s);
  mkfix t r.
(** shift_right_const_type, shift_right_const: fixval.hpp:187-201. *)
Definition fix_shr_const (places : Z) (a : fixv) : option fixv :=
  let t := fst a in
  do l <- shr64 (flow t) places;
  do h <- shr64 (fhigh t) places;
  do r <- shr64 (snd a) places;
  mkfix (Fixt (fshift t) l h) r.
(** select: functions/select.hpp:3-8. *)
Definition fix_select (sel : bool) (a b : fixv) : option (fixt * option Z) :=
  do t <- union_type (fst a) (fst b);
  do ca <- convert_fix t a;
  do cb <- convert_fix t b;
  Some (if sel then ca else cb).

(** product_type, product: functions/product.hpp:4-29. *)
Fixpoint product_type (ts : list fixt) : option fixt :=
  match ts with
  | [] => None
  | [t] => Some t
  | t :: r => do b <- product_type r; mul_type t b
  end.
Fixpoint fix_product (xs : list fixv) : option fixv :=
  match xs with
  | [] => None
  | [x] => Some x
  | x :: r => do p <- fix_product r; fix_mul x p
  end.
(** horner_type, horner: functions/horner.hpp:6-34 (its member typedef mul_type hides the template it
    is defined from, which GCC rejects; read as meant). *)
Fixpoint horner_type (x : fixt) (cs : list fixt) : option fixt :=
  match cs with
  | [] => None
  | [c] => Some c
  | c :: r => do b <- horner_type x r; do m <- mul_type x b; add_type c m
  end.
Fixpoint fix_horner (x : fixv) (cs : list fixv) : option fixv :=
  match cs with
  | [] => None
  | [c] => Some c
  | c :: r => do b <- fix_horner x r; do m <- fix_mul x b; fix_add c m
  end.
