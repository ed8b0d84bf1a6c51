(** Model of the reference functions and self-tests beside the dot products: fp_flopoco_dot2_pos_rndd.hpp:181-309 and
    fp_flopoco_dot4_pos_rndd.hpp:294-463. MPFR's functions are those of MpfrLib.v, doubles those of SpecDbl.v. Progress messages are
    not modelled. *)
From Coq Require Import ZArith QArith List Bool.
From Verif Require Import Fw FwWord Spec SpecDbl Flopoco MpfrLib Mpfr Dbl Dot Source.
Import ListNotations.
Open Scope Z_scope.

(** x*y and x+y of doubles, rounded to nearest even: the C operators. *)
Definition dbl_mul (x y : fval) : fval :=
  match x, y with
  | NaN, _ | _, NaN | Inf _, Zero _ | Zero _, Inf _ => NaN
  | Inf s, Inf t | Inf s, Num t _ _ | Num s _ _, Inf t => Inf (xorb s t)
  | Zero s, Zero t | Zero s, Num t _ _ | Num s _ _, Zero t => Zero (xorb s t)
  | Num s m e, Num t n f => dbl_round (xorb s t) (m * n) (e + f)
  end.
Definition dbl_add (x y : fval) : fval :=
  match x, y with
  | NaN, _ | _, NaN => NaN
  | Inf s, Inf t => if Bool.eqb s t then Inf s else NaN
  | Inf s, _ => Inf s
  | _, Inf t => Inf t
  | Zero s, Zero t => Zero (s && t)
  | Zero _, y => y
  | x, Zero _ => x
  | Num s m e, Num t n f =>
      let k := Z.min e f in
      let v := (if s then - m else m) * 2 ^ (e - k) + (if t then - n else n) * 2 ^ (f - k) in
      if v =? 0 then Zero false else dbl_round (v <? 0) (Z.abs v) k
  end.

(** dot2_pos_rndd_ref_large: dot2:181-213. *)
Definition dot2_ref_large (E F a0 a1 b0 b1 : Z) : option Z :=
  do _ <- dot_check E F a0; do _ <- dot_check E F a1; do _ <- dot_check E F b0; do _ <- dot_check E F b1;
  do va0 <- fl_get E F (F + 1) a0; do va1 <- fl_get E F (F + 1) a1;
  do vb0 <- fl_get E F (F + 1) b0; do vb1 <- fl_get E F (F + 1) b1;
  let vab0 := mpfr_mul (F + F + 2) RNDN va0 vb0 in
  let vab1 := mpfr_mul (F + F + 2) RNDN va1 vb1 in
  let vr := mpfr_add (F + 1) RNDD vab0 vab1 in
  fl_of_mpfr E F (F + 1) true vr.
(** dot2_pos_rndd_ref_small: dot2:215-232. The exception is None. *)
Definition dot2_ref_small (E F a0 a1 b0 b1 : Z) : option Z :=
  do _ <- assert_ (negb (52 <? (F + 1) * 4));
  do a0 <- to_double_approx E F a0; do b0 <- to_double_approx E F b0;
  do a1 <- to_double_approx E F a1; do b1 <- to_double_approx E F b1;
  let dres := dbl_add (dbl_mul a0 b0) (dbl_mul a1 b1) in
  let vres := mpfr_set (F + 1) RNDD dres in
  fl_of_mpfr E F (F + 1) true vres.
(** dot2_pos_rndd_ref: dot2:234-246. *)
Definition dot2_ref (E F a0 a1 b0 b1 : Z) : option Z :=
  if (F + 1) * 4 <? 52 then dot2_ref_small E F a0 a1 b0 b1 else dot2_ref_large E F a0 a1 b0 b1.

(** The source of test_dot2_pos_rndd: dot2:259-265. *)
Definition positive_source : pdf :=
  disable_class PosZero (disable_class NegZero (disable_class NegNormal (disable_class NegInf (disable_class PosInf (disable_class ClassNaN source_init))))).
(** args[i]=source(rng) for each i: dot2:268-270. *)
Fixpoint source_args (draw : Z -> list Z -> option (Q * list Z)) (E F : Z) (p : pdf) (n : nat) (rng : list Z) : option (list Z * list Z) :=
  match n with
  | O => Some ([], rng)
  | S n => do r <- source_next draw E F p rng; do r' <- source_args draw E F p n (snd r); Some (fst r :: fst r', snd r')
  end.
(** test_dot2_pos_rndd(n): dot2:248-280. false is the error exit, None a failed assertion. *)
Fixpoint test_dot2 (draw : Z -> list Z -> option (Q * list Z)) (E F : Z) (n : nat) (rng : list Z) : option bool :=
  match n with
  | O => Some true
  | S n =>
      do r <- source_args draw E F positive_source 4 rng;
      match fst r with
      | [a0; a1; b0; b1] =>
          do ref <- dot2_ref E F a0 a1 b0 b1;
          do got <- dot2_pos_rndd E F a0 a1 b0 b1;
          if negb (to_bool (equals E F ref got)) then Some false else test_dot2 draw E F n (snd r)
      | _ => None
      end
  end.
(** for(x=traits::min(); x.is_normal(); x=nextup(x)): the values of the loop variable. There are 2^(E+F) positive normal words. *)
Fixpoint walk (fuel : nat) (E F x : Z) : list Z :=
  match fuel with
  | O => []
  | S f => if to_bool (is_normal E F x) then x :: walk f E F (nextup E F x) else []
  end.
Definition positives (E F : Z) : list Z := walk (S (Z.to_nat (2 ^ (E + F)))) E F (lim_min E F).
(** A loop whose body may leave the program with an error. *)
Fixpoint for_each {A X : Type} (body : A -> option (option X)) (l : list A) : option (option X) :=
  match l with
  | [] => Some None
  | x :: l => do r <- body x; match r with Some q => Some (Some q) | None => for_each body l end
  end.
(** exhaust_dot2_pos_rndd(): dot2:282-309. The arguments at which it exits with an error, if it does. *)
Definition exhaust_dot2 (E F : Z) : option (option (Z * Z * Z * Z)) :=
  let xs := positives E F in
  for_each (fun x0 => for_each (fun x1 => for_each (fun x2 => for_each (fun x3 =>
    do ref <- dot2_ref E F x0 x1 x2 x3;
    do got <- dot2_pos_rndd E F x0 x1 x2 x3;
    Some (if to_bool (equals E F ref got) then Some (x0, x1, x2, x3) else None)) xs) xs) xs) xs.

(** The ternary value of mpfr_mul and mpfr_add: is the result inexact? *)
Definition mul_inexact (p : Z) (x y : fval) : bool :=
  match x, y with Num s m e, Num t n f => mpfr_differ (mpfr_mul p RNDN x y) (Num (xorb s t) (m * n) (e + f)) | _, _ => false end.
Definition add_inexact (p : Z) (x y : fval) : bool :=
  match x, y with
  | Num s m e, Num t n f =>
      let k := Z.min e f in let v := (if s then - m else m) * 2 ^ (e - k) + (if t then - n else n) * 2 ^ (f - k) in
      if v =? 0 then false else mpfr_differ (mpfr_add p RNDN x y) (Num (v <? 0) (Z.abs v) k)
  | _, _ => false
  end.
(** dot4_pos_rndd_ref_large: dot4:294-349. *)
Definition dot4_ref_large (E F a0 a1 a2 a3 b0 b1 b2 b3 : Z) : option Z :=
  do _ <- dot_check E F a0; do _ <- dot_check E F a1; do _ <- dot_check E F a2; do _ <- dot_check E F a3;
  do _ <- dot_check E F b0; do _ <- dot_check E F b1; do _ <- dot_check E F b2; do _ <- dot_check E F b3;
  let P := 2 * (F + 1) in let PACC := 12 * (F + 2) in
  do va <- fl_get E F (F + 1) a0; do vb <- fl_get E F (F + 1) b0;
  do _ <- assert_ (negb (mul_inexact PACC va vb));
  let vacc := mpfr_mul PACC RNDN va vb in
  do va <- fl_get E F (F + 1) a1; do vb <- fl_get E F (F + 1) b1;
  let vab := mpfr_mul P RNDN va vb in
  do _ <- assert_ (negb (mul_inexact P va vb || add_inexact PACC vacc vab));
  let vacc := mpfr_add PACC RNDN vacc vab in
  do va <- fl_get E F (F + 1) a2; do vb <- fl_get E F (F + 1) b2;
  let vab := mpfr_mul P RNDN va vb in
  do _ <- assert_ (negb (mul_inexact P va vb || add_inexact PACC vacc vab));
  let vacc := mpfr_add PACC RNDN vacc vab in
  do va <- fl_get E F (F + 1) a3; do vb <- fl_get E F (F + 1) b3;
  let vab := mpfr_mul P RNDN va vb in
  do _ <- assert_ (negb (mul_inexact P va vb));
  do _ <- assert_ (negb (add_inexact PACC vacc vab));
  let vacc := mpfr_add PACC RNDN vacc vab in
  let vr := mpfr_set (F + 1) RNDD vacc in
  fl_of_mpfr E F (F + 1) true vr.
(** dot4_pos_rndd_ref_small: dot4:351-375. *)
Definition dot4_ref_small (E F a0 a1 a2 a3 b0 b1 b2 b3 : Z) : option Z :=
  do _ <- assert_ (negb (52 <=? (F + 1) * 8));
  do a0 <- to_double E F a0; do b0 <- to_double E F b0; do a1 <- to_double E F a1; do b1 <- to_double E F b1;
  do a2 <- to_double E F a2; do b2 <- to_double E F b2; do a3 <- to_double E F a3; do b3 <- to_double E F b3;
  let dres := dbl_add (dbl_add (dbl_add (dbl_mul a0 b0) (dbl_mul a1 b1)) (dbl_mul a2 b2)) (dbl_mul a3 b3) in
  let vres := mpfr_set (F + 1) RNDD dres in
  fl_of_mpfr E F (F + 1) true vres.
(** dot4_pos_rndd_ref: dot4:377-393. Both branches are instantiated, so the static_asserts of to_double hold for either. *)
Definition dot4_ref (E F a0 a1 a2 a3 b0 b1 b2 b3 : Z) : option Z :=
  do _ <- assert_ ((F <=? 52) && (E <=? 11));
  if (F + 1) * 8 <? 52 then dot4_ref_small E F a0 a1 a2 a3 b0 b1 b2 b3 else dot4_ref_large E F a0 a1 a2 a3 b0 b1 b2 b3.

(** x != y of doubles: the C operator. *)
Definition dbl_ne (x y : fval) : bool :=
  match x, y with
  | Zero _, Zero _ => false
  | Inf s, Inf t => negb (Bool.eqb s t)
  | Num s m e, Num t n f => negb (Bool.eqb s t) || (match cmp_num m e n f with Eq => false | _ => true end)
  | _, _ => true
  end.
(** test_dot4_pos_rndd(n): dot4:395-427. *)
Fixpoint test_dot4 (draw : Z -> list Z -> option (Q * list Z)) (E F : Z) (n : nat) (rng : list Z) : option bool :=
  match n with
  | O => Some true
  | S n =>
      do r <- source_args draw E F positive_source 8 rng;
      match fst r with
      | [a0; a1; a2; a3; b0; b1; b2; b3] =>
          do ref <- dot4_ref E F a0 a1 a2 a3 b0 b1 b2 b3;
          do got <- dot4_pos_rndd E F a0 a1 a2 a3 b0 b1 b2 b3;
          do x <- to_double E F ref; do y <- to_double E F got;
          if dbl_ne x y then Some false else test_dot4 draw E F n (snd r)
      | _ => None
      end
  end.
(** The formats of main(), test_dot4_pos_rndd.cpp:21-35, each with 100000 rounds of a generator of its own. *)
Definition test_dot4_formats : list (Z * Z) :=
  [(1, 3); (2, 3); (3, 3); (4, 3); (3, 4); (4, 4); (5, 4); (6, 4); (4, 5); (5, 5); (6, 5); (4, 16); (5, 16); (6, 16)].
(** exhaust_dot4_pos_rndd(): dot4:429-463. The arguments at which it exits with an error, if it does. *)
Definition exhaust_dot4 (E F : Z) : option (option (list Z)) :=
  let xs := positives E F in
  for_each (fun x0 => for_each (fun x1 => for_each (fun x2 => for_each (fun x3 =>
  for_each (fun x4 => for_each (fun x5 => for_each (fun x6 => for_each (fun x7 =>
    do ref <- dot4_ref E F x0 x1 x2 x3 x4 x5 x6 x7;
    do got <- dot4_pos_rndd E F x0 x1 x2 x3 x4 x5 x6 x7;
    do x <- to_double E F ref; do y <- to_double E F got;
    Some (if dbl_ne x y then Some [x0; x1; x2; x3; x4; x5; x6; x7] else None)) xs) xs) xs) xs) xs) xs) xs) xs.
