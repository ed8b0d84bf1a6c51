(** Model of fp_flopoco<E,F> (include/thls/tops/fp_flopoco.hpp), promote (fp_promote.hpp),
    convert (fp_convert.hpp, fp_flopoco_convert.hpp), the comparisons
    (fp_flopoco_ordering.hpp) and neg (fp_flopoco_neg_v1.hpp).

    A value is its [bits] member, a Z of width E+F+3.  Slices whose bounds are evidently
    inside the width use [bits] rather than the checked [get_bits]. *)
From Coq Require Import ZArith Bool.
From Verif Require Import Fw.
Open Scope Z_scope.

(** Field accessors, fp_flopoco.hpp:113-135. *)
Definition get_flags (E F x : Z) : Z := bits (E + F + 2) (E + F + 1) x.
Definition get_sign (E F x : Z) : Z := bits (E + F) (E + F) x.
Definition get_exp (E F x : Z) : Z := bits (E + F - 1) F x.
Definition get_frac (E F x : Z) : Z := bits (F - 1) 0 x.
Definition get_exp_frac (E F x : Z) : Z := bits (E + F - 1) 0 x.
Definition get_flags_exp_frac (E F x : Z) : Z := cat (E + F) (get_flags E F x) (get_exp_frac E F x).

(** Constructor from fields, fp_flopoco.hpp:40-42. *)
Definition mk (E F flags sign ex frac : Z) : Z := cat F (cat E (cat 1 flags sign) ex) frac.

(** Class tests, fp_flopoco.hpp:157-192. *)
Definition is_zero (E F x : Z) : Z := feq (get_flags E F x) 0.
Definition is_normal (E F x : Z) : Z := feq (get_flags E F x) 1.
Definition is_inf (E F x : Z) : Z := feq (get_flags E F x) 2.
Definition is_nan (E F x : Z) : Z := feq (get_flags E F x) 3.
Definition is_positive (E F x : Z) : Z := feq (get_sign E F x) 0.
Definition is_negative (E F x : Z) : Z := feq (get_sign E F x) 1.
Definition is_pos_normal (E F x : Z) : Z := fand (is_positive E F x) (is_normal E F x).
Definition is_neg_normal (E F x : Z) : Z := fand (is_negative E F x) (is_normal E F x).
Definition is_pos_zero (E F x : Z) : Z := fand (is_positive E F x) (is_zero E F x).
Definition is_neg_zero (E F x : Z) : Z := fand (is_negative E F x) (is_zero E F x).
Definition is_pos_inf (E F x : Z) : Z := fand (is_positive E F x) (is_inf E F x).
Definition is_neg_inf (E F x : Z) : Z := fand (is_negative E F x) (is_inf E F x).

(** get_equality_class, fp_flopoco.hpp:138-155. *)
Definition get_equality_class (E F x : Z) : Z :=
  let sf := bits (E + F + 2) (E + F) x in
  select (for_ 1 (feq sf 6) (feq sf 7)) 0
  (select (feq sf 5) 1
  (select (feq sf 3) 2
  (select (for_ 1 (feq sf 1) (feq sf 0)) 3
  (select (feq sf 2) 4 5)))).

(** equals, fp_flopoco.hpp:205-218. *)
Definition equals (E F x o : Z) : Z :=
  select (fne (get_flags E F x) (get_flags E F o)) (zg 1)
  (select (is_nan E F x) (is_nan E F o)
  (select (fne (get_sign E F x) (get_sign E F o)) (zg 1)
  (select (is_normal E F x)
     (fand (feq (get_exp E F x) (get_exp E F o)) (feq (get_frac E F x) (get_frac E F o)))
     (og 1)))).

(** within_1ulp, fp_flopoco.hpp:220-256. *)
Definition within_1ulp (E F x o : Z) : Z :=
  if to_bool (is_nan E F o) then is_nan E F x
  else if to_bool (is_nan E F x) then is_nan E F o
  else if to_bool (is_zero E F x) then
    for_ 1 (is_zero E F o)
      (fand (fand (is_normal E F o) (feq (get_exp E F o) 0)) (feq (get_frac E F o) 0))
  else if to_bool (is_zero E F o) then
    for_ 1 (is_zero E F x)
      (fand (fand (is_normal E F x) (feq (get_exp E F x) 0)) (feq (get_frac E F x) 0))
  else if to_bool (fne (get_sign E F x) (get_sign E F o)) then 0
  else if to_bool (is_inf E F x) then
    for_ 1 (is_inf E F o)
      (fand (fand (is_normal E F o) (feq (get_exp E F o) (og E))) (feq (get_frac E F o) (og F)))
  else if to_bool (is_inf E F o) then
    for_ 1 (is_inf E F x)
      (fand (fand (is_normal E F x) (feq (get_exp E F x) (og E))) (feq (get_frac E F x) (og F)))
  else
    let ua := cat F (get_exp E F x) (get_frac E F x) in
    let ub := cat F (get_exp E F o) (get_frac E F o) in
    let '(ua, ub) := if to_bool (fgt ua ub) then (ub, ua) else (ua, ub) in
    for_ 1 (feq (fadd (E + F) ua 1) ub) (feq ua ub).

(** numeric_limits<fp_flopoco<E,F>>, fp_flopoco.hpp:302-400. *)
Definition lim (E F top3 ex frac : Z) : Z := cat F (cat E top3 ex) frac.
Definition lim_min (E F : Z) : Z := lim E F 2 (zg E) (zg F).
Definition lim_neg_min (E F : Z) : Z := lim E F 3 (zg E) (zg F).
Definition lim_max (E F : Z) : Z := lim E F 2 (og E) (og F).
Definition lim_neg_max (E F : Z) : Z := lim E F 3 (og E) (og F).
Definition lim_lowest (E F : Z) : Z := lim E F 3 (og E) (og F).
Definition lim_epsilon (E F : Z) : option Z := None. (* assert(0), line 332 *)
Definition lim_round_error (E F : Z) : option Z := None. (* assert(0), line 338 *)
Definition lim_infinity (E F : Z) : Z := lim E F 4 (zg E) (zg F).
Definition lim_neg_infinity (E F : Z) : Z := lim E F 5 (zg E) (zg F).
Definition lim_quiet_NaN (E F : Z) : Z := lim E F 6 (zg E) (zg F).
Definition lim_signalling_NaN (E F : Z) : Z := lim E F 0 (zg E) (zg F).
Definition lim_denorm_min (E F : Z) : Z := lim_min E F.
Definition lim_pos_zero (E F : Z) : Z := lim E F 0 (zg E) (zg F).
Definition lim_neg_zero (E F : Z) : Z := lim E F 1 (zg E) (zg F).
Definition lim_pos_one (E F : Z) : option Z :=
  do b <- of_int E (2 ^ (E - 1) - 1); Some (lim E F 2 b (zg F)).
Definition lim_neg_one (E F : Z) : option Z :=
  do b <- of_int E (2 ^ (E - 1) - 1); Some (lim E F 3 b (zg F)).

(** nextup, fp_flopoco.hpp:405-439. *)
Definition nextup (E F x : Z) : Z :=
  select (is_pos_inf E F x) x
  (select (is_pos_normal E F x)
    (select (feq (get_frac E F x) (og F))
      (select (feq (get_exp E F x) (og E)) (lim_infinity E F)
        (lim E F 2 (fadd E (get_exp E F x) 1) (zg F)))
      (lim E F 2 (get_exp E F x) (fadd F (get_frac E F x) 1)))
  (select (is_pos_zero E F x) (lim_min E F)
  (select (is_neg_zero E F x) (lim_pos_zero E F)
  (select (is_neg_normal E F x)
    (select (feq (get_frac E F x) (zg F))
      (select (feq (get_exp E F x) (zg E)) (lim_neg_zero E F)
        (lim E F 3 (fsub E (get_exp E F x) 1) (og F)))
      (lim E F 3 (get_exp E F x) (fsub F (get_frac E F x) 1)))
  (select (is_neg_inf E F x) (lim_lowest E F)
    (lim_quiet_NaN E F)))))).

(** nextdown, fp_flopoco.hpp:441-475. *)
Definition nextdown (E F x : Z) : Z :=
  select (is_pos_inf E F x) (lim_max E F)
  (select (is_pos_normal E F x)
    (select (feq (get_frac E F x) (zg F))
      (select (feq (get_exp E F x) (zg E)) (lim_pos_zero E F)
        (lim E F 2 (fsub E (get_exp E F x) 1) (zg F)))
      (lim E F 2 (get_exp E F x) (fsub F (get_frac E F x) 1)))
  (select (is_pos_zero E F x) (lim_neg_zero E F)
  (select (is_neg_zero E F x) (lim_neg_min E F)
  (select (is_neg_normal E F x)
    (select (feq (get_frac E F x) (og F))
      (select (feq (get_exp E F x) (og E)) (lim_neg_infinity E F)
        (lim E F 3 (fadd E (get_exp E F x) 1) (og F)))
      (lim E F 3 (get_exp E F x) (fadd F (get_frac E F x) 1)))
  (select (is_neg_inf E F x) x
    (lim_quiet_NaN E F)))))).

(** promote_exp_impl and promote_frac_impl, fp_promote.hpp:11-50. *)
Definition promote_exp (DE SE e : Z) : option Z :=
  if DE =? SE then Some e
  else do _ <- assert_ (SE <=? DE);
       Some (fadd DE (zpad_hi (DE - SE) SE e) ((2 ^ (DE - 1) - 1) - (2 ^ (SE - 1) - 1))).
Definition promote_frac (DF SF f : Z) : option Z :=
  if DF =? SF then Some f
  else do _ <- assert_ (SF <=? DF); Some (cat (DF - SF) f (zg (DF - SF))).

(** promote(fp_flopoco<DE,DF>&, fp_flopoco<SE,SF>), fp_promote.hpp:52-65, 113-117, 147-151.
    The static_asserts against narrowing are the [assert_]s above. *)
Definition promote (DE DF SE SF x : Z) : option Z :=
  if (DE =? SE) && (DF =? SF) then Some x
  else do e <- promote_exp DE SE (get_exp SE SF x);
       do f <- promote_frac DF SF (get_frac SE SF x);
       Some (mk DE DF (get_flags SE SF x) (get_sign SE SF x) e f).

(** convert_frac<FR_cmp_FX,FR,FX>::go, fp_convert.hpp:55-132: (rFrac, fracWrappedUp). *)
Definition convert_frac (FR FX xFrac : Z) : option (Z * Z) :=
  if FX <? FR then
    do d <- checked_cast FR (FX + (FR - FX)) (zpad_lo (FR - FX) FX xFrac);
    Some (d, 0)
  else if FR =? FX then Some (xFrac, 0)
  else
    do keep <- take_msbs FX FR xFrac;
    do drop <- take_lsbs FX (FX - FR) xFrac;
    let HALF := cat (FX - FR - 1) (og 1) (zg (FX - FR - 1)) in
    let isDropOverHalf := fgt drop HALF in
    let isDropHalf := feq drop HALF in
    do isKeepOdd <- take_lsbs FR 1 keep;
    let roundUp := for_ 1 isDropOverHalf (fand isDropHalf isKeepOdd) in
    do ru <- extu 1 FR roundUp;
    let rFrac := fadd FR keep ru in
    let isKeepOnes := feq keep (og FR) in
    Some (rFrac, fand roundUp isKeepOnes).

(** convert(fp_flopoco<ER,FR>&, fp_flopoco<EX,FX>), fp_convert.hpp:134-191, and
    convert<wER,wFR>(x), fp_flopoco_convert.hpp:11-17. *)
Definition convert (ER FR EX FX x : Z) : option Z :=
  let flags := get_flags EX FX x in
  do fw <- convert_frac FR FX (get_frac EX FX x);
  let '(rFrac, fracWrappedUp) := fw in
  let xExp := get_exp EX FX x in
  do fe <-
    (if EX <? ER then
       do adj <- of_int ER (2 ^ (ER - 1) - 2 ^ (EX - 1));
       do xe <- checked_cast ER (ER - EX + EX) (zpad_hi (ER - EX) EX xExp);
       Some (flags, fadd ER (fadd ER xe adj) (zpad_hi (ER - 1) 1 fracWrappedUp))
     else if ER =? EX then
       let flags' := if to_bool (fand fracWrappedUp (feq xExp (og ER))) then 2 else flags in
       Some (flags', fadd ER xExp (zpad_hi (ER - 1) 1 fracWrappedUp))
     else
       let ADJ := 2 ^ (EX - 1) - 2 ^ (ER - 1) in
       let aExp := fadd EX xExp (zpad_hi (EX - 1) 1 fracWrappedUp) in
       let expWrapped := fand (feq aExp (zg EX)) fracWrappedUp in
       do mn <- of_int EX ADJ;
       do mx <- of_int EX (ADJ + 2 ^ ER - 1);
       let underflow := fand (fnot 1 expWrapped) (flt aExp mn) in
       let overflow := for_ 1 expWrapped (fgt aExp mx) in
       do tExp <- take_lsbs EX ER (fsub EX aExp mn);
       let flags' := if flags =? 1 then
                       if to_bool underflow then 0 else if to_bool overflow then 2 else flags
                     else flags in
       Some (flags', tExp));
  let '(rFlags, rExp) := fe in
  Some (mk ER FR rFlags (get_sign EX FX x) rExp rFrac).

(** neg_v1, fp_flopoco_neg_v1.hpp:10-20; neg, fp_flopoco_primitives.hpp:57-61. *)
Definition neg_v1 (ER FR EX FX x : Z) : option Z :=
  convert ER FR EX FX
    (mk EX FX (get_flags EX FX x) (fnot 1 (get_sign EX FX x)) (get_exp EX FX x) (get_frac EX FX x)).
Definition neg := neg_v1.

(** Comparisons, fp_flopoco_ordering.hpp. The common prologue promotes both operands. *)
Definition with_promoted (EA FA EB FB a b : Z) (k : Z -> Z -> Z -> Z -> Z) : option Z :=
  let E := ctMax EA EB in
  let F := ctMax FA FB in
  do na <- promote E F EA FA a;
  do nb <- promote E F EB FB b;
  Some (k E F na nb).

(** 15-35 *)
Definition equal (EA FA EB FB a b : Z) : option Z :=
  with_promoted EA FA EB FB a b (fun E F na nb =>
    select (for_ 1 (is_nan E F na) (is_nan E F nb)) (zg 1)
    (select (fne (get_flags E F na) (get_flags E F nb)) (zg 1)
    (select (is_zero E F na) (og 1)
      (fand (feq (get_sign E F na) (get_sign E F nb))
            (feq (get_exp_frac E F na) (get_exp_frac E F nb)))))).
(** 37-57 *)
Definition not_equal (EA FA EB FB a b : Z) : option Z :=
  with_promoted EA FA EB FB a b (fun E F na nb =>
    select (for_ 1 (is_nan E F na) (is_nan E F nb)) (og 1)
    (select (fne (get_flags E F na) (get_flags E F nb)) (og 1)
    (select (is_zero E F na) (zg 1)
      (for_ 1 (fne (get_sign E F na) (get_sign E F nb))
              (fne (get_exp_frac E F na) (get_exp_frac E F nb)))))).
(** 61-88 *)
Definition less_than (EA FA EB FB a b : Z) : option Z :=
  with_promoted EA FA EB FB a b (fun E F na nb =>
    select (for_ 1 (is_nan E F na) (is_nan E F nb)) (zg 1)
    (select (fand (is_zero E F na) (is_zero E F nb)) (zg 1)
    (select (fxor 1 (is_negative E F na) (is_negative E F nb)) (is_negative E F na)
    (select (is_negative E F na)
       (fgt (get_flags_exp_frac E F na) (get_flags_exp_frac E F nb))
       (flt (get_flags_exp_frac E F na) (get_flags_exp_frac E F nb)))))).
(** 90-117 *)
Definition less_than_equal (EA FA EB FB a b : Z) : option Z :=
  with_promoted EA FA EB FB a b (fun E F na nb =>
    select (for_ 1 (is_nan E F na) (is_nan E F nb)) (zg 1)
    (select (fand (is_zero E F na) (is_zero E F nb)) (og 1)
    (select (fxor 1 (is_negative E F na) (is_negative E F nb)) (is_negative E F na)
    (select (is_negative E F na)
       (fge (get_flags_exp_frac E F na) (get_flags_exp_frac E F nb))
       (fle (get_flags_exp_frac E F na) (get_flags_exp_frac E F nb)))))).
(** 119-143 *)
Definition greater_than (EA FA EB FB a b : Z) : option Z :=
  with_promoted EA FA EB FB a b (fun E F na nb =>
    select (for_ 1 (is_nan E F na) (is_nan E F nb)) (zg 1)
    (select (fand (is_zero E F na) (is_zero E F nb)) (zg 1)
    (select (fxor 1 (is_negative E F na) (is_negative E F nb)) (is_positive E F na)
    (select (is_negative E F na)
       (flt (get_flags_exp_frac E F na) (get_flags_exp_frac E F nb))
       (fgt (get_flags_exp_frac E F na) (get_flags_exp_frac E F nb)))))).
(** 145-169 *)
Definition greater_than_equal (EA FA EB FB a b : Z) : option Z :=
  with_promoted EA FA EB FB a b (fun E F na nb =>
    select (for_ 1 (is_nan E F na) (is_nan E F nb)) (zg 1)
    (select (fand (is_zero E F na) (is_zero E F nb)) (og 1)
    (select (fxor 1 (is_negative E F na) (is_negative E F nb)) (is_positive E F na)
    (select (is_negative E F na)
       (fle (get_flags_exp_frac E F na) (get_flags_exp_frac E F nb))
       (fge (get_flags_exp_frac E F na) (get_flags_exp_frac E F nb)))))).
