(** Model of the conversions between fp_flopoco (and fw_uint) and double. Doubles are fvals (SpecDbl.v); the C library's
    ldexp and the conversion from uint64_t round to nearest even, as IEEE 754 asks. *)
From Coq Require Import ZArith Bool.
From Verif Require Import Fw FwWord Spec SpecDbl Flopoco MpfrLib Mpfr.
Open Scope Z_scope.

(** (double)v of a uint64_t, and ldexp(x,k). *)
Definition dbl_of_u64 (v : Z) : fval := if v =? 0 then Zero false else dbl_round false v 0.
Definition dbl_ldexp (x : fval) (k : Z) : fval := match x with Num s m e => dbl_round s m (e + k) | _ => x end.
(** mpfr_get_d(x, MPFR_RNDN). *)
Definition mpfr_get_d (x : fval) : fval := to_dbl x.

(** to_double, fp_flopoco.hpp:985-1013. The negation is of a uint64_t. *)
Definition to_double (E F x : Z) : option fval :=
  do _ <- assert_ ((F <=? 52) && (E <=? 11));
  if to_bool (is_zero E F x) then Some (Zero (to_bool (is_negative E F x)))
  else if to_bool (is_normal E F x) then
    do frac <- m_to_uint64 (cat F (og 1) (get_frac E F x));
    let frac := if to_bool (is_negative E F x) then wrap 64 (- frac) else frac in
    do e <- to_int (get_exp E F x);
    Some (dbl_ldexp (dbl_of_u64 frac) (e - (2 ^ (E - 1) - 1) - F))
  else if to_bool (is_inf E F x) then Some (Inf (to_bool (is_negative E F x)))
  else Some NaN.
(** to_double_approx, lines 1015-1024. *)
Definition to_double_approx (E F x : Z) : option fval := do v <- fl_get E F (F + 1) x; Some (mpfr_get_d v).

(** x < 0, and -x, of a double. *)
Definition dbl_neg (x : fval) : bool := match x with Num s _ _ => s | Inf s => s | _ => false end.
Definition dbl_opp (x : fval) : fval := match x with Num s m e => Num (negb s) m e | Inf s => Inf (negb s) | Zero s => Zero (negb s) | NaN => NaN end.
(** The argument of fw_uint(int) when it is given a uint64_t: the low 32 bits as a signed number. The masked-word fw_uint
    has no constructor from uint64_t (fw_uint_on_masked_uint.hpp:372-489). *)
Definition u64_to_int (v : Z) : Z := let w := v mod 2 ^ 32 in if w <? 2 ^ 31 then w else w - 2 ^ 32.
(** fp_flopoco(double x), lines 51-96. The significand of a normal double is m with 2^52 <= m < 2^53: frexp gives the
    fraction m/2^53 and the exponent e+53. f-1.0 and ldexp(f-1.0,F) are exact; the conversion to uint64_t truncates, and
    is undefined from 2^64 on. *)
Definition fl_of_double (E F : Z) (x : fval) : option Z :=
  do _ <- assert_ ((1 <=? E) && (E <=? 31));
  let negative := dbl_neg x in
  let x := if negative then dbl_opp x else x in
  let sign := Z.b2z negative in
  match x with
  | Inf _ | NaN => Some (mk E F 3 sign 0 0)
  | Zero _ => Some (mk E F 0 sign 0 0)
  | Num _ m e =>
      if m <? 2 ^ 52 then Some (mk E F 0 sign 0 0) (* FP_SUBNORMAL *)
      else
        let e := e + 53 - 1 in
        let b := 2 ^ (E - 1) - 1 in
        if e <? 0 - b then Some (mk E F 0 sign 0 0)
        else if 0 + b + 1 <? e then Some (mk E F 2 sign 0 0)
        else
          let fx := num2 (m - 2 ^ 52) (F - 52) / den2 1 (F - 52) in
          do _ <- assert_ (fx <? 2 ^ 64);
          do frac <- m_of_int F (u64_to_int fx);
          do ex <- m_of_int E (e + b);
          Some (mk E F 1 sign ex frac)
  end.

(** nextafter(x, y), lines 479-494: only an infinite y. *)
Definition fl_nextafter (E F x : Z) (y : fval) : option Z :=
  match y with Inf false => Some (nextup E F x) | Inf true => Some (nextdown E F x) | _ => None end.

(** The sum of two doubles that are not negative. *)
Definition dbl_add_pos (x y : fval) : fval :=
  match x, y with
  | Num _ m e, Num _ n f => let k := Z.min e f in dbl_round false (m * 2 ^ (e - k) + n * 2 ^ (f - k)) k
  | Num _ _ _, Zero _ => x
  | Zero _, Num _ _ _ => y
  | _, _ => x
  end.
(** to_double_approx of a fw_uint<W>, fw_uint.hpp:755-773. The loop runs at most four times (W <= 128). *)
Fixpoint fw_dbl_loop (n : nat) (W : Z) (x e : Z) (res : fval) : option fval :=
  if x =? 0 then Some res else
  match n with
  | O => None
  | S n =>
      do limb <- m_get_bits W 31 0 x;
      do v <- m_to_uint32 32 limb;
      do x' <- m_shr W x 32;
      fw_dbl_loop n W x' (e + 32) (dbl_add_pos res (dbl_ldexp (dbl_of_u64 v) e))
  end.
Definition fw_to_double_approx (W x : Z) : option fval :=
  if W <=? 52 then do v <- m_to_uint64 x; Some (dbl_of_u64 v)
  else fw_dbl_loop 4 W x 0 (Zero false).
