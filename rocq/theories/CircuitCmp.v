(** The comparisons, convert and neg_v1 as sequences of fw_uint operations, in the order of the source. select evaluates all its
    arguments, and so do these. *)
From Coq Require Import ZArith Bool List.
From Verif Require Import Fw Flopoco Circuit CircuitAdd.
Open Scope Z_scope.

(** get_flags()==fw_uint<2>(k), get_sign()==fw_uint<1>(k): fp_flopoco.hpp:157-174. get_flags_exp_frac_bits: 134-135. *)
Definition p_class (E F k x : Z) : prog Z :=
  opr fl <- OSlice (E + F + 3) (E + F + 2) (E + F + 1) x; opr c <- OInt 2 k; opr r <- OCmp CEq 2 fl c; Ret r.
Definition p_sign_is (E F k x : Z) : prog Z :=
  opr s <- OSlice (E + F + 3) (E + F) (E + F) x; opr c <- OInt 1 k; opr r <- OCmp CEq 1 s c; Ret r.
Definition p_flags_exp_frac (E F x : Z) : prog Z :=
  opr fl <- OSlice (E + F + 3) (E + F + 2) (E + F + 1) x; opr ef <- OSlice (E + F + 3) (E + F - 1) 0 x; opr r <- OCat 2 (E + F) fl ef; Ret r.

(** equal, not_equal: fp_flopoco_ordering.hpp:15-35, 37-57. *)
Definition equal_prog (wEA wFA wEB wFB a b : Z) : prog Z :=
  let E := ctMax wEA wEB in
  let F := ctMax wFA wFB in
  let W := E + F + 3 in
  prg na <- promote_prog E F wEA wFA a; prg nb <- promote_prog E F wEB wFB b;
  prg an <- p_class E F 3 na; prg bn <- p_class E F 3 nb; opr c0 <- OOr 1 an bn; prg v0 <- p_zg 1;
  opr fa <- OSlice W (E + F + 2) (E + F + 1) na; opr fb <- OSlice W (E + F + 2) (E + F + 1) nb; opr c1 <- OCmp CNe 2 fa fb; prg v1 <- p_zg 1;
  prg c2 <- p_class E F 0 na; prg v2 <- p_og 1;
  opr sa <- OSlice W (E + F) (E + F) na; opr sb <- OSlice W (E + F) (E + F) nb; opr se <- OCmp CEq 1 sa sb;
  opr ea <- OSlice W (E + F - 1) 0 na; opr eb <- OSlice W (E + F - 1) 0 nb; opr ee <- OCmp CEq (E + F) ea eb;
  opr v3 <- OAnd 1 se ee;
  prg r2 <- p_select c2 v2 v3; prg r1 <- p_select c1 v1 r2; p_select c0 v0 r1.
Definition not_equal_prog (wEA wFA wEB wFB a b : Z) : prog Z :=
  let E := ctMax wEA wEB in
  let F := ctMax wFA wFB in
  let W := E + F + 3 in
  prg na <- promote_prog E F wEA wFA a; prg nb <- promote_prog E F wEB wFB b;
  prg an <- p_class E F 3 na; prg bn <- p_class E F 3 nb; opr c0 <- OOr 1 an bn; prg v0 <- p_og 1;
  opr fa <- OSlice W (E + F + 2) (E + F + 1) na; opr fb <- OSlice W (E + F + 2) (E + F + 1) nb; opr c1 <- OCmp CNe 2 fa fb; prg v1 <- p_og 1;
  prg c2 <- p_class E F 0 na; prg v2 <- p_zg 1;
  opr sa <- OSlice W (E + F) (E + F) na; opr sb <- OSlice W (E + F) (E + F) nb; opr se <- OCmp CNe 1 sa sb;
  opr ea <- OSlice W (E + F - 1) 0 na; opr eb <- OSlice W (E + F - 1) 0 nb; opr ee <- OCmp CNe (E + F) ea eb;
  opr v3 <- OOr 1 se ee;
  prg r2 <- p_select c2 v2 v3; prg r1 <- p_select c1 v1 r2; p_select c0 v0 r1.
(** The four orderings differ in the answer for two zeros, in which sign of a gives true when the signs differ, and in the
    comparisons of the magnitudes of two negative and two positive numbers. *)
Definition order_prog (zeros : prog Z) (sign : Z) (cneg cpos : cmp) (wEA wFA wEB wFB a b : Z) : prog Z :=
  let E := ctMax wEA wEB in
  let F := ctMax wFA wFB in
  prg na <- promote_prog E F wEA wFA a; prg nb <- promote_prog E F wEB wFB b;
  prg an <- p_class E F 3 na; prg bn <- p_class E F 3 nb; opr c0 <- OOr 1 an bn; prg v0 <- p_zg 1;
  prg az <- p_class E F 0 na; prg bz <- p_class E F 0 nb; opr c1 <- OAnd 1 az bz; prg v1 <- zeros;
  prg am <- p_sign_is E F 1 na; prg bm <- p_sign_is E F 1 nb; opr c2 <- OXor 1 am bm; prg v2 <- p_sign_is E F sign na;
  prg c3 <- p_sign_is E F 1 na;
  prg xa <- p_flags_exp_frac E F na; prg xb <- p_flags_exp_frac E F nb; opr v3 <- OCmp cneg (2 + (E + F)) xa xb;
  prg ya <- p_flags_exp_frac E F na; prg yb <- p_flags_exp_frac E F nb; opr v4 <- OCmp cpos (2 + (E + F)) ya yb;
  prg r3 <- p_select c3 v3 v4; prg r2 <- p_select c2 v2 r3; prg r1 <- p_select c1 v1 r2; p_select c0 v0 r1.
(** 61-88, 90-117, 119-143, 145-169. *)
Definition less_than_prog := order_prog (p_zg 1) 1 CGt CLt.
Definition less_than_equal_prog := order_prog (p_og 1) 1 CGe CLe.
Definition greater_than_prog := order_prog (p_zg 1) 0 CLt CGt.
Definition greater_than_equal_prog := order_prog (p_og 1) 0 CLe CGe.

(** convert_frac<FR_cmp_FX,FR,FX>::go, fp_convert.hpp:58-132. *)
Definition convert_frac_prog (FR FX x : Z) : prog (Z * Z) :=
  if FX <? FR then
    prg z <- p_zpad_lo (FR - FX) FX x; opr d <- OCast FR (FX + (FR - FX)) z; opr w <- OInt 1 0; Ret (d, w)
  else if FR =? FX then opr w <- OInt 1 0; Ret (x, w)
  else
    opr keep <- OSlice FX (FX - 1) (FX - FR) x;
    opr drop <- OSlice FX (FX - FR - 1) 0 x;
    prg h1 <- p_og 1; prg h0 <- p_zg (FX - FR - 1); opr HALF <- OCat 1 (FX - FR - 1) h1 h0;
    opr isDropOverHalf <- OCmp CGt (FX - FR) drop HALF;
    opr isDropHalf <- OCmp CEq (FX - FR) drop HALF;
    opr isKeepOdd <- OSlice FR 0 0 keep;
    opr odd <- OAnd 1 isDropHalf isKeepOdd; opr roundUp <- OOr 1 isDropOverHalf odd;
    prg ru <- p_zpad_hi (FR - 1) 1 roundUp; opr rFrac <- OAdd FR keep ru;
    prg ones <- p_og FR; opr isKeepOnes <- OCmp CEq FR keep ones;
    opr wrapped <- OAnd 1 roundUp isKeepOnes; Ret (rFrac, wrapped).
(** convert, fp_convert.hpp:134-191. *)
Definition convert_prog (ER FR EX FX src : Z) : prog Z :=
  let W := EX + FX + 3 in
  opr flags <- OSlice W (EX + FX + 2) (EX + FX + 1) src;
  opr rSign <- OSlice W (EX + FX) (EX + FX) src;
  opr xFrac <- OSlice W (FX - 1) 0 src;
  opr w0 <- OInt 1 0;
  prg fw <- convert_frac_prog FR FX xFrac;
  let '(rFrac, wrapped) := fw in
  opr xExp <- OSlice W (EX + FX - 1) FX src;
  prg fe <-
    (if EX <? ER then
       prg z <- p_zpad_hi (ER - EX) EX xExp; opr xe <- OCast ER (ER - EX + EX) z;
       opr adj <- OInt ER (2 ^ (ER - 1) - 2 ^ (EX - 1)); opr s <- OAdd ER xe adj;
       prg zw <- p_zpad_hi (ER - 1) 1 wrapped; opr rExp <- OAdd ER s zw; Ret (flags, rExp)
     else if ER =? EX then
       opr xe <- OCast ER EX xExp; prg ones <- p_og ER; opr e <- OCmp CEq ER xe ones;
       opr both <- OAnd 1 wrapped e; opr t <- OBool both;
       prg rFlags <- (if t =? 1 then opr f <- OInt 2 2; Ret f else Ret flags);
       opr xe' <- OCast ER EX xExp; prg zw <- p_zpad_hi (ER - 1) 1 wrapped; opr rExp <- OAdd ER xe' zw; Ret (rFlags, rExp)
     else
       let ADJ := 2 ^ (EX - 1) - 2 ^ (ER - 1) in
       prg zw <- p_zpad_hi (EX - 1) 1 wrapped; opr aExp <- OAdd EX xExp zw;
       prg z <- p_zg EX; opr is0 <- OCmp CEq EX aExp z; opr expWrapped <- OAnd 1 is0 wrapped;
       opr nw <- ONot 1 expWrapped; opr mn <- OInt EX ADJ; opr lt <- OCmp CLt EX aExp mn; opr underflow <- OAnd 1 nw lt;
       opr mx <- OInt EX (ADJ + 2 ^ ER - 1); opr gt <- OCmp CGt EX aExp mx; opr overflow <- OOr 1 expWrapped gt;
       opr adj <- OInt EX ADJ; opr d <- OSub EX aExp adj; opr tExp <- OSlice EX (ER - 1) 0 d;
       opr i <- OToInt 2 flags;
       prg rFlags <-
         (if i =? 1 then
            opr u <- OBool underflow;
            if u =? 1 then opr f <- OInt 2 0; Ret f
            else opr o <- OBool overflow; if o =? 1 then opr f <- OInt 2 2; Ret f else Ret flags
          else Ret flags);
       Ret (rFlags, tExp));
  let '(rFlags, rExp) := fe in
  opr hi <- OCat 2 1 rFlags rSign; opr lo <- OCat ER FR rExp rFrac; opr r <- OCat 3 (ER + FR) hi lo; Ret r.
(** neg_v1, fp_flopoco_neg_v1.hpp:10-20. *)
Definition neg_prog (ER FR EX FX x : Z) : prog Z :=
  let W := EX + FX + 3 in
  opr fl <- OSlice W (EX + FX + 2) (EX + FX + 1) x; opr s <- OSlice W (EX + FX) (EX + FX) x; opr ns <- ONot 1 s;
  opr e <- OSlice W (EX + FX - 1) FX x; opr f <- OSlice W (FX - 1) 0 x;
  opr hi <- OCat 2 1 fl ns; opr lo <- OCat EX FX e f; opr res <- OCat 3 (EX + FX) hi lo;
  convert_prog ER FR EX FX res.
