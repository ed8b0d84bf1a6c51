(** Model of dot2_pos_rndd (fp_flopoco_dot2_pos_rndd.hpp:77-180) and dot4_pos_rndd
    (fp_flopoco_dot4_pos_rndd.hpp:11-28, 142-292). The logging branches (log=false) are not modelled; the
    reference functions are in RefDot.v. *)
From Coq Require Import ZArith Bool.
From Verif Require Import Fw Flopoco.
Open Scope Z_scope.

(** const int bias((1<<(WE-1))-1), dot2:98, dot4:183. The ints bias and bias+(1<<WE) must not
    overflow, so WE <= 30. *)
Definition dot_bias (WE : Z) : option Z :=
  do _ <- assert_ (WE <=? 30); Some (2 ^ (WE - 1) - 1).

(** The input assertions, dot2:84-87, dot4:154-161. *)
Definition dot_check (WE WF x : Z) : option unit := assert_ (to_bool (fand (is_positive WE WF x) (is_normal WE WF x))).

(** Product of the significands and sum of the exponents, dot2:93-104, dot4:173-193. *)
Definition dot_frac (WE WF a b : Z) : Z := fmul (opad_hi 1 WF (get_frac WE WF a)) (opad_hi 1 WF (get_frac WE WF b)).
Definition dot_exp (WE WF a b : Z) : Z := fadd (WE + 1) (zpad_hi 1 WE (get_exp WE WF a)) (zpad_hi 1 WE (get_exp WE WF b)).

(** Final conversion, dot2:171-179, dot4:283-291. *)
Definition dot_pack (WE WF bias exp_post_norm frac_post_norm : Z) : option Z :=
  let flags := if to_bool (flt exp_post_norm bias) then 0
    else if to_bool (fge exp_post_norm (bias + 2 ^ WE)) then 2 else 1 in
  do e <- take_lsbs (WE + 2) WE (fsub (WE + 2) exp_post_norm bias);
  Some (mk WE WF flags (zg 1) e frac_post_norm).

(** dot2_pos_rndd, fp_flopoco_dot2_pos_rndd.hpp:77-180. *)
Definition dot2_pos_rndd (WE WF a0 a1 b0 b1 : Z) : option Z :=
  do _ <- dot_check WE WF a0; do _ <- dot_check WE WF a1;
  do _ <- dot_check WE WF b0; do _ <- dot_check WE WF b1;
  do bias <- dot_bias WE;
  let ab0_frac := dot_frac WE WF a0 b0 in let ab0_exp := dot_exp WE WF a0 b0 in
  let ab1_frac := dot_frac WE WF a1 b1 in let ab1_exp := dot_exp WE WF a1 b1 in
  let swap := fgt ab1_exp ab0_exp in
  let maj_frac := select swap ab1_frac ab0_frac in
  let maj_exp := select swap ab1_exp ab0_exp in
  let min_frac := select swap ab0_frac ab1_frac in
  let min_exp := select swap ab0_exp ab1_exp in
  let shift := fsub (WE + 1) maj_exp min_exp in
  let W := 2 * WF + 4 in
  let maj_frac_full := cat 1 (cat (2 * WF + 2) (zg 1) maj_frac) (zg 1) in
  let min_frac_full := cat 1 (cat (2 * WF + 2) (zg 1) min_frac) (zg 1) in
  let shift_loss := to_bool (fge shift W) in
  do min_frac_shifted <- (if shift_loss then Some (zg W) else do d <- to_int shift; fshr W min_frac_full d);
  let frac_full := fadd W maj_frac_full min_frac_shifted in
  do top_three <- take_msbs W 3 frac_full;
  do _ <- assert_ (negb (top_three =? 0));
  do frac_pre_norm <- take_msbs W (3 + WF) frac_full;
  do t2 <- get_bits 3 2 2 top_three;
  do t1 <- get_bits 3 1 1 top_three;
  do fa <- (if to_bool t2 then do f <- get_bits (3 + WF) (1 + WF) 2 frac_pre_norm; do a <- of_int (WE + 2) 2; Some (f, a)
            else if to_bool t1 then do f <- get_bits (3 + WF) WF 1 frac_pre_norm; do a <- of_int (WE + 2) 1; Some (f, a)
            else do f <- get_bits (3 + WF) (WF - 1) 0 frac_pre_norm; do a <- of_int (WE + 2) 0; Some (f, a));
  let exp_post_norm := fadd (WE + 2) (zpad_hi 1 (WE + 1) maj_exp) (snd fa) in
  dot_pack WE WF bias exp_post_norm (fst fa).

(** rotate4<O>, fp_flopoco_dot4_pos_rndd.hpp:11-21. *)
Definition rotate4 (O index x0 x1 x2 x3 : Z) : Z :=
  if index =? (0 + O) mod 4 then x0
  else if index =? (1 + O) mod 4 then x1
  else if index =? (2 + O) mod 4 then x2
  else x3.

(** safe_rshift, fp_flopoco_dot4_pos_rndd.hpp:23-28. *)
Definition safe_rshift (W val places : Z) : option Z :=
  do p <- to_int places;
  if W <=? p then Some (zg W) else fshr W val p.

(** dot4_pos_rndd, fp_flopoco_dot4_pos_rndd.hpp:142-292. *)
Definition dot4_pos_rndd (WE WF a0 a1 a2 a3 b0 b1 b2 b3 : Z) : option Z :=
  do _ <- dot_check WE WF a0; do _ <- dot_check WE WF a1; do _ <- dot_check WE WF a2; do _ <- dot_check WE WF a3;
  do _ <- dot_check WE WF b0; do _ <- dot_check WE WF b1; do _ <- dot_check WE WF b2; do _ <- dot_check WE WF b3;
  do bias <- dot_bias WE;
  let ab0_frac := dot_frac WE WF a0 b0 in let ab0_exp := dot_exp WE WF a0 b0 in
  let ab1_frac := dot_frac WE WF a1 b1 in let ab1_exp := dot_exp WE WF a1 b1 in
  let ab2_frac := dot_frac WE WF a2 b2 in let ab2_exp := dot_exp WE WF a2 b2 in
  let ab3_frac := dot_frac WE WF a3 b3 in let ab3_exp := dot_exp WE WF a3 b3 in
  let bigger01 := fgt ab1_exp ab0_exp in
  let bigger01_exp := select bigger01 ab1_exp ab0_exp in
  let bigger23 := fgt ab3_exp ab2_exp in
  let bigger23_exp := select bigger23 ab3_exp ab2_exp in
  let bigger_01_23 := fgt bigger23_exp bigger01_exp in
  let biggest_sel := cat 1 bigger_01_23 (select bigger_01_23 bigger23 bigger01) in
  let x0_exp := rotate4 0 biggest_sel ab0_exp ab1_exp ab2_exp ab3_exp in
  let x1_exp := rotate4 1 biggest_sel ab0_exp ab1_exp ab2_exp ab3_exp in
  let x2_exp := rotate4 2 biggest_sel ab0_exp ab1_exp ab2_exp ab3_exp in
  let x3_exp := rotate4 3 biggest_sel ab0_exp ab1_exp ab2_exp ab3_exp in
  let x0_frac := rotate4 0 biggest_sel ab0_frac ab1_frac ab2_frac ab3_frac in
  let x1_frac := rotate4 1 biggest_sel ab0_frac ab1_frac ab2_frac ab3_frac in
  let x2_frac := rotate4 2 biggest_sel ab0_frac ab1_frac ab2_frac ab3_frac in
  let x3_frac := rotate4 3 biggest_sel ab0_frac ab1_frac ab2_frac ab3_frac in
  let shift1 := fsub (WE + 1) x0_exp x1_exp in
  let shift2 := fsub (WE + 1) x0_exp x2_exp in
  let shift3 := fsub (WE + 1) x0_exp x3_exp in
  let WAB := 2 * WF in
  let PAD_LOW := 2 * WAB - 1 in
  let W := 2 + (2 * WF + 2) + PAD_LOW in
  let full x := cat PAD_LOW (cat (2 * WF + 2) (zg 2) x) (zg PAD_LOW) in
  let x0_frac_shifted := full x0_frac in
  do x1_frac_shifted <- safe_rshift W (full x1_frac) shift1;
  do x2_frac_shifted <- safe_rshift W (full x2_frac) shift2;
  do x3_frac_shifted <- safe_rshift W (full x3_frac) shift3;
  let frac_full := fadd W (fadd W (fadd W x0_frac_shifted x1_frac_shifted) x2_frac_shifted) x3_frac_shifted in
  do top_four <- take_msbs W 4 frac_full;
  do _ <- assert_ (negb (top_four =? 0));
  do frac_pre_norm <- take_msbs W (4 + WF) frac_full;
  do t3 <- get_bits 4 3 3 top_four;
  do t2 <- get_bits 4 2 2 top_four;
  do t1 <- get_bits 4 1 1 top_four;
  do fa <- (if to_bool t3 then do f <- get_bits (4 + WF) (2 + WF) 3 frac_pre_norm; do a <- of_int (WE + 2) 3; Some (f, a)
            else if to_bool t2 then do f <- get_bits (4 + WF) (1 + WF) 2 frac_pre_norm; do a <- of_int (WE + 2) 2; Some (f, a)
            else if to_bool t1 then do f <- get_bits (4 + WF) WF 1 frac_pre_norm; do a <- of_int (WE + 2) 1; Some (f, a)
            else do f <- get_bits (4 + WF) (WF - 1) 0 frac_pre_norm; do a <- of_int (WE + 2) 0; Some (f, a));
  let exp_post_norm := fadd (WE + 2) (zpad_hi 1 (WE + 1) x0_exp) (snd fa) in
  dot_pack WE WF bias exp_post_norm (fst fa).
