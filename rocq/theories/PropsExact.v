(** C75: a result the format can hold is returned exactly. [rv] (SpecFlocq.v) is the real number a decoded word stands for and
    [finite_v] says that the word is zero or a number. These theorems depend on the axioms of the standard library's real
    numbers, and on no others. *)
From Coq Require Import ZArith Bool Lia Reals Lra.
From Flocq Require Import Core.
From Verif Require Import Fw Spec SpecFlocq Flopoco Ieee Mul Div AddDual AddDualProofs Fma ExactProofs ExactProofs2 ExactProofs3 Inst InstR.
Open Scope Z_scope.

(** If the exact sum of two numbers is the number some word [w] of the result format stands for, the adder returns it; it
    returns the word [w] itself unless the sum is zero (a zero has many words). Missing: the widths of C04. *)
Theorem C75_add_partial EX FX EY FY x y w : let E := Z.max EX EY in let F := Z.max FX FY in
  1 <= EX -> 1 <= FX -> 1 <= EY -> 1 <= FY -> dual_ok_width E F -> wf (EX + FX + 3) x -> wf (EY + FY + 3) y -> wf (E + F + 3) w ->
  finite_v (decode EX FX x) -> finite_v (decode EY FY y) -> finite_v (decode E F w) -> (rv (decode EX FX x) + rv (decode EY FY y) = rv (decode E F w))%R ->
  exists r, add_dual E F EX FX EY FY x y = Some r /\ finite_v (decode E F r) /\ rv (decode E F r) = rv (decode E F w) /\ (rv (decode E F w) <> 0%R -> r = w).
Proof. exact (x_add EX FX EY FY x y w). Qed.
Print Assumptions C75_add_partial.
Example C75_add_partial_at := C75_add_partial 8 23 8 23 0x13F800000 0x140000000 0x140400000 ltac:(hypx) ltac:(hypx) ltac:(hypx) ltac:(hypx) ltac:(hypx) ltac:(hypx) ltac:(hypx) ltac:(hypx) ltac:(hypx) ltac:(hypx) ltac:(hypx) ltac:(hypx).

Theorem C75_mul wE wFR wFX wFY x y w : 2 <= wE -> 1 <= wFX -> 1 <= wFY -> 1 <= wFR < wFX + wFY + 1 -> wf (wE + wFX + 3) x -> wf (wE + wFY + 3) y -> wf (wE + wFR + 3) w ->
  finite_v (decode wE wFX x) -> finite_v (decode wE wFY y) -> finite_v (decode wE wFR w) -> (rv (decode wE wFX x) * rv (decode wE wFY y) = rv (decode wE wFR w))%R ->
  exists r, mul wE wFR wE wFX wFY x y = Some r /\ finite_v (decode wE wFR r) /\ rv (decode wE wFR r) = rv (decode wE wFR w) /\ (rv (decode wE wFR w) <> 0%R -> r = w).
Proof. exact (x_mul wE wFR wFX wFY x y w). Qed.
Print Assumptions C75_mul.
Example C75_mul_at := C75_mul 8 23 23 23 0x140000000 0x140400000 0x140C00000 ltac:(hypx) ltac:(hypx) ltac:(hypx) ltac:(hypx) ltac:(hypx) ltac:(hypx) ltac:(hypx) ltac:(hypx) ltac:(hypx) ltac:(hypx) ltac:(hypx).

Theorem C75_div wER wFR wEX wFX wEY wFY x y w : 1 <= wEX <= wER -> 1 <= wEY <= wER -> 2 <= wER -> 1 <= wFX <= wFR -> 1 <= wFY <= wFR ->
  wf (wEX + wFX + 3) x -> wf (wEY + wFY + 3) y -> wf (wER + wFR + 3) w ->
  finite_v (decode wEX wFX x) -> finite_v (decode wEY wFY y) -> rv (decode wEY wFY y) <> 0%R -> finite_v (decode wER wFR w) ->
  (rv (decode wEX wFX x) / rv (decode wEY wFY y) = rv (decode wER wFR w))%R ->
  exists r, div wER wFR wEX wFX wEY wFY x y = Some r /\ finite_v (decode wER wFR r) /\ rv (decode wER wFR r) = rv (decode wER wFR w) /\ (rv (decode wER wFR w) <> 0%R -> r = w).
Proof. exact (x_div wER wFR wEX wFX wEY wFY x y w). Qed.
Print Assumptions C75_div.
Example C75_div_at := C75_div 8 23 8 23 8 23 0x140C00000 0x140000000 0x140400000 ltac:(hypx) ltac:(hypx) ltac:(hypx) ltac:(hypx) ltac:(hypx) ltac:(hypx) ltac:(hypx) ltac:(hypx) ltac:(hypx) ltac:(hypx) ltac:(hypx) ltac:(hypx) ltac:(hypx).

(** A nonzero number that both formats hold is converted to the word for the same number. Missing: zeros, see
    C74_convert_refuted. *)
Theorem C75_convert_partial ER FR EX FX x w : 1 <= ER -> 1 <= FR -> 1 <= EX -> 1 <= FX -> wf (EX + FX + 3) x -> wf (ER + FR + 3) w ->
  finite_v (decode EX FX x) -> finite_v (decode ER FR w) -> rv (decode ER FR w) <> 0%R -> rv (decode EX FX x) = rv (decode ER FR w) ->
  convert ER FR EX FX x = Some w.
Proof. exact (x_convert ER FR EX FX x w). Qed.
Print Assumptions C75_convert_partial.
Example C75_convert_partial_at := C75_convert_partial 8 23 5 10 0x13C00 0x13F800000 ltac:(hypx) ltac:(hypx) ltac:(hypx) ltac:(hypx) ltac:(hypx) ltac:(hypx) ltac:(hypx) ltac:(hypx) ltac:(hypx) ltac:(hypx).

(** The fused multiply-add, although it rounds twice. Missing: result formats wider than the internal one, and the widths at
    which the internal adder or the final conversion is wrong (C21). *)
Theorem C75_fma_partial wER wFR wEX wFX wEY wFY wEZ wFZ x y z w :
  1 <= wER -> 1 <= wFR -> 1 <= wEX -> 1 <= wFX -> 1 <= wEY -> 1 <= wFY -> 1 <= wEZ -> 1 <= wFZ ->
  let E := Z.max (Z.max wEX wEY + 2) (wEZ + 1) in let F := Z.max (wFX + wFY + 2) wFZ in
  dual_ok_width E F -> wER <= E -> wFR <= F -> wER <> E \/ F <= wFR ->
  wf (wEX + wFX + 3) x -> wf (wEY + wFY + 3) y -> wf (wEZ + wFZ + 3) z -> wf (wER + wFR + 3) w ->
  finite_v (decode wEX wFX x) -> finite_v (decode wEY wFY y) -> finite_v (decode wEZ wFZ z) -> finite_v (decode wER wFR w) ->
  (rv (decode wEX wFX x) * rv (decode wEY wFY y) + rv (decode wEZ wFZ z) = rv (decode wER wFR w))%R ->
  exists r, fma wER wFR wEX wFX wEY wFY wEZ wFZ x y z = Some r /\ finite_v (decode wER wFR r) /\ rv (decode wER wFR r) = rv (decode wER wFR w) /\
    (rv (decode wER wFR w) <> 0%R -> r = w).
Proof. exact (x_fma wER wFR wEX wFX wEY wFY wEZ wFZ x y z w). Qed.
Print Assumptions C75_fma_partial.
Example C75_fma_partial_at := C75_fma_partial 8 23 8 23 8 23 8 23 0x140000000 0x140400000 0x13F800000 0x140E00000 ltac:(hypx) ltac:(hypx) ltac:(hypx) ltac:(hypx) ltac:(hypx) ltac:(hypx) ltac:(hypx) ltac:(hypx) ltac:(hypx) ltac:(hypx) ltac:(hypx) ltac:(hypx) ltac:(hypx) ltac:(hypx) ltac:(hypx) ltac:(hypx) ltac:(hypx) ltac:(hypx) ltac:(hypx) ltac:(hypx) ltac:(hypx).

(** The IEEE operators. *)
Theorem C75_ieee_partial E F x y w : dual_ok_width E F -> wf (E + F + 1) x -> wf (E + F + 1) y -> wf (E + F + 1) w ->
  finite_v (decode_ieee E F x) -> finite_v (decode_ieee E F y) -> finite_v (decode_ieee E F w) ->
  let a := rv (decode_ieee E F x) in let b := rv (decode_ieee E F y) in let c := rv (decode_ieee E F w) in
  let returns o := exists r, o = Some r /\ wf (E + F + 1) r /\ finite_v (decode_ieee E F r) /\ rv (decode_ieee E F r) = c in
  ((a + b = c)%R -> returns (w_add E F x y)) /\ ((a * b = c)%R -> returns (w_mul E F x y)) /\ (b <> 0%R -> (a / b = c)%R -> returns (w_div E F x y)).
Proof. exact (x_ieee E F x y w). Qed.
Print Assumptions C75_ieee_partial.

(** 1.5 + 1.5 = 3, 1.25 * 1.5 = 1.875 = 15/8, 1.875 / 1.5 = 1.25, 1.25 * 1.5 + 1 = 2.875 = 23/8; the IEEE ones alike. *)
Example C75_instance : dual_ok_width 5 4 /\ dual_ok_width 7 10 /\ wf 12 1272 /\ wf 12 1268 /\ wf 12 1278 /\ wf 12 1287 /\ wf 12 1288 /\
  decode 5 4 1272 = Num false 24 (-4) /\ decode 5 4 1288 = Num false 24 (-3) /\ decode 5 4 1268 = Num false 20 (-4) /\ decode 5 4 1278 = Num false 30 (-4) /\ decode 5 4 1287 = Num false 23 (-3) /\
  add_dual 5 4 5 4 5 4 1272 1272 = Some 1288 /\ mul 5 4 5 4 4 1268 1272 = Some 1278 /\ div 5 4 5 4 5 4 1278 1272 = Some 1268 /\
  fma 5 4 5 4 5 4 5 4 1268 1272 1264 = Some 1287 /\ convert 4 2 5 4 1272 = Some 158 /\ decode 4 2 158 = Num false 6 (-2) /\
  decode_ieee 5 4 248 = Num false 24 (-4) /\ decode_ieee 5 4 264 = Num false 24 (-3) /\ decode_ieee 5 4 244 = Num false 20 (-4) /\ decode_ieee 5 4 254 = Num false 30 (-4) /\
  w_add 5 4 248 248 = Some 264 /\ w_mul 5 4 244 248 = Some 254 /\ w_div 5 4 254 248 = Some 244.
Proof. split; [unfold dual_ok_width; split; [lia|]; split; [lia|]; split; [lia|]; split; [lia|]; right; right; right; right; vm_compute; discriminate|]. split; [unfold dual_ok_width; split; [lia|]; split; [lia|]; split; [lia|]; split; [lia|]; right; right; right; right; vm_compute; discriminate|]. decide_example. Qed.

(** Sterbenz: two numbers within a factor of two of each other are subtracted exactly, or give zero when the difference is
    below the smallest number of the format. *)
Theorem C75_sterbenz_partial E F x y : dual_ok_width E F -> wf (E + F + 3) x -> wf (E + F + 3) y -> finite_v (decode E F x) -> finite_v (decode E F y) ->
  (rv (decode E F y) / 2 <= rv (decode E F x) <= 2 * rv (decode E F y))%R ->
  exists ny r, neg E F E F y = Some ny /\ add_dual E F E F E F x ny = Some r /\ finite_v (decode E F r) /\
    (rv (decode E F r) = (rv (decode E F x) - rv (decode E F y))%R \/ rv (decode E F r) = 0%R /\ (Rabs (rv (decode E F x) - rv (decode E F y)) < bpow radix2 (emin E))%R).
Proof. exact (x_sterbenz E F x y). Qed.
Print Assumptions C75_sterbenz_partial.
Example C75_sterbenz_partial_at := C75_sterbenz_partial 8 23 0x140400000 0x140000000 ltac:(hypx) ltac:(hypx) ltac:(hypx) ltac:(hypx) ltac:(hypx) ltac:(hypx).

(** x - y is zero exactly if x = y, for operands that are zero or at least 2^(emin+F) in magnitude. *)
Theorem C75_difference_is_zero_partial E F x y : dual_ok_width E F -> wf (E + F + 3) x -> wf (E + F + 3) y -> finite_v (decode E F x) -> finite_v (decode E F y) ->
  rv (decode E F x) = 0%R \/ (bpow radix2 (emin E + F) <= Rabs (rv (decode E F x)))%R ->
  rv (decode E F y) = 0%R \/ (bpow radix2 (emin E + F) <= Rabs (rv (decode E F y)))%R ->
  exists ny r, neg E F E F y = Some ny /\ add_dual E F E F E F x ny = Some r /\ ((exists t, decode E F r = Zero t) <-> rv (decode E F x) = rv (decode E F y)).
Proof. exact (x_sub_zero E F x y). Qed.
Print Assumptions C75_difference_is_zero_partial.
Example C75_difference_is_zero_partial_at := C75_difference_is_zero_partial 8 23 0x140400000 0x140000000 ltac:(hypx) ltac:(hypx) ltac:(hypx) ltac:(hypx) ltac:(hypx) ltac:(right; hypr) ltac:(right; hypr).

(** Below that it is not: in every format there are numbers y < x with x - y = 0, since the format has no subnormals. *)
Theorem C75_lost_difference_refuted E F : dual_ok_width E F -> let x := 2 ^ (E + F + 1) + 1 in let y := 2 ^ (E + F + 1) in
  wf (E + F + 3) x /\ wf (E + F + 3) y /\ (rv (decode E F y) < rv (decode E F x))%R /\ finite_v (decode E F x) /\ finite_v (decode E F y) /\
  exists ny r t, neg E F E F y = Some ny /\ add_dual E F E F E F x ny = Some r /\ decode E F r = Zero t.
Proof. exact (sub_lost E F). Qed.
Print Assumptions C75_lost_difference_refuted.

(** 1.9375 - 1.0625 = 0.875 exactly; the two smallest numbers of the format with 5 and 4 bits differ but subtract to zero. *)
Example C75_sterbenz_instance : dual_ok_width 5 4 /\ wf 12 1279 /\ wf 12 1265 /\ decode 5 4 1279 = Num false 31 (-4) /\ decode 5 4 1265 = Num false 17 (-4) /\
  neg 5 4 5 4 1265 = Some 1777 /\ add_dual 5 4 5 4 5 4 1279 1777 = Some 1260 /\ decode 5 4 1260 = Num false 28 (-5) /\ emin 5 = -15 /\
  decode 5 4 1025 = Num false 17 (-19) /\ decode 5 4 1024 = Num false 16 (-19) /\ neg 5 4 5 4 1024 = Some 1536 /\ option_map (decode 5 4) (add_dual 5 4 5 4 5 4 1025 1536) = Some (Zero false).
Proof. split; [unfold dual_ok_width; split; [lia|]; split; [lia|]; split; [lia|]; split; [lia|]; right; right; right; right; vm_compute; discriminate|]. decide_example. Qed.

(** Identities, word for word on nonzero numbers: x + 0 = 0 + x = x, x * 1 = 1 * x = x, x * -1 = -x, x / 1 = x, x / x = 1. *)
Theorem C75_add_zero_partial E F x z t : dual_ok_width E F -> wf (E + F + 3) x -> wf (E + F + 3) z -> finite_v (decode E F x) -> rv (decode E F x) <> 0%R -> decode E F z = Zero t ->
  add_dual E F E F E F x z = Some x /\ add_dual E F E F E F z x = Some x.
Proof. exact (id_add E F x z t). Qed.
Print Assumptions C75_add_zero_partial.
Example C75_add_zero_partial_at := C75_add_zero_partial 8 23 0x140490FDB 0x80000000 true ltac:(hypx) ltac:(hypx) ltac:(hypx) ltac:(hypx) ltac:(hypx) ltac:(hypx).
Theorem C75_mul_one E F x : 2 <= E -> 1 <= F -> wf (E + F + 3) x -> finite_v (decode E F x) -> rv (decode E F x) <> 0%R ->
  exists one none n, lim_pos_one E F = Some one /\ lim_neg_one E F = Some none /\ neg E F E F x = Some n /\
    mul E F E F F x one = Some x /\ mul E F E F F one x = Some x /\ mul E F E F F x none = Some n.
Proof. exact (id_mul E F x). Qed.
Print Assumptions C75_mul_one.
Example C75_mul_one_at := C75_mul_one 8 23 0x140490FDB ltac:(hypx) ltac:(hypx) ltac:(hypx) ltac:(hypx) ltac:(hypx).
Theorem C75_div_one E F x : 2 <= E -> 1 <= F -> wf (E + F + 3) x -> finite_v (decode E F x) -> rv (decode E F x) <> 0%R ->
  exists one, lim_pos_one E F = Some one /\ div E F E F E F x one = Some x /\ div E F E F E F x x = Some one.
Proof. exact (id_div E F x). Qed.
Print Assumptions C75_div_one.
Example C75_div_one_at := C75_div_one 8 23 0x140490FDB ltac:(hypx) ltac:(hypx) ltac:(hypx) ltac:(hypx) ltac:(hypx).

(** Multiplying and dividing by a power of two, and doubling, are exact unless the result leaves the range. *)
Theorem C75_power_of_two E F x y k : 2 <= E -> 1 <= F -> wf (E + F + 3) x -> wf (E + F + 3) y -> finite_v (decode E F x) -> finite_v (decode E F y) -> Rabs (rv (decode E F y)) = bpow radix2 k ->
  (bpow radix2 (emin E) <= Rabs (rv (decode E F x) * rv (decode E F y)) < bpow radix2 (emax E + 1) -> exists r, mul E F E F F x y = Some r /\ finite_v (decode E F r) /\ rv (decode E F r) = rv (decode E F x) * rv (decode E F y))%R /\
  (bpow radix2 (emin E) <= Rabs (rv (decode E F x) / rv (decode E F y)) < bpow radix2 (emax E + 1) -> exists r, div E F E F E F x y = Some r /\ finite_v (decode E F r) /\ rv (decode E F r) = rv (decode E F x) / rv (decode E F y))%R.
Proof. exact (x_scale E F x y k). Qed.
Print Assumptions C75_power_of_two.
Example C75_power_of_two_at := C75_power_of_two 8 23 0x140490FDB 0x13F000000 (-1) ltac:(hypx) ltac:(hypx) ltac:(hypx) ltac:(hypx) ltac:(hypx) ltac:(hypx) ltac:(hypx).
Theorem C75_doubling_partial E F x : dual_ok_width E F -> wf (E + F + 3) x -> finite_v (decode E F x) -> (Rabs (rv (decode E F x)) < bpow radix2 (emax E))%R ->
  exists r, add_dual E F E F E F x x = Some r /\ finite_v (decode E F r) /\ rv (decode E F r) = (2 * rv (decode E F x))%R.
Proof. exact (x_double E F x). Qed.
Print Assumptions C75_doubling_partial.

(** 1.5 and the zero word 517 (negative, with unused bits set); 1.5 * 0.25 = 0.375 and 1.5 / 0.25 = 6. *)
Example C75_identities_instance : dual_ok_width 5 4 /\ decode 5 4 517 = Zero true /\ decode 5 4 1272 = Num false 24 (-4) /\ lim_pos_one 5 4 = Some 1264 /\ lim_neg_one 5 4 = Some 1776 /\
  add_dual 5 4 5 4 5 4 1272 517 = Some 1272 /\ mul 5 4 5 4 4 1272 1264 = Some 1272 /\ mul 5 4 5 4 4 1272 1776 = Some 1784 /\ neg 5 4 5 4 1272 = Some 1784 /\
  div 5 4 5 4 5 4 1272 1264 = Some 1272 /\ div 5 4 5 4 5 4 1272 1272 = Some 1264 /\ decode 5 4 1232 = Num false 16 (-6) /\
  option_map (decode 5 4) (mul 5 4 5 4 4 1272 1232) = Some (Num false 24 (-6)) /\ option_map (decode 5 4) (div 5 4 5 4 5 4 1272 1232) = Some (Num false 24 (-2)).
Proof. split; [unfold dual_ok_width; split; [lia|]; split; [lia|]; split; [lia|]; split; [lia|]; right; right; right; right; vm_compute; discriminate|]. decide_example. Qed.
