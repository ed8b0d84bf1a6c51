(** Compile-time generators: the LCG modulo 2^32 (C28, C50) and those modulo a prime (C29, C51). *)
From Coq Require Import ZArith Bool Znumtheory.
From Verif Require Import Fw SpecCt Lcg LcgProofs LcgProofs2 Inst.
Open Scope Z_scope.

(** ** C28 *)
(** Skipping forward by d takes d single steps, whatever the multiplier and increment. *)
Theorem C28_skip_forward S A C d : 0 <= S < 2 ^ 32 -> 0 <= d < 2 ^ 31 ->
  lcg_skip S A C d = Some (Nat.iter (Z.to_nat d) (step A C) S).
Proof. exact (lcg_forward S A C d). Qed.
Print Assumptions C28_skip_forward.
Example C28_skip_forward_at := C28_skip_forward 12345 1664525 1013904223 1000000 ltac:(hyp) ltac:(hyp).
(** Skipping by a negative distance gives the state from which that many steps lead back, for
    every odd multiplier (the one shipped is odd). *)
Theorem C28_skip_backward S A C d : Z.odd A = true -> 0 <= S < 2 ^ 32 -> - 2 ^ 31 <= d < 0 ->
  exists s, lcg_skip S A C d = Some s /\ 0 <= s < 2 ^ 32 /\ Nat.iter (Z.to_nat (- d)) (step A C) s = S.
Proof. exact (lcg_backward S A C d). Qed.
Print Assumptions C28_skip_backward.
Example C28_skip_backward_at := C28_skip_backward 12345 1664525 1013904223 (-7) ltac:(hyp) ltac:(hyp) ltac:(hyp).
(** Two skips are one skip by the sum. *)
Theorem C28_skip_compose S A C a b : Z.odd A = true -> 0 <= S < 2 ^ 32 ->
  - 2 ^ 31 <= a < 2 ^ 31 -> - 2 ^ 31 <= b < 2 ^ 31 -> - 2 ^ 31 <= a + b < 2 ^ 31 ->
  exists s, lcg_skip S A C a = Some s /\ lcg_skip s A C b = lcg_skip S A C (a + b).
Proof. exact (lcg_compose S A C a b). Qed.
Print Assumptions C28_skip_compose.
Example C28_skip_compose_at := C28_skip_compose 12345 1664525 1013904223 100 (-300) ltac:(hyp) ltac:(hyp) ltac:(hyp) ltac:(hyp) ltac:(hyp).
(** The multiplier must be odd: an even one collapses states, and then no state leads back. *)
Theorem C28_even_multiplier_refuted : exists S A C, 0 <= S < 2 ^ 32 /\ 0 <= A < 2 ^ 32 /\ 0 <= C < 2 ^ 32 /\
  forall s, lcg_skip S A C (-1) = Some s -> Nat.iter 1 (step A C) s <> S.
Proof. exact lcg_even. Qed.
Print Assumptions C28_even_multiplier_refuted.
(** The published samples of make_quick_and_dirty (seed 949333985): ct_rng_lcg_mod_2y32.hpp:103-114. *)
Example C28_samples_ex : Z.odd lcg_A = true /\
  lcg_skip 949333985 lcg_A lcg_C 1 = Some 3977611212 /\ lcg_skip 949333985 lcg_A lcg_C 2 = Some 495853755 /\
  lcg_skip 949333985 lcg_A lcg_C 19937 = Some 513342252 /\ lcg_skip 949333985 lcg_A lcg_C (2 ^ 24) = Some 563458017 /\
  lcg_skip 3977611212 lcg_A lcg_C (-1) = Some 949333985 /\ lcg_skip 563458017 lcg_A lcg_C (- 2 ^ 24) = Some 949333985.
Proof. vm_compute. repeat split; reflexivity. Qed.

(** ** C50 *)
(** The shipped generator returns to a state only after a multiple of 2^32 steps. *)
Theorem C50_period S n : 0 <= S < 2 ^ 32 -> (Nat.iter n (step lcg_A lcg_C) S = S <-> (2 ^ 32 | Z.of_nat n)).
Proof. exact (lcg_shipped_period S n). Qed.
Print Assumptions C50_period.
Example C50_period_at := C50_period 12345 17%nat ltac:(hyp).
(** Hence any two different int distances give different states. *)
Theorem C50_samples_distinct S a b s : 0 <= S < 2 ^ 32 ->
  lcg_skip S lcg_A lcg_C a = Some s -> lcg_skip S lcg_A lcg_C b = Some s -> a = b.
Proof. exact (lcg_skip_inj S a b s). Qed.
Print Assumptions C50_samples_distinct.
Example C50_samples_distinct_at := C50_samples_distinct 12345 10 10 3364893915 ltac:(hyp) ltac:(hyp) ltac:(hyp).
(** And every state is reached. *)
Theorem C50_every_state S s : 0 <= S < 2 ^ 32 -> 0 <= s < 2 ^ 32 ->
  exists d, - 2 ^ 31 <= d < 2 ^ 31 /\ lcg_skip S lcg_A lcg_C d = Some s.
Proof. exact (lcg_skip_onto S s). Qed.
Print Assumptions C50_every_state.
Example C50_ex : lcg_skip 0 lcg_A lcg_C 5 = Some 1649599747 /\ lcg_skip 0 lcg_A lcg_C (- 2 ^ 31) = Some 2147483648.
Proof. vm_compute. split; reflexivity. Qed.

(** ** C29 *)
(** Both generators are available forwards and backwards, with a true inverse each. *)
Theorem C29_inverses A M B : inv_mod A M = Some B -> prime M /\ 0 < A < M /\ 0 < B < M /\ (A * B) mod M = 1.
Proof. exact (inv_mod_prime A M B). Qed.
Print Assumptions C29_inverses.
Example C29_inverses_at := C29_inverses p_A1 p_M1 p_A1inv ltac:(hyp).
(** Skipping forward by d takes d single steps. *)
Theorem C29_skip_forward S A M B d : inv_mod A M = Some B -> 0 <= S < M -> 0 <= d < 2 ^ 31 ->
  p_skip S A M d = Some (Nat.iter (Z.to_nat d) (pstep A M) S).
Proof. exact (p_skip_pos S A M B d). Qed.
Print Assumptions C29_skip_forward.
Example C29_skip_forward_at := C29_skip_forward 12345 p_A1 p_M1 p_A1inv 1000000 ltac:(hyp) ltac:(hyp) ltac:(hyp).
(** Skipping back gives the state from which that many steps lead here. *)
Theorem C29_skip_backward S A M B d : inv_mod A M = Some B -> 0 <= S < M -> - 2 ^ 31 < d < 0 ->
  exists s, p_skip S A M d = Some s /\ 0 <= s < M /\ Nat.iter (Z.to_nat (- d)) (pstep A M) s = S.
Proof. exact (p_backward S A M B d). Qed.
Print Assumptions C29_skip_backward.
Example C29_skip_backward_at := C29_skip_backward 12345 p_A1 p_M1 p_A1inv (-7) ltac:(hyp) ltac:(hyp) ltac:(hyp).
(** Two skips are one skip by the sum; with b = -a the second undoes the first. *)
Theorem C29_skip_compose S A M B a b : inv_mod A M = Some B -> 0 <= S < M ->
  - 2 ^ 31 < a < 2 ^ 31 -> - 2 ^ 31 < b < 2 ^ 31 -> - 2 ^ 31 < a + b < 2 ^ 31 ->
  exists s, p_skip S A M a = Some s /\ 0 <= s < M /\ p_skip s A M b = p_skip S A M (a + b).
Proof. exact (p_compose S A M B a b). Qed.
Print Assumptions C29_skip_compose.
Example C29_skip_compose_at := C29_skip_compose 12345 p_A1 p_M1 p_A1inv 100 (-300) ltac:(hyp) ltac:(hyp) ltac:(hyp) ltac:(hyp) ltac:(hyp).
(** A state that is not zero never becomes zero. *)
Theorem C29_never_zero S A M B d s : inv_mod A M = Some B -> 0 < S < M -> p_skip S A M d = Some s -> 0 < s < M.
Proof. exact (p_nonzero S A M B d s). Qed.
Print Assumptions C29_never_zero.
Example C29_never_zero_at := C29_never_zero 12345 p_A1 p_M1 p_A1inv 10 4109071371 ltac:(hyp) ltac:(hyp) ltac:(hyp).
(** The most negative int cannot be negated. *)
Theorem C29_int_min_undefined S A M : p_skip S A M (- 2 ^ 31) = None.
Proof. exact (p_skip_min S A M). Qed.
Print Assumptions C29_int_min_undefined.
Example C29_int_min_undefined_at := C29_int_min_undefined 12345 p_A1 p_M1.
(** A seed is accepted unless the modulus divides it; the state is the seed reduced, never zero. *)
Theorem C29_seed S M : 0 < M -> 0 <= S ->
  (~ (M | S) -> exists s, p_seed S M = Some s /\ 0 < s < M /\ (M | S - s)) /\ ((M | S) -> p_seed S M = None).
Proof. exact (p_seed_spec S M). Qed.
Print Assumptions C29_seed.
Example C29_seed_ex : p_seed 2147483650 p_M2 = Some 3 /\ p_seed p_M2 p_M2 = None.
Proof. vm_compute. split; reflexivity. Qed.
(** The published samples of minstd_rand0 and of the generator modulo 2^32-5: ct_rng_lcg_mod_p.hpp:110-127. *)
Example C29_minstd_ex : inv_mod p_A2 p_M2 = Some p_A2inv /\ p_seed 2013771743 p_M2 = Some 2013771743 /\
  p_skip 2013771743 p_A2 p_M2 1 = Some 1119407881 /\ p_skip 2013771743 p_A2 p_M2 2 = Some 1931508247 /\
  p_skip 2013771743 p_A2 p_M2 19937 = Some 1009599722 /\ p_skip 2013771743 p_A2 p_M2 (2 ^ 24) = Some 246285303 /\
  p_skip 246285303 p_A2 p_M2 (- 2 ^ 24) = Some 2013771743.
Proof. vm_compute. repeat split; reflexivity. Qed.
Example C29_2y32m5_ex : inv_mod p_A1 p_M1 = Some p_A1inv /\ p_seed 3922919429 p_M1 = Some 3922919429 /\
  p_skip 3922919429 p_A1 p_M1 1 = Some 4020269147 /\ p_skip 3922919429 p_A1 p_M1 2 = Some 2884350374 /\
  p_skip 3922919429 p_A1 p_M1 19937 = Some 3384465501 /\ p_skip 3922919429 p_A1 p_M1 (2 ^ 24) = Some 906608749 /\
  p_skip 906608749 p_A1 p_M1 (- 2 ^ 24) = Some 3922919429.
Proof. vm_compute. repeat split; reflexivity. Qed.

(** ** C51 *)
(** Both shipped generators have the longest possible period. *)
Theorem C51_period_minstd S n : 0 < S < 2147483647 ->
  (Nat.iter n (pstep 16807 2147483647) S = S <-> (2147483646 | Z.of_nat n)).
Proof. exact (p_period2 S n). Qed.
Print Assumptions C51_period_minstd.
Example C51_period_minstd_at := C51_period_minstd 12345 17%nat ltac:(hyp).
Theorem C51_period_2y32m5 S n : 0 < S < 4294967291 ->
  (Nat.iter n (pstep 1588635695 4294967291) S = S <-> (4294967290 | Z.of_nat n)).
Proof. exact (p_period1 S n). Qed.
Print Assumptions C51_period_2y32m5.
Example C51_period_2y32m5_at := C51_period_2y32m5 12345 17%nat ltac:(hyp).
(** Hence two distances give the same state only when they are a whole number of periods apart. *)
Theorem C51_samples_distinct_2y32m5 S a b s : 0 < S < p_M1 ->
  p_skip S p_A1 p_M1 a = Some s -> p_skip S p_A1 p_M1 b = Some s -> (4294967290 | a - b).
Proof. exact (p_skip_inj1 S a b s). Qed.
Print Assumptions C51_samples_distinct_2y32m5.
Example C51_samples_distinct_2y32m5_at := C51_samples_distinct_2y32m5 12345 10 10 4109071371 ltac:(hyp) ltac:(hyp) ltac:(hyp).
Theorem C51_samples_distinct_minstd S a b s : 0 < S < p_M2 ->
  p_skip S p_A2 p_M2 a = Some s -> p_skip S p_A2 p_M2 b = Some s -> (2147483646 | a - b).
Proof. exact (p_skip_inj2 S a b s). Qed.
Print Assumptions C51_samples_distinct_minstd.
Example C51_ex : p_skip 5 p_A2 p_M2 2147483646 = Some 5 /\ p_skip 5 p_A2 p_M2 1073741823 = Some 2147483642 /\
  p_skip 5 p_A1 p_M1 2147483646 = Some 646756107.
Proof. vm_compute. repeat split; reflexivity. Qed.
