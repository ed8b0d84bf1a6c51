(** Model of the compile-time random number generators: include/thls/tops/ct/ct_rng.hpp,
    ct_rng_lcg_mod_2y32.hpp and ct_rng_lcg_mod_p.hpp. Template recursion becomes recursion on
    fuel; running out of it is None, and the theorems show that 64 levels are enough. *)
From Coq Require Import ZArith Bool.
From Verif Require Import Fw.
Open Scope Z_scope.

Definition w32 (x : Z) : Z := x mod 2 ^ 32.
Definition w64 (x : Z) : Z := x mod 2 ^ 64.
Definition is_int (d : Z) : bool := (- 2 ^ 31 <=? d) && (d <? 2 ^ 31).

(** lcg_mod_2y32_A, _C: ct_rng_lcg_mod_2y32.hpp:10-11. *)
Definition lcg_A : Z := 1664525.
Definition lcg_C : Z := 1013904223.

(** lcg_mod_2y32_multiplier<steps,A,C>, (vA, vC): ct_rng_lcg_mod_2y32.hpp:37-70. *)
Fixpoint lcg_mult (n : nat) (stepsOrig A C : Z) : option (Z * Z) :=
  match n with
  | O => None
  | S n =>
      if stepsOrig =? 0 then Some (1, 0) (* 58-63 *)
      else if stepsOrig =? 1 then Some (A, C) (* 65-70 *)
      else
        let steps := if stepsOrig <? 0 then 2 ^ 32 + stepsOrig else stepsOrig in
        do prev <- lcg_mult n (Z.quot steps 2) A C;
        do curr <- lcg_mult n (Z.rem steps 2) A C;
        let '(pA, pC) := prev in
        let A1 := w32 (pA * pA) in
        let C1 := w32 (w32 (pA * pC) + pC) in
        let '(A2, C2) := curr in
        Some (w32 (A1 * A2), w32 (w32 (A1 * C2) + C1))
  end.
(** skip_by<lcg_mod_2y32_state<S,A,C>,distance>: ct_rng_lcg_mod_2y32.hpp:89-100; distance is an int. *)
Definition lcg_skip (S A C distance : Z) : option Z :=
  do _ <- assert_ (is_int distance);
  do m <- lcg_mult 64 distance A C;
  let '(Ai, Ci) := m in Some (w32 (w32 (S * Ai) + Ci)).

(** The constants of ct_rng_lcg_mod_p.hpp:14-16, 26-28. *)
Definition p_A1 : Z := 1588635695.
Definition p_A1inv : Z := 3870709308.
Definition p_M1 : Z := 4294967291.
Definition p_A2 : Z := 16807.
Definition p_A2inv : Z := 1407677000.
Definition p_M2 : Z := 2147483647.
(** inv_mod<A,M>: ct_rng_lcg_mod_p.hpp:18-36; the four specialisations. *)
Definition inv_mod (A M : Z) : option Z :=
  if (A =? p_A1) && (M =? p_M1) then Some p_A1inv
  else if (A =? p_A1inv) && (M =? p_M1) then Some p_A1
  else if (A =? p_A2) && (M =? p_M2) then Some p_A2inv
  else if (A =? p_A2inv) && (M =? p_M2) then Some p_A2
  else None.
(** lcg_mod_p_multiplier<steps,A,M>: ct_rng_lcg_mod_p.hpp:49-67. inv_mod<A,M> must exist
    whatever the sign of steps, and -steps must not overflow an int. *)
Fixpoint p_mult (n : nat) (steps A M : Z) : option Z :=
  match n with
  | O => None
  | S n =>
      if steps =? 0 then Some 1
      else
        do inv <- inv_mod A M;
        do _ <- assert_ (negb (steps =? - 2 ^ 31));
        let effA := if steps <? 0 then inv else A in
        let effSteps := if steps <? 0 then - steps else steps in
        do prev <- p_mult n (Z.quot effSteps 2) effA M;
        let prev_sqr := w64 (prev * prev) mod M in
        Some (w32 (w64 (prev_sqr * (if Z.odd effSteps then effA else 1)) mod M))
  end.
(** skip_by<lcg_mod_p_state<S,A,M>,distance>: ct_rng_lcg_mod_p.hpp:97-107. *)
Definition p_skip (S A M distance : Z) : option Z :=
  do _ <- assert_ (is_int distance);
  do Ai <- p_mult 64 distance A M;
  Some (w32 (w64 (S * Ai) mod M)).
(** make_minstdrand0, make_lcg_mod_2y32m5: ct_rng_lcg_mod_p.hpp:79-93 (the state). *)
Definition p_seed (S M : Z) : option Z := do _ <- assert_ (negb (S mod M =? 0)); Some (S mod M).
