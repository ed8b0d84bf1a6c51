(** Integers of known range (C87). *)
From Coq Require Import ZArith Bool List.
From Verif Require Import Fw Fixval Intval SpecIntval IntvalProofs Inst.
Import ListNotations.
Open Scope Z_scope.

(** A program that compiles, given inputs within their ranges, stops at no assertion and returns the exact integer, which lies
    within the range of its type and of an int64_t; that range is the one of interval arithmetic. *)
Theorem C87_exact env e t : itype e = Some t -> inputs_ok env e ->
  irun env e = Some (t, ivalue env e) /\ fshift t = 0 /\ (flow t, fhigh t) = irange e /\ flow t <= ivalue env e <= fhigh t /\ in64 (ivalue env e).
Proof. exact (program_ok env e t). Qed.
Print Assumptions C87_exact.

(** (x + -3) * (x * y) >> 2 with x in -10..10 and y in 0..5. *)
Example C87_exact_instance :
  let e := Shr 2 (Prod (Sum (Var (-10) 10 0) (Const (-3))) (Prod (Var (-10) 10 0) (Var 0 5 1))) in
  let env := fun i => match i with O => -7 | _ => 5 end in
  itype e = Some (Fixt 0 (-163) 162) /\ inputs_ok env e /\ irun env e = Some (Fixt 0 (-163) 162, 87).
Proof. vm_compute. repeat split; congruence. Qed.

(** It compiles exactly when every intermediate range fits an int64_t and every shift distance is less than 64. *)
Theorem C87_compiles e : (exists t, itype e = Some t) <-> fits e.
Proof. exact (compiles_iff e). Qed.
Print Assumptions C87_compiles.

(** The square of a 32-bit number fits, its cube does not. *)
Example C87_compiles_instance :
  fits (Prod (Var 0 (2 ^ 31) 0) (Var 0 (2 ^ 31) 0)) /\ itype (Prod (Var 0 (2 ^ 31) 0) (Var 0 (2 ^ 31) 0)) = Some (Fixt 0 0 (2 ^ 62)) /\
  itype (Prod (Var 0 (2 ^ 31) 0) (Prod (Var 0 (2 ^ 31) 0) (Var 0 (2 ^ 31) 0))) = None.
Proof. vm_compute. repeat split; congruence. Qed.

(** A value outside the range of its type is rejected. *)
Theorem C87_outside low high v : ~ (low <= v <= high) -> make_intval low high v = None.
Proof. exact (outside low high v). Qed.
Print Assumptions C87_outside.
Example C87_outside_at := C87_outside (-4) 9 10 ltac:(hyp).

(** On plain integers the constant shift is the division rounded down. *)
Theorem C87_shift k a : 0 <= k < 64 -> shr_const_int64 k a = Some (a / 2 ^ k).
Proof. exact (shr_int64 k a). Qed.
Print Assumptions C87_shift.

Example C87_outside_instance : make_intval (-10) 10 11 = None /\ make_intval (-10) 10 (-10) = Some (Fixt 0 (-10) 10, -10) /\ shr_const_int64 3 (-17) = Some (-3).
Proof. vm_compute. repeat split; congruence. Qed.

(** callN passes the elements of an array of any length as the arguments, each once and in order. *)
Theorem C87_callN (A B : Type) (f : list A -> B) x : callN f x = Some (f x).
Proof. exact (callN_ok f x). Qed.
Print Assumptions C87_callN.

Example C87_callN_instance : callN (fun l => match l with [a; b; c] => a - 2 * b + 5 * c | _ => 0 end) [7; 11; 13] = Some 50 /\
  make_index_sequence 4 [] = [0; 1; 2; 3]%nat.
Proof. vm_compute. split; reflexivity. Qed.
