(** IEEE 754 binary64 numbers as fvals. SpecFlocq.v relates dbl_round to Flocq's rounding. *)
From Coq Require Import ZArith Bool.
From Verif Require Import Spec.
Open Scope Z_scope.

(** The doubles: 53 significant bits, exponents -1074 to 971 of the last bit; subnormals at the smallest exponent. *)
Definition dbl (v : fval) : Prop :=
  match v with
  | Num _ m e => (2 ^ 52 <= m < 2 ^ 53 /\ -1074 <= e <= 971) \/ (0 < m < 2 ^ 52 /\ e = -1074)
  | _ => True
  end.
(** m 2^e (m > 0) to the nearest double, ties to even. *)
Definition dbl_round (s : bool) (m e : Z) : fval :=
  let q := Z.max (Z.log2 m + e - 52) (-1074) in
  let r := rne_div (num2 m (e - q)) (den2 1 (e - q)) in
  let r' := if r =? 2 ^ 53 then 2 ^ 52 else r in
  let q' := if r =? 2 ^ 53 then q + 1 else q in
  if r =? 0 then Zero s else if 971 <? q' then Inf s else Num s r' q'.
(** Any value to the nearest double. *)
Definition to_dbl (v : fval) : fval := match v with Num s m e => dbl_round s m e | _ => v end.
