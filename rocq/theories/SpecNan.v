(** Which NaN an operation returns: the rule of the x86 SSE instructions, as far as SoftFloat follows it (it differs in the
    choice between two NaNs). A word of E exponent and F fraction bits; nothing here refers to the model of the code. *)
From Coq Require Import ZArith Bool.
Open Scope Z_scope.

Section Words.
Context (E F : Z).
Definition negative (x : Z) : bool := Z.odd (x / 2 ^ (E + F)).
Definition exponent (x : Z) : Z := (x / 2 ^ F) mod 2 ^ E.
Definition fraction (x : Z) : Z := x mod 2 ^ F.
Definition is_nan (x : Z) : bool := (exponent x =? 2 ^ E - 1) && negb (fraction x =? 0).
Definition is_inf (x : Z) : bool := (exponent x =? 2 ^ E - 1) && (fraction x =? 0).
(** The first fraction bit marks a quiet NaN; the others are its payload. *)
Definition is_quiet (x : Z) : bool := is_nan x && (2 ^ (F - 1) <=? fraction x).
Definition payload (x : Z) : Z := x mod 2 ^ (F - 1).

(** The quiet NaN with a given sign and payload. *)
Definition quiet_nan (s : bool) (p : Z) : Z := Z.b2z s * 2 ^ (E + F) + (2 ^ E - 1) * 2 ^ F + 2 ^ (F - 1) + p.
(** The NaN itself, made quiet. *)
Definition quieted (x : Z) : Z := quiet_nan (negative x) (payload x).

(** What the functions return when the result is NaN. No operand is NaN: the default, negative and without payload. One is:
    that one, made quiet; but the sign of a quiet NaN without payload is lost against an infinity (it stays only if both are
    negative). Both are: the quiet one if only one is; otherwise the larger payload; with equal payloads the positive one. *)
Definition one_nan (x other : Z) : Z :=
  if is_inf other && is_quiet x && (payload x =? 0) then quiet_nan (negative x && negative other) 0 else quieted x.
Definition nan_word (a b : Z) : Z :=
  match is_nan a, is_nan b with
  | false, false => quiet_nan true 0
  | true, false => one_nan a b
  | false, true => one_nan b a
  | true, true =>
      if is_quiet a && negb (is_quiet b) then a
      else if is_quiet b && negb (is_quiet a) then b
      else if payload a <? payload b then quieted b
      else if payload b <? payload a then quieted a
      else quiet_nan (negative a && negative b) (payload a)
  end.
End Words.
