(** Flush to zero: the vocabulary of C78. Words of an IEEE interchange format with E exponent and F fraction bits. *)
From Coq Require Import ZArith Bool.
Open Scope Z_scope.

Definition expo_field (E F x : Z) : Z := (x / 2 ^ F) mod 2 ^ E.
Definition frac_field (F x : Z) : Z := x mod 2 ^ F.
Definition nan_word (E F x : Z) : bool := (expo_field E F x =? 2 ^ E - 1) && negb (frac_field F x =? 0).
Definition subnormal (E F x : Z) : bool := (expo_field E F x =? 0) && negb (frac_field F x =? 0).
(** Plus or minus the smallest normal number. *)
Definition smallest_normal (E F x : Z) : bool := (expo_field E F x =? 1) && (frac_field F x =? 0).
(** The zero with the sign of x. *)
Definition signed_zero (E F x : Z) : Z := x / 2 ^ (E + F) * 2 ^ (E + F).
(** A subnormal operand is read as zero. *)
Definition flushed (E F x : Z) : Z := if subnormal E F x then signed_zero E F x else x.
(** What a result r looks like where IEEE arithmetic on the same operands gives s: the same word, except that every NaN
    is a NaN, a subnormal number is flushed to the zero of its sign, and the smallest normal number may be. *)
Definition ftz_result (E F s r : Z) : Prop :=
  if nan_word E F s then nan_word E F r = true
  else if subnormal E F s then r = signed_zero E F s
  else if smallest_normal E F s then r = s \/ r = signed_zero E F s
  else r = s.
