(** What the text and word conversions of fw_uint are expected to mean, independent of the model. *)
From Coq Require Import ZArith Bool List Ascii String.
Import ListNotations.
Open Scope Z_scope.

(** The binary digits of a text, most significant first; underscores are separators. *)
Fixpoint bindigits (s : string) : option (list bool) :=
  match s with
  | EmptyString => Some []
  | String c s' =>
      if Ascii.eqb c "_" then bindigits s'
      else if Ascii.eqb c "0" then option_map (cons false) (bindigits s')
      else if Ascii.eqb c "1" then option_map (cons true) (bindigits s')
      else None
  end.
(** The number that a sequence of digits (most significant first) denotes in base b. *)
Definition number (b : Z) (ds : list Z) : Z := fold_left (fun acc d => acc * b + d) ds 0.
Definition bits_number (ds : list bool) : Z := number 2 (map Z.b2z ds).
(** The last character is an underscore. *)
Fixpoint ends_in_separator (s : string) : bool :=
  match s with
  | EmptyString => false
  | String c EmptyString => Ascii.eqb c "_"
  | String _ s' => ends_in_separator s'
  end.
(** Decimal digits, most significant first. *)
Fixpoint decdigits (s : string) : option (list Z) :=
  match s with
  | EmptyString => Some []
  | String c s' =>
      let n := Z.of_nat (nat_of_ascii c) in
      if (48 <=? n) && (n <=? 57) then option_map (cons (n - 48)) (decdigits s') else None
  end.
