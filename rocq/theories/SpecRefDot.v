(** Specification for the self-tests of the dot products (C70): what the tests need of their random numbers and what the four-term test checks. *)
From Coq Require Import ZArith QArith List.
From Verif Require Import Spec SpecDot Dot.
Import ListNotations.
Open Scope Z_scope.

(** A distribution that takes K words of the generator for each number, and whose numbers lie above zero. *)
Definition draws (K : nat) (draw : Z -> list Z -> option (Q * list Z)) : Prop :=
  forall T r, 0 < T -> (K <= length r)%nat -> exists u, draw T r = Some (u, skipn K r) /\ (0 < u)%Q /\ (u <= inject_Z T)%Q.
(** Words of a 32-bit generator, and the number of them that one value takes. *)
Definition words (ws : list Z) : Prop := Forall (fun w => 0 <= w < 2 ^ 32) ws.
Definition words_per_value (E F : Z) (K : nat) : nat := Z.to_nat ((E + 31) / 32) + Z.to_nat ((F + 31) / 32) + K.
(** The exponents of the given numbers differ by at most D. *)
Definition within (D : Z) (l : list (Z * Z)) : Prop := forall p q, In p l -> In q l -> snd p - snd q <= D.
(** Formats in which the reference of the four-term dot product is defined for all positive numbers. *)
Definition dot4_covers (E F : Z) : Prop := 1 <= E <= 10 /\ 1 <= F <= 52 /\ (F <= 5 \/ 2 * (2 ^ E - 1) <= 10 * (F + 2)).
(** The four-term dot product of eight operands is their exact dot product rounded down. *)
Definition right4 (E F : Z) (xs : list Z) : Prop :=
  match xs with
  | [a0; a1; a2; a3; b0; b1; b2; b3] => exists g, dot4_pos_rndd E F a0 a1 a2 a3 b0 b1 b2 b3 = Some g /\
      decode E F g = dot4_spec E F (decode E F a0) (decode E F a1) (decode E F a2) (decode E F a3) (decode E F b0) (decode E F b1) (decode E F b2) (decode E F b3)
  | _ => False
  end.
