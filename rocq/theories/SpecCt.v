(** What the compile-time generators and vectors are specified against. *)
From Coq Require Import ZArith List.
Import ListNotations.
Open Scope Z_scope.

(** One step of the linear congruential generator modulo 2^32. *)
Definition step (A C x : Z) : Z := (A * x + C) mod 2 ^ 32.
(** One step of the multiplicative generator modulo M. *)
Definition pstep (A M x : Z) : Z := (A * x) mod M.

(** A list with position i replaced. *)
Fixpoint put {T} (i : nat) (w : T) (l : list T) : list T :=
  match l, i with
  | [], _ => []
  | _ :: l, O => w :: l
  | a :: l, S i => a :: put i w l
  end.
(** A list with positions i and j exchanged. *)
Definition exchange {T} (i j : nat) (l : list T) : list T :=
  match nth_error l i, nth_error l j with
  | Some a, Some b => put i b (put j a l)
  | _, _ => l
  end.
(** The shuffle in the comment at ct_vec_permute.hpp:17-22: for each j from the length down to 2,
    exchange element j-1 with the element named by the generator's upper half modulo j. *)
Fixpoint shuffle {T} (next : Z -> Z) (j : nat) (x : Z) (l : list T) : list T * Z :=
  match j with
  | O | S O => (l, x)
  | S m => shuffle next m (next x) (exchange m (Z.to_nat ((x / 2 ^ 16) mod Z.of_nat j)) l)
  end.

(** The taps of a generator of N bits with T taps a bit, from a seed: T successive shuffles of the
    rotation 1, 2, ..., N-1, 0, and one more shuffle of the rotation that orders the output. *)
Definition rotation (o n : nat) : list Z := map (fun i => Z.of_nat ((o + i) mod n)) (seq 0 n).
Fixpoint shuffles (next : Z -> Z) (T : nat) (x : Z) (l : list Z) : list (list Z) * Z :=
  match T with
  | O => ([], x)
  | S T =>
      let (p, x1) := shuffle next (length l) x l in
      let (ps, x2) := shuffles next T x1 p in (p :: ps, x2)
  end.
(** Whether state bit b is a tap of bit o of the next state: bit N-1-k of the next state is the XOR
    of the bits that the T shuffles name at position out[k]. *)
Definition taps (next : Z -> Z) (N T : nat) (x : Z) (o b : Z) : Prop :=
  let (ps, x1) := shuffles next T x (rotation 1 N) in
  let (out, _) := shuffle next N x1 (rotation 1 N) in
  In b (map (fun p => nth (Z.to_nat (nth (N - 1 - Z.to_nat o) out 0)) p 0) ps).
(** The XOR of the bits of s that a list names. *)
Definition xor_bits (s : Z) (l : list Z) : bool := fold_right xorb false (map (Z.testbit s) l).
