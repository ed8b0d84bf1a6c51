(** What primitives.h documents, in integers. *)
From Coq Require Import ZArith.
Open Scope Z_scope.

Definition uint (W x : Z) : Prop := 0 <= x < 2 ^ W.
(** The integer formed by concatenating two 64-bit words. *)
Definition cat (hi lo : Z) : Z := hi * 2 ^ 64 + lo.
Definition cat2 (z : Z * Z) : Z := cat (fst z) (snd z).
(** The integer whose 32-bit words, least significant first, are these. *)
Definition words4 (z : Z * Z * Z * Z) : Z :=
  let '(w0, w1, w2, w3) := z in w0 + 2 ^ 32 * w1 + 2 ^ 64 * w2 + 2 ^ 96 * w3.
(** n is the number of zero bits before the most significant one bit of a, W if there is none. *)
Definition leading_zeros (W a n : Z) : Prop :=
  (a = 0 /\ n = W) \/ (0 <= n < W /\ 2 ^ (W - 1 - n) <= a < 2 ^ (W - n)).
(** x shifted right by k; the least significant bit is set to one if a one was shifted off. *)
Definition shift_right_jam (x k : Z) : Z :=
  let q := x / 2 ^ k in
  if x mod 2 ^ k =? 0 then q else if Z.odd q then q else q + 1.
(** k bits of x are shifted off. The last of them is the most significant bit of the 64-bit word e; the other 63 bits of e
    are all zero exactly if all the other bits shifted off are. *)
Definition extra_field (x k e : Z) : Prop :=
  uint 64 e /\ Z.testbit e 63 = Z.testbit x (k - 1) /\ (e mod 2 ^ 63 = 0 <-> x mod 2 ^ (k - 1) = 0).
