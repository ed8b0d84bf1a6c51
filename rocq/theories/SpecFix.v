(** The number a fixed-point value stands for. *)
From Coq Require Import ZArith QArith List.
Import ListNotations.

Definition fixq (e v : Z) : Q := (inject_Z v * (2 # 1) ^ e)%Q.
Fixpoint qprod (l : list Q) : Q := match l with [] => 1 | q :: r => (q * qprod r)%Q end.
Fixpoint qpow (x : Q) (n : nat) : Q := match n with O => 1 | S k => (x * qpow x k)%Q end.
(** c0 x^k + c1 x^(k+1) + c2 x^(k+2) + ... *)
Fixpoint qpoly (x : Q) (k : nat) (l : list Q) : Q := match l with [] => 0 | c :: r => (c * qpow x k + qpoly x (S k) r)%Q end.
