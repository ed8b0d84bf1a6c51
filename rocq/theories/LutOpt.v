(** Model of include/thls/tops/lut_opt.hpp: a linear generator whose taps are chosen at compile time. *)
From Coq Require Import ZArith Bool List.
From Verif Require Import Fw Lcg CtVec.
Import ListNotations.
Open Scope Z_scope.

(** lcg_mod_2y32_state::value and skip_by<.,1>: ct_rng_lcg_mod_2y32.hpp:73-78, 89-100. *)
Definition rng_value (s : Z) : Z := s.
Definition rng_next (s : Z) : option Z := lcg_skip s lcg_A lcg_C 1.

(** lut_opt_spec_make_perms<T,Rng,Vec>: the vectors named sources, outermost first, and rng:
    lut_opt.hpp:55-65, 84-87. *)
Fixpoint make_perms (T : nat) (g : Z) (v : vec cv) : option (list (vec cv) * Z) :=
  match T with
  | O => Some ([], g)
  | S T =>
      do p <- vpermute rng_value rng_next g v;
      let '(t, g1) := p in
      do r <- make_perms T g1 t;
      let '(ts, g2) := r in
      Some (t :: ts, g2)
  end.
Definition ic_value (c : cv) : option Z := match c with IC z => Some z | _ => None end.
(** get_source<D,I>: lut_opt.hpp:67-81. *)
Fixpoint get_source (ps : list (vec cv)) (D : nat) (I : Z) : option Z :=
  match ps with
  | [] => None
  | t :: ts => match D with O => do c <- vread I t; ic_value c | S D => get_source ts D I end
  end.
(** lut_opt_spec_get_src_vec<I,O,Perms,Acc>: lut_opt.hpp:90-104. *)
Fixpoint get_src_vec (I : Z) (n : nat) (ps : list (vec cv)) (acc : vec cv) : option (vec cv) :=
  match n with
  | O => Some acc
  | S m =>
      do nv <- get_source ps m I;
      do acc_n <- vwrite (Z.of_nat m) (IC nv) acc;
      get_src_vec I m ps acc_n
  end.

(** make_bit: lut_opt.hpp:125-152. *)
Definition make_bit_map (N s : Z) (off : Z) (v : cv) : option Z := do i <- ic_value v; get_bit N i s.
Definition make_bit_reduce (a b : Z) : option Z := Some (fxor 1 a b).
(** cat_bit::map: lut_opt.hpp:173-185; a width with a value. *)
Definition cat_bit_map (N : Z) (T : nat) (ps : list (vec cv)) (src_init : vec cv) (s : Z) (off : Z) (v : cv) : option (Z * Z) :=
  do i <- ic_value v;
  do raw_srcs <- get_src_vec i T ps src_init;
  do srcs <- vunique raw_srcs;
  do b <- vmap_reduce (make_bit_map N s) make_bit_reduce 0 srcs;
  Some (1, b).
(** cat_bit::reduce: lut_opt.hpp:187-192. *)
Definition cat_bit_reduce (a b : Z * Z) : option (Z * Z) :=
  let '(A, x) := a in let '(B, y) := b in Some (A + B, cat B x y).

(** The compile-time part of lut_opt_spec<N,T,S>: lut_opt.hpp:108-123. A negative T never ends. *)
Definition lut_opt_plan (N T S : Z) : option (list (vec cv) * vec cv * vec cv) :=
  do _ <- assert_ (0 <=? T);
  do cycle <- vrotation IC 1 N;
  do p <- make_perms (Z.to_nat T) S cycle;
  let '(perms, g) := p in
  do o <- vpermute rng_value rng_next g cycle;
  let '(output, _) := o in
  do src_init <- vcreate 64 T (IC 0);
  Some (perms, output, src_init).
(** lut_opt_spec<N,T,S>::step: lut_opt.hpp:199-204; the width of the result is checked against N. *)
Definition lut_opt_step (N T S s : Z) : option Z :=
  do pl <- lut_opt_plan N T S;
  let '(perms, output, src_init) := pl in
  do r <- vmap_reduce (cat_bit_map N (Z.to_nat T) perms src_init s) cat_bit_reduce 0 output;
  let '(w, x) := r in
  do _ <- assert_ (w =? N);
  Some x.
