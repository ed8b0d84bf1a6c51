(** Model of the arithmetic cores that src/fp_ops/mp/fp/primitive generates: the .cpp templates there, instantiated by its
    CMakeLists.txt. A core takes words, wraps them in fp_flopoco (a constructor from bits, no check), calls one function and
    returns the bits of the result. The pragmas are not modelled. The templates fp_mul_flopoco*, fp_div_flopoco* and
    fp_div_flopoco_v2* include a header that declares mul and div without defining them (the definitions are in
    fp_flopoco_primitives.hpp:24-40), so as they stand they compile but do not link; they are modelled with those definitions
    added, and version 2 with div_v2, the only function its header defines. fp_div_flopoco_v3 does not compile. The native
    cores are the C++ operators on half, float and double; the softfloat cores are f32_add, f32_mul and f32_div (C58-C60). *)
From Coq Require Import ZArith List Bool.
From Verif Require Import Fw Spec Flopoco Mul AddSingle AddSingleAlt AddDual Div Ieee.
Import ListNotations.
Open Scope Z_scope.

(** CMakeLists.txt:50-54: foreach(E RANGE 4 13), foreach(F RANGE 4 112). *)
Definition generated (E F : Z) : Prop := 4 <= E <= 13 /\ 4 <= F <= 112.
(** CMakeLists.txt:67-73: the second operand of the cores "ratio", (E1,F1,F2) with E2 = E1. *)
Definition ratio_instances : list (Z * Z * Z) :=
  map (fun i => (8, 23, 3 + 2 * Z.of_nat i)) (seq 0 21) ++ map (fun i => (11, 52, 4 + 4 * Z.of_nat i)) (seq 0 26).

(** fp_mul_flopoco_EEE_FFF.cpp:8-18. *)
Definition core_mul (E F a b : Z) : option Z := mul E F E F F a b.
(** fp_add_flopoco_single_EEE_FFF.cpp and its versions 2, 3, 4, lines 8-18 each. *)
Definition core_add_single (E F a b : Z) : option Z := add_single E F E F E F a b.
Definition core_add_single_v2 (E F a b : Z) : option Z := add_single_v2 E F E F E F a b.
Definition core_add_single_v3 (u : Z * Z * Z * Z) (E F a b : Z) : option Z := add_single_v3 u E F E F E F a b.
Definition core_add_single_v4 (E F a b : Z) : option Z := add_single_v4 E F E F E F a b.
(** fp_add_flopoco_dual_EEE_FFF.cpp:8-18. *)
Definition core_add_dual (E F a b : Z) : option Z := add_dual E F E F E F a b.
(** fp_div_flopoco_EEE_FFF.cpp and fp_div_flopoco_v2_EEE_FFF.cpp, lines 8-18. *)
Definition core_div (E F a b : Z) : option Z := div E F E F E F a b.
Definition core_div_v2 (E F a b : Z) : option Z := div_v2 E F E F E F a b.
(** fp_mul_flopoco_ratio_EEE1_FFF1_EEE2_FFF2.cpp:11-22 and fp_add_flopoco_single_ratio_*.cpp:11-22, with E2 = E1. *)
Definition core_mul_ratio (E F1 F2 a b : Z) : option Z := mul E F1 E F1 F2 a b.
Definition core_add_ratio (E F1 F2 a b : Z) : option Z := add_single E F1 E F1 E F2 a b.
(** fp_{add,mul,div}_ieee_on_flopoco_EEE_FFF.cpp:10-18. *)
Definition core_ieee_add (E F a b : Z) : option Z := w_add E F a b.
Definition core_ieee_mul (E F a b : Z) : option Z := w_mul E F a b.
Definition core_ieee_div (E F a b : Z) : option Z := w_div E F a b.
