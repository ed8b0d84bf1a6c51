(** The enumerators of softfloat.h:74-81 and the rounding each asks for; "odd" is supported only with SOFTFLOAT_ROUND_ODD
    (softfloat.h:68-71). *)
From Coq Require Import ZArith Bool.
From Verif Require Import Spec754Mode SoftFloatMode.
Open Scope Z_scope.

Definition enum_of (md : rmode) : Z :=
  match md with
  | NearEven => softfloat_round_near_even | MinMag => softfloat_round_minMag | Min => softfloat_round_min
  | Max => softfloat_round_max | NearMaxMag => softfloat_round_near_maxMag | Odd => softfloat_round_odd
  end.
Definition supported (md : rmode) (round_odd : bool) : Prop := md = Odd -> round_odd = true.
