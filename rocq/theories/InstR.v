(** The same for hypotheses on real numbers. *)
From Coq Require Import ZArith Reals Lra.
From Flocq Require Import Core.
From Verif Require Import Fw Spec Spec754 SpecFlocq SpecErrFree SpecSf754 Inst.
Open Scope Z_scope.

Ltac hypr :=
  cbv zeta; unfold real754, real;
  repeat match goal with
    | |- context [decode ?E ?F ?x] => let v := eval vm_compute in (decode E F x) in replace (decode E F x) with v by (vm_compute; reflexivity)
    | |- context [decode_ieee ?E ?F ?x] => let v := eval vm_compute in (decode_ieee E F x) in replace (decode_ieee E F x) with v by (vm_compute; reflexivity)
    | |- context [decode754 ?E ?F ?x] => let v := eval vm_compute in (decode754 E F x) in replace (decode754 E F x) with v by (vm_compute; reflexivity)
    | |- context [emin ?E + ?F] => let v := eval vm_compute in (emin E + F) in change (emin E + F) with v
    | |- context [emin ?E] => let v := eval vm_compute in (emin E) in change (emin E) with v
    | |- context [emax ?E + ?F] => let v := eval vm_compute in (emax E + F) in change (emax E + F) with v
    end;
  cbn [rv]; unfold bpow, Rabs; cbn [Z.pow_pos Pos.iter radix_val radix2 Z.mul Pos.mul]; cbn -[IZR];
  repeat (match goal with |- context [Rcase_abs ?x] => destruct (Rcase_abs x) end); lra.
Ltac hypx := match goal with
  | |- context [Rle _ _] => hypr
  | |- context [Rlt _ _] => hypr
  | |- context [@eq R _ _] => hypr
  | _ => hyp
  end.
