(** Properties of the random test source (C69). The draw of a number between zero and the sum of the weights is a parameter: the
    theorems hold for whatever number it yields. *)
From Coq Require Import ZArith QArith List Lia.
From Verif Require Import Fw FwWord Spec SpecFw Source SpecSource SourceProofs.
Import ListNotations.
Open Scope Z_scope.

Definition draw_ex (u : Q) (T : Z) (r : list Z) : option (Q * list Z) := Some (u, r).

(** Every drawn number above zero yields a value whose class has a positive weight, and the class is the one whose interval of
    weights holds the number. The exponent and fraction fields are the top bits of the generator's words. *)
Theorem C69_classes draw E F p we wfr r1 u w rest : (forall c, 0 <= p c) -> 1 <= E <= 128 -> 1 <= F <= 128 -> enough E we -> enough F wfr -> 0 <= w < 2 ^ 32 ->
  draw (weights p) r1 = Some (u, w :: rest) -> (0 < u)%Q -> (u <= inject_Z (weights p))%Q ->
  exists x r, source_next draw E F p (we ++ wfr ++ r1) = Some (x, r) /\ wf (E + F + 3) x /\ x mod 2 ^ (E + F) = top_bits E we * 2 ^ F + top_bits F wfr /\
    0 < p (value_class (decode E F x)) /\
    forall c, value_class (decode E F x) = c <-> (inject_Z (weight_before p c) < u)%Q /\ (u <= inject_Z (weight_before p c + p c))%Q.
Proof. exact (next_ok draw E F p we wfr r1 u w rest). Qed.
Print Assumptions C69_classes.
Example C69_classes_ex :
  option_map (fun r => decode 5 4 (fst r)) (source_next (draw_ex (inject_Z 40)) 5 4 source_init [2 ^ 31; 2 ^ 30; 7]) = Some (Num false 20 (-3)) /\
  option_map (fun r => decode 5 4 (fst r)) (source_next (draw_ex (inject_Z 130)) 5 4 source_init [2 ^ 31; 2 ^ 30; 7]) = Some (Num true 20 (-3)) /\
  weights source_init = 133 /\ enough 5 [2 ^ 31] /\ top_bits 5 [2 ^ 31] = 16.
Proof. repeat split; try reflexivity. repeat constructor; lia. Qed.

(** A class that was disabled is not delivered, by any number above zero. *)
Theorem C69_disabled_partial draw E F ds we wfr r1 u w rest : let p := fold_right disable_class source_init ds in
  1 <= E <= 128 -> 1 <= F <= 128 -> enough E we -> enough F wfr -> 0 <= w < 2 ^ 32 -> draw (weights p) r1 = Some (u, w :: rest) -> (0 < u)%Q -> (u <= inject_Z (weights p))%Q ->
  exists x r, source_next draw E F p (we ++ wfr ++ r1) = Some (x, r) /\ wf (E + F + 3) x /\ ~ In (value_class (decode E F x)) ds.
Proof. exact (next_enabled draw E F ds we wfr r1 u w rest). Qed.
Print Assumptions C69_disabled_partial.
Example C69_disabled_ex : let p := fold_right disable_class source_init [ClassNaN; NegInf; PosInf; NegNormal; NegZero; PosZero] in
  weights p = 64 /\ option_map (fun r => decode 5 4 (fst r)) (source_next (draw_ex (1 # 100)) 5 4 p [2 ^ 31; 2 ^ 30; 7]) = Some (Num false 20 (-3)).
Proof. vm_compute. split; reflexivity. Qed.

(** But the number zero always yields a positive zero, even when positive zeros are disabled. *)
Theorem C69_disabled_refuted draw E F p we wfr r1 w rest : (forall c, 0 <= p c) -> 1 <= E <= 128 -> 1 <= F <= 128 -> enough E we -> enough F wfr -> 0 <= w < 2 ^ 32 ->
  draw (weights p) r1 = Some (0%Q, w :: rest) -> exists x r, source_next draw E F p (we ++ wfr ++ r1) = Some (x, r) /\ decode E F x = Zero false.
Proof. exact (next_zero draw E F p we wfr r1 w rest). Qed.
Print Assumptions C69_disabled_refuted.
Example C69_disabled_refuted_ex : let p := disable_class PosZero source_init in
  p PosZero = 0 /\ option_map (fun r => decode 5 4 (fst r)) (source_next (draw_ex 0) 5 4 p [2 ^ 31; 2 ^ 30; 7]) = Some (Zero false).
Proof. vm_compute. split; reflexivity. Qed.

(** Every word of a class with a positive weight is delivered, for some words of the generator. *)
Theorem C69_reaches_all E F p x : (forall c, 0 <= p c) -> 1 <= E <= 128 -> 1 <= F <= 128 -> wf (E + F + 3) x -> 0 < p (value_class (decode E F x)) ->
  exists u ws, (0 < u)%Q /\ (u <= inject_Z (weights p))%Q /\ Forall (fun w => 0 <= w < 2 ^ 32) ws /\
    forall draw, (forall T r, draw T r = Some (u, r)) -> exists r, source_next draw E F p ws = Some (x, r).
Proof. exact (next_onto E F p x). Qed.
Print Assumptions C69_reaches_all.
Example C69_reaches_ex : source_next (draw_ex (inject_Z 133)) 5 4 source_init [31 * 2 ^ 27; 15 * 2 ^ 28; 2 ^ 31] = Some (2 ^ 12 - 1, []).
Proof. vm_compute. reflexivity. Qed.
