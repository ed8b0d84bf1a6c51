(** C90: the class of a value, and stepping towards an infinity. *)
From Coq Require Import ZArith Bool Lia.
From Verif Require Import Fw FwLemmas Spec Flopoco Dbl ClassProofs Inst.
Open Scope Z_scope.

(** The class is the position of the value among NaN, -inf, negative numbers, zeros, positive numbers, +inf. *)
Theorem C90_class E F x : 1 <= E -> 1 <= F -> wf (E + F + 3) x ->
  get_equality_class E F x = match decode E F x with NaN => 0 | Inf true => 1 | Num true _ _ => 2 | Zero _ => 3 | Num false _ _ => 4 | Inf false => 5 end.
Proof. exact (class_value E F x). Qed.
Print Assumptions C90_class.
Example C90_class_at := C90_class 8 23 0x1BF800000 ltac:(hyp) ltac:(hyp) ltac:(hyp).
(** It orders values of any two formats: a lower class (but NaN) is a lower value, equal values share a class. *)
Theorem C90_class_order EX FX EY FY x y : 1 <= EX -> 1 <= FX -> 1 <= EY -> 1 <= FY -> wf (EX + FX + 3) x -> wf (EY + FY + 3) y ->
  (get_equality_class EX FX x = 0 <-> decode EX FX x = NaN) /\
  (decode EX FX x <> NaN -> get_equality_class EX FX x < get_equality_class EY FY y -> vcmp (decode EX FX x) (decode EY FY y) = Some Lt) /\
  (vcmp (decode EX FX x) (decode EY FY y) = Some Eq -> get_equality_class EX FX x = get_equality_class EY FY y) /\
  (vcmp (decode EX FX x) (decode EY FY y) = Some Lt -> get_equality_class EX FX x <= get_equality_class EY FY y).
Proof. exact (class_order EX FX EY FY x y). Qed.
Print Assumptions C90_class_order.
Example C90_class_order_at := C90_class_order 8 23 5 10 0x1BF800000 0x14248 ltac:(hyp) ltac:(hyp) ltac:(hyp) ltac:(hyp) ltac:(hyp) ltac:(hyp).
Example C90_class_ex : get_equality_class 8 23 0x1BF800000 = 2 /\ get_equality_class 5 10 0x14248 = 4 /\ get_equality_class 3 2 0 = 3 /\
  get_equality_class 3 2 32 = 3 /\ get_equality_class 3 2 128 = 5 /\ get_equality_class 3 2 160 = 1 /\ get_equality_class 3 2 200 = 0.
Proof. decide_example. Qed.
(** nextafter towards +inf is the least datum above x; *)
Theorem C90_nextafter_up E F x : 1 <= E -> 1 <= F -> wf (E + F + 3) x ->
  exists r, fl_nextafter E F x (Inf false) = Some r /\ wf (E + F + 3) r /\
    (decode E F x = NaN -> decode E F r = NaN) /\ (decode E F x = Inf false -> decode E F r = Inf false) /\
    (decode E F x <> NaN -> decode E F x <> Inf false -> below (decode E F x) (decode E F r) /\
       forall z, wf (E + F + 3) z -> ~ (below (decode E F x) (decode E F z) /\ below (decode E F z) (decode E F r))).
Proof. exact (nextafter_up E F x). Qed.
Print Assumptions C90_nextafter_up.
Example C90_nextafter_up_at := C90_nextafter_up 8 23 0x1BF800000 ltac:(hyp) ltac:(hyp) ltac:(hyp).
(** towards -inf it is the greatest datum below x, but for the values of C15; *)
Theorem C90_nextafter_down_partial E F x : 1 <= E -> 1 <= F -> wf (E + F + 3) x ->
  ~ ((exists e, decode E F x = Num false (2 ^ F) e /\ e <> emin E - F) \/ (exists e, decode E F x = Num true (2 ^ (F + 1) - 1) e /\ e <> emax E - F)) ->
  exists r, fl_nextafter E F x (Inf true) = Some r /\ wf (E + F + 3) r /\
    (decode E F x = NaN -> decode E F r = NaN) /\ (decode E F x = Inf true -> decode E F r = Inf true) /\
    (decode E F x <> NaN -> decode E F x <> Inf true -> below (decode E F r) (decode E F x) /\
       forall z, wf (E + F + 3) z -> ~ (below (decode E F r) (decode E F z) /\ below (decode E F z) (decode E F x))).
Proof. exact (nextafter_down E F x). Qed.
Print Assumptions C90_nextafter_down_partial.
Example C90_nextafter_down_at := C90_nextafter_down_partial 8 23 0x1BF800000 ltac:(hyp) ltac:(hyp) ltac:(hyp)
  ltac:(intros [[e [H _]]|[e [H _]]]; vm_compute in H; discriminate H).
(** those it does miss, each of them; *)
Theorem C90_nextafter_down_refuted E F x e : 1 <= E -> 1 <= F -> wf (E + F + 3) x ->
  (decode E F x = Num false (2 ^ F) e /\ e <> emin E - F) \/ (decode E F x = Num true (2 ^ (F + 1) - 1) e /\ e <> emax E - F) ->
  exists r z, fl_nextafter E F x (Inf true) = Some r /\ wf (E + F + 3) z /\ below (decode E F r) (decode E F z) /\ below (decode E F z) (decode E F x).
Proof. exact (nextafter_down_bad E F x e). Qed.
Print Assumptions C90_nextafter_down_refuted.
Example C90_nextafter_down_refuted_at := C90_nextafter_down_refuted 8 23 0x13F800000 (-23) ltac:(hyp) ltac:(hyp) ltac:(hyp) ltac:(left; hyp).
(** and towards any other target it throws. *)
Theorem C90_nextafter_throws E F x y : fl_nextafter E F x y = None <-> forall s, y <> Inf s.
Proof. exact (nextafter_throws E F x y). Qed.
Print Assumptions C90_nextafter_throws.
Example C90_nextafter_throws_at : fl_nextafter 8 23 0x13F800000 (Num false 1 0) = None /\ fl_nextafter 8 23 0x13F800000 (Inf false) = Some 0x13F800001.
Proof. decide_example. Qed.
(** resize keeps the low bits. *)
Theorem C33_resize_any_width W B x : 0 <= W -> 0 <= B -> 0 <= x < 2 ^ W -> resize W B x = Some (x mod 2 ^ B).
Proof. exact (resize_ok W B x). Qed.
Print Assumptions C33_resize_any_width.
Example C33_resize_any_width_at := C33_resize_any_width 12 8 0xABC ltac:(hyp) ltac:(hyp) ltac:(hyp).
