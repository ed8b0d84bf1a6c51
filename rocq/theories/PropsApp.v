(** C63, C64: the example programs and the benchmark kernels. Values are those of Spec.v and Spec754.v, dot products and
    matrices those of SpecApp.v, real values rv of SpecFlocq.v. The theorems with error bounds depend on the axioms of the
    standard library's real numbers, and on no others. *)
From Coq Require Import ZArith List Bool Lia Reals.
From Flocq Require Import Core.
From Verif Require Import Fw Spec Spec754 SpecFlocq SpecApp Flopoco Ieee Mul AddSingle AddDual AddDualProofs SoftFloat App AppProofs3 AppProofs5 AppProofs6 AppProofs7 AppProofs8 AppProofs9 Inst.
Import ListNotations.
Open Scope Z_scope.

(** The sum example never stops at an assertion, and returns the sum of the inputs (denormals read as zeros) accumulated
    in order with one rounding per addition, converted back to IEEE 754. *)
Theorem C63_sum_value data : Forall (wf 32) data ->
  exists r, sum_example data = Some r /\ wf 32 r /\
  decode754 8 23 r = convert_gen (round_ieee 8 23) (sum_spec 8 23 (map (decode_ieee 8 23) data)).
Proof. exact (sum_example_ok data). Qed.
Print Assumptions C63_sum_value.
Example C63_sum_value_at := C63_sum_value [0x40490FDB; 0x3F800000] ltac:(hyp).

(** Its error against the exact sum of the IEEE values, denormals included, and a bound below which it does not overflow. *)
Theorem C63_sum_error data r : Forall (wf 32) data -> sum_example data = Some r ->
  let u := bpow radix2 (-24) in let n := length data in let xs := map (fun x => rv (decode754 8 23 x)) data in
  (finite_v (decode754 8 23 r) ->
   (Rabs (rv (decode754 8 23 r) - Rsum xs) <= ((1 + u) ^ Nat.pred n - 1) * Rabssum xs + (2 * INR n + 1) * (1 + u) ^ n * bpow radix2 (-126))%R) /\
  (Forall finite_v (map (decode754 8 23) data) ->
   ((1 + u) ^ n * (Rabssum xs + INR n * bpow radix2 (-127)) < bpow radix2 128)%R -> finite_v (decode754 8 23 r)).
Proof. exact (sum_example_err data r). Qed.
Print Assumptions C63_sum_error.
(** 1.5 + 2^24 + 1 + 2^-149 gives 2^24 + 4. *)
Example C63_sum_instance : let data := [0x3FC00000; 0x4B800000; 0x3F800000; 1] in
  Forall (wf 32) data /\ sum_example data = Some 0x4B800002 /\ finite_v (decode754 8 23 0x4B800002) /\ decode754 8 23 0x4B800002 = Num false 8388610 1 /\
  Forall finite_v (map (decode754 8 23) data).
Proof. cbv zeta. split; [repeat constructor; decide_example|]. split; [vm_compute; reflexivity|]. split; [exact I|]. split; [vm_compute; reflexivity|]. cbn [map]. repeat constructor; vm_compute; exact I. Qed.

(** The dot product example: its value, its error against the exact dot product of the inputs (denormals read as zeros),
    and a bound below which it does not overflow. *)
Theorem C63_dot_product abs : Forall (fun ab => wf 32 (fst ab) /\ wf 32 (snd ab)) abs ->
  exists r, dot_example abs = Some r /\ wf 32 r /\
  decode754 8 23 r = convert_gen (round_ieee 8 23) (dot_spec 8 23 (map (fun ab => (decode_ieee 8 23 (fst ab), decode_ieee 8 23 (snd ab))) abs)) /\
  let u := bpow radix2 (-24) in let n := length abs in
  let ms := map (fun ab => rv (decode_ieee 8 23 (fst ab)) * rv (decode_ieee 8 23 (snd ab)))%R abs in
  (finite_v (decode754 8 23 r) ->
   (Rabs (rv (decode754 8 23 r) - Rsum ms) <= ((1 + u) ^ n - 1) * Rabssum ms + (INR n + 1) * (1 + u) ^ n * bpow radix2 (-126))%R) /\
  (Forall (fun ab => finite_v (decode_ieee 8 23 (fst ab)) /\ finite_v (decode_ieee 8 23 (snd ab))) abs ->
   ((1 + u) ^ S n * (Rabssum ms + INR n * bpow radix2 (-126)) < bpow radix2 128)%R -> finite_v (decode754 8 23 r)).
Proof. exact (dot_example_ok abs). Qed.
Print Assumptions C63_dot_product.
(** 1.5*2 - 1*0.5 + 2^-149*1 = 2.5. *)
Example C63_dot_instance : let abs := [(0x3FC00000, 0x40000000); (0xBF800000, 0x3F000000); (1, 0x3F800000)] in
  Forall (fun ab => wf 32 (fst ab) /\ wf 32 (snd ab)) abs /\ dot_example abs = Some 0x40200000 /\ decode754 8 23 0x40200000 = Num false 10485760 (-22).
Proof. cbv zeta. split; [repeat constructor; decide_example|]. split; vm_compute; reflexivity. Qed.

(** The single-path adder, wrong in rare cases (C03), is always within one unit in the last place: its relative error is at
    most 2^-F, twice that of correct rounding, apart from underflow; it overflows only when the sum is out of range. *)
Theorem C03_add_single_error E F x y : add_ok_width E F -> wf (E + F + 3) x -> wf (E + F + 3) y ->
  exists r, add_single E F E F E F x y = Some r /\ wf (E + F + 3) r /\
  let s := (rv (decode E F x) + rv (decode E F y))%R in
  (finite_v (decode E F r) -> finite_v (decode E F x) /\ finite_v (decode E F y) /\
     (Rabs (rv (decode E F r) - s) <= bpow radix2 (- F) * Rabs s + bpow radix2 (emin E))%R) /\
  (finite_v (decode E F x) -> finite_v (decode E F y) -> ((1 + bpow radix2 (- F)) * Rabs s < bpow radix2 (emax E + 1))%R -> finite_v (decode E F r)).
Proof. exact (single_err E F x y). Qed.
Print Assumptions C03_add_single_error.
Example C03_error_instance : add_ok_width 8 23 /\ wf 34 (2 ^ 32 + 253 * 2 ^ 23) /\ wf 34 (2 ^ 32 + 2 ^ 31 + 228 * 2 ^ 23 + 1) /\
  finite_v (decode 8 23 (2 ^ 32 + 253 * 2 ^ 23)) /\ finite_v (decode 8 23 (2 ^ 32 + 2 ^ 31 + 228 * 2 ^ 23 + 1)).
Proof. decide_example. Qed.

(** Matrix multiplication with the full-width traits, any size, any formats with one exponent width: each entry is the
    dot product of a row and a column accumulated in order, with its error and a bound below which it does not overflow. *)
Theorem C64_mat_mul_full E F LF RF N left right : dual_ok_width E F -> 1 <= LF -> 1 <= RF -> F < LF + RF + 1 ->
  (forall i j, (i < N)%nat -> (j < N)%nat -> wf (E + LF + 3) (left i j) /\ wf (E + RF + 3) (right i j)) ->
  exists m, mat_mul (full_add_mul E F E LF E RF) fl_default N left right = Some m /\
  entries N m (fun r c z => wf (E + F + 3) z /\
    let xys := row_col N (fun i j => decode E LF (left i j)) (fun i j => decode E RF (right i j)) r c in
    let u := bpow radix2 (- (F + 1)) in let eta := bpow radix2 (emin E) in
    decode E F z = dot_spec E F xys /\
    (finite_v (decode E F z) -> (Rabs (rv (decode E F z) - Rdot xys) <= ((1 + u) ^ N - 1) * Rabsdot xys + 2 * INR N * (1 + u) ^ N * eta)%R) /\
    (Forall (fun xy => finite_v (fst xy) /\ finite_v (snd xy)) xys ->
      ((1 + u) ^ S N * (Rabsdot xys + 2 * INR N * eta) < bpow radix2 (emax E + 1))%R -> finite_v (decode E F z))).
Proof. exact (mat_mul_full E F LF RF N left right). Qed.
Print Assumptions C64_mat_mul_full.
(** [[1,2],[-2,1.5]] squared is [[-3,5],[-5,-1.75]]. *)
Definition m2 (i j : nat) : Z := nth j (nth i [[2 ^ 32 + 127 * 2 ^ 23; 2 ^ 32 + 128 * 2 ^ 23]; [2 ^ 32 + 2 ^ 31 + 128 * 2 ^ 23; 2 ^ 32 + 127 * 2 ^ 23 + 2 ^ 22]] []) 0.
Lemma m2_wf i j : (i < 2)%nat -> (j < 2)%nat -> wf 34 (m2 i j) /\ wf 34 (m2 i j).
Proof. intros Hi Hj. destruct i as [|[|i]]; [| |lia]; (destruct j as [|[|j]]; [| |lia]); decide_example. Qed.
Example C64_full_instance : dual_ok_width 8 23 /\ 23 < 23 + 23 + 1 /\ (forall i j, (i < 2)%nat -> (j < 2)%nat -> wf 34 (m2 i j) /\ wf 34 (m2 i j)) /\
  exists a b c d, mat_mul (full_add_mul 8 23 8 23 8 23) fl_default 2 m2 m2 = Some [[a; b]; [c; d]] /\
  decode 8 23 a = Num true 12582912 (-22) /\ decode 8 23 b = Num false 10485760 (-21) /\ decode 8 23 c = Num true 10485760 (-21) /\ decode 8 23 d = Num true 14680064 (-23).
Proof.
  split; [exact w823|]. split; [lia|]. split; [exact m2_wf|]. exists 7520387072, 5379194880, 7526678528, 7514095616.
  split; [vm_compute; reflexivity|]. repeat (split; [vm_compute; reflexivity|]). vm_compute; reflexivity.
Qed.

(** The configurations with a wider accumulator exponent cannot run: every call stops at an assertion. *)
Theorem C64_wider_exponent_refuted AE AF LE LF RE RF N left right : LE <> AE -> 1 <= LF -> 1 <= RF ->
  (LE < AE \/ AF < LF + RF + 1 -> mat_mul (full_add_mul AE AF LE LF RE RF) fl_default (S N) left right = None) /\
  mat_mul (round_add_mul AE AF LE LF RE RF) fl_default (S N) left right = None.
Proof. intros H1 H2 H3. split; [intros H4; exact (full_mismatch AE AF LE LF RE RF N left right H1 H4)|exact (round_mismatch AE AF LE LF RE RF N left right H1 H2 H3)]. Qed.
Print Assumptions C64_wider_exponent_refuted.
(** hls24_16_16, hls32_16_16, hls64_32_32 and hls64_16_16 of sweep_types.hpp. *)
Example C64_wider_instance : (5 < 7 /\ 16 < 10 + 10 + 1) /\ 5 < 8 /\ 8 < 11 /\ 5 < 11.
Proof. decide_example. Qed.

(** Matrix multiplication with the rounding traits (single-path adder). *)
Theorem C64_mat_mul_round E F LF RF N left right : add_ok_width E F -> 1 <= LF <= F -> 1 <= RF <= F ->
  (forall i j, (i < N)%nat -> (j < N)%nat -> wf (E + LF + 3) (left i j) /\ wf (E + RF + 3) (right i j)) ->
  exists m, mat_mul (round_add_mul E F E LF E RF) fl_default N left right = Some m /\
  entries N m (fun r c z => wf (E + F + 3) z /\
    let xys := row_col N (fun i j => decode E LF (left i j)) (fun i j => decode E RF (right i j)) r c in
    let d := bpow radix2 (- F) in let d' := bpow radix2 (- (Z.max LF RF + 1)) in
    (finite_v (decode E F z) -> (Rabs (rv (decode E F z) - Rdot xys) <= ((1 + d) ^ N * (1 + d') - 1) * Rabsdot xys + INR N * (1 + d) ^ S N * bpow radix2 (emin E + 1))%R)).
Proof. exact (mat_mul_round E F LF RF N left right). Qed.
Print Assumptions C64_mat_mul_round.
Example C64_round_instance : add_ok_width 8 23 /\ (forall i j, (i < 2)%nat -> (j < 2)%nat -> wf 34 (m2 i j) /\ wf 34 (m2 i j)) /\
  exists a b c d, mat_mul (round_add_mul 8 23 8 23 8 23) fl_default 2 m2 m2 = Some [[a; b]; [c; d]] /\ decode 8 23 b = Num false 10485760 (-21) /\ finite_v (decode 8 23 b).
Proof. split; [decide_example|]. split; [exact m2_wf|]. exists 7520387072, 5379194880, 7526678528, 7514095616. split; [vm_compute; reflexivity|]. split; [vm_compute; reflexivity|vm_compute; exact I]. Qed.

(** Matrix multiplication with SoftFloat: IEEE 754 arithmetic, for every width U of uint_fast32_t. *)
Theorem C64_mat_mul_softfloat U N left right : 32 <= U ->
  (forall i j, (i < N)%nat -> (j < N)%nat -> 0 <= left i j < 2 ^ 32 /\ 0 <= right i j < 2 ^ 32) ->
  exists m, mat_mul (soft_add_mul U) 0 N left right = Some m /\
  entries N m (fun r c z => 0 <= z < 2 ^ 32 /\
    let xys := row_col N (fun i j => decode754 8 23 (left i j)) (fun i j => decode754 8 23 (right i j)) r c in
    let u := bpow radix2 (-24) in
    decode754 8 23 z = dot754 8 23 xys /\
    (finite_v (decode754 8 23 z) -> (Rabs (rv (decode754 8 23 z) - Rdot xys) <= ((1 + u) ^ S N - 1) * Rabsdot xys + INR N * (1 + u) ^ S N * bpow radix2 (-149))%R)).
Proof. exact (mat_mul_soft U N left right). Qed.
Print Assumptions C64_mat_mul_softfloat.
Definition s2 (i j : nat) : Z := nth j (nth i [[0x3F800000; 0x40000000]; [0xC0000000; 0x3FC00000]] []) 0.
Example C64_softfloat_instance : (forall i j, (i < 2)%nat -> (j < 2)%nat -> 0 <= s2 i j < 2 ^ 32 /\ 0 <= s2 i j < 2 ^ 32) /\
  mat_mul (soft_add_mul 64) 0 2 s2 s2 = Some [[0xC0400000; 0x40A00000]; [0xC0A00000; 0xBFE00000]].
Proof.
  split; [|vm_compute; reflexivity]. intros i j Hi Hj. destruct i as [|[|i]]; [| |lia]; (destruct j as [|[|j]]; [| |lia]); decide_example.
Qed.

(** The four-term product sum, with each of the three traits. *)
Theorem C64_dot_par4_full E F LF RF x0 y0 x1 y1 x2 y2 x3 y3 : dual_ok_width E F -> 1 <= LF -> 1 <= RF -> F < LF + RF + 1 ->
  wf (E + LF + 3) x0 /\ wf (E + RF + 3) y0 -> wf (E + LF + 3) x1 /\ wf (E + RF + 3) y1 ->
  wf (E + LF + 3) x2 /\ wf (E + RF + 3) y2 -> wf (E + LF + 3) x3 /\ wf (E + RF + 3) y3 ->
  exists z, dot_par4 (full_dot2 E F E LF E RF) (full_add E F) x0 y0 x1 y1 x2 y2 x3 y3 = Some z /\ wf (E + F + 3) z /\
  decode E F z = par4 (add_spec E F) (mul_spec E F) (decode E LF x0) (decode E RF y0) (decode E LF x1) (decode E RF y1) (decode E LF x2) (decode E RF y2) (decode E LF x3) (decode E RF y3) /\
  let u := bpow radix2 (- (F + 1)) in
  (finite_v (decode E F z) ->
   (Rabs (rv (decode E F z) - Rdot4 (decode E LF x0) (decode E RF y0) (decode E LF x1) (decode E RF y1) (decode E LF x2) (decode E RF y2) (decode E LF x3) (decode E RF y3)) <=
     ((1 + u) ^ 3 - 1) * Rabsdot4 (decode E LF x0) (decode E RF y0) (decode E LF x1) (decode E RF y1) (decode E LF x2) (decode E RF y2) (decode E LF x3) (decode E RF y3) + 7 * (1 + u) ^ 2 * bpow radix2 (emin E))%R).
Proof. exact (par4_full E F LF RF x0 y0 x1 y1 x2 y2 x3 y3). Qed.
Print Assumptions C64_dot_par4_full.
Example C64_dot_par4_full_at := C64_dot_par4_full 8 23 23 23 0x13F800000 0x140490FDB 0x1BF800000 0x140490FDB 0x140490FDB 0x140490FDB 0x13F800000 0x140000000 ltac:(hyp) ltac:(hyp) ltac:(hyp) ltac:(hyp) ltac:(hyp) ltac:(hyp) ltac:(hyp) ltac:(hyp).
Theorem C64_dot_par4_round AE AF LE LF RE RF x0 y0 x1 y1 x2 y2 x3 y3 : add_ok_width AE AF -> 1 <= LE <= AE -> 1 <= RE <= AE -> 1 <= LF <= AF -> 1 <= RF <= AF ->
  wf (LE + LF + 3) x0 -> wf (RE + RF + 3) y0 -> wf (LE + LF + 3) x1 -> wf (RE + RF + 3) y1 -> wf (LE + LF + 3) x2 -> wf (RE + RF + 3) y2 -> wf (LE + LF + 3) x3 -> wf (RE + RF + 3) y3 ->
  let L := decode LE LF in let R := decode RE RF in
  exists z, dot_par4 (round_dot2 AE AF LE LF RE RF) (round_add AE AF) x0 y0 x1 y1 x2 y2 x3 y3 = Some z /\ wf (AE + AF + 3) z /\
  let d := bpow radix2 (- AF) in let d' := bpow radix2 (- (Z.max LF RF + 1)) in
  (finite_v (decode AE AF z) ->
   (Rabs (rv (decode AE AF z) - Rdot4 (L x0) (R y0) (L x1) (R y1) (L x2) (R y2) (L x3) (R y3)) <=
     ((1 + d) ^ 2 * (1 + d') - 1) * Rabsdot4 (L x0) (R y0) (L x1) (R y1) (L x2) (R y2) (L x3) (R y3) + 7 * (1 + d) ^ 2 * bpow radix2 (emin AE))%R).
Proof. exact (par4_round AE AF LE LF RE RF x0 y0 x1 y1 x2 y2 x3 y3). Qed.
Print Assumptions C64_dot_par4_round.
Example C64_dot_par4_round_at := C64_dot_par4_round 8 23 8 23 8 23 0x13F800000 0x140490FDB 0x1BF800000 0x140490FDB 0x140490FDB 0x140490FDB 0x13F800000 0x140000000 ltac:(hyp) ltac:(hyp) ltac:(hyp) ltac:(hyp) ltac:(hyp) ltac:(hyp) ltac:(hyp) ltac:(hyp) ltac:(hyp) ltac:(hyp) ltac:(hyp) ltac:(hyp) ltac:(hyp).
Theorem C64_dot_par4_softfloat U x0 y0 x1 y1 x2 y2 x3 y3 : 32 <= U -> 0 <= x0 < 2 ^ 32 -> 0 <= y0 < 2 ^ 32 -> 0 <= x1 < 2 ^ 32 -> 0 <= y1 < 2 ^ 32 ->
  0 <= x2 < 2 ^ 32 -> 0 <= y2 < 2 ^ 32 -> 0 <= x3 < 2 ^ 32 -> 0 <= y3 < 2 ^ 32 ->
  let D := decode754 8 23 in
  exists z, dot_par4 (soft_dot2 U) (f32_add U) x0 y0 x1 y1 x2 y2 x3 y3 = Some z /\ 0 <= z < 2 ^ 32 /\
  D z = par4 (add754 8 23) (mul754 8 23) (D x0) (D y0) (D x1) (D y1) (D x2) (D y2) (D x3) (D y3) /\
  let u := bpow radix2 (-24) in
  (finite_v (D z) ->
   (Rabs (rv (D z) - Rdot4 (D x0) (D y0) (D x1) (D y1) (D x2) (D y2) (D x3) (D y3)) <=
     ((1 + u) ^ 3 - 1) * Rabsdot4 (D x0) (D y0) (D x1) (D y1) (D x2) (D y2) (D x3) (D y3) + 7 * (1 + u) ^ 2 * bpow radix2 (-150))%R).
Proof. exact (par4_soft U x0 y0 x1 y1 x2 y2 x3 y3). Qed.
Print Assumptions C64_dot_par4_softfloat.
(** 1*2 - 2*1.5 - 2*2 + 1.5*1.5 = -2.75; the second from half-precision inputs. *)
Definition h2 (i j : nat) : Z := nth j (nth i [[2 ^ 16 + 15 * 2 ^ 10; 2 ^ 16 + 16 * 2 ^ 10]; [2 ^ 16 + 2 ^ 15 + 16 * 2 ^ 10; 2 ^ 16 + 15 * 2 ^ 10 + 2 ^ 9]] []) 0.
Example C64_par4_instance :
  dot_par4 (full_dot2 8 23 8 23 8 23) (full_add 8 23) (m2 0 0) (m2 0 1) (m2 1 0) (m2 1 1) (m2 0 1) (m2 1 0) (m2 1 1) (m2 1 1) = Some 7519338496 /\
  dot_par4 (round_dot2 8 23 5 10 5 10) (round_add 8 23) (h2 0 0) (h2 0 1) (h2 1 0) (h2 1 1) (h2 0 1) (h2 1 0) (h2 1 1) (h2 1 1) = Some 7519338496 /\
  dot_par4 (soft_dot2 64) (f32_add 64) (s2 0 0) (s2 0 1) (s2 1 0) (s2 1 1) (s2 0 1) (s2 1 0) (s2 1 1) (s2 1 1) = Some 0xC0300000 /\
  decode 8 23 7519338496 = Num true 11534336 (-22) /\ decode754 8 23 0xC0300000 = Num true 11534336 (-22) /\
  wf 18 (h2 0 0) /\ wf 18 (h2 0 1) /\ wf 18 (h2 1 0) /\ wf 18 (h2 1 1) /\ add_ok_width 8 23.
Proof. decide_example. Qed.
