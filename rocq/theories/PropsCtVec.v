(** Compile-time vectors (C30, C31, C52) and the generator built from them (C32). *)
From Coq Require Import ZArith Bool List Permutation Sorting.Sorted Lia.
From Verif Require Import Fw SpecCt Lcg CtVec CtVecProofs CtVecProofs2 LutOpt LutOptProofs2 CtVecProofs3 Inst.
Import ListNotations.
Open Scope Z_scope.

Definition abcde : vec Z := Branch (Branch (Leaf 10) (Leaf 20)) (Branch (Leaf 30) (Branch (Leaf 40) (Leaf 50))).

(** ** C30 *)
(** Reading an index in range gives that element. *)
Theorem C30_read {T} (t : vec T) i : vfull t = true -> 0 <= i < vN t ->
  exists v, vread i t = Some v /\ nth_error (velems t) (Z.to_nat i) = Some v.
Proof. exact (read_elems t i). Qed.
Print Assumptions C30_read.
Example C30_read_ex : vfull abcde = true /\ vN abcde = 5 /\ vread 3 abcde = Some 40.
Proof. vm_compute. repeat split; reflexivity. Qed.
(** Reading after writing gives the value written; other indices and the length are unchanged. *)
Theorem C30_write {T} (t : vec T) i w : vfull t = true -> 0 <= i < vN t ->
  exists t', vwrite i w t = Some t' /\ vfull t' = true /\ vN t' = vN t /\ vread i t' = Some w /\
    forall j, 0 <= j < vN t -> j <> i -> vread j t' = vread j t.
Proof. exact (write_laws t i w). Qed.
Print Assumptions C30_write.
Example C30_write_ex : option_map velems (vwrite 2 99 abcde) = Some [10; 20; 99; 40; 50].
Proof. vm_compute. reflexivity. Qed.
(** Swapping exchanges the two elements and nothing else. *)
Theorem C30_swap {T} (t : vec T) i j : vfull t = true -> 0 <= i < vN t -> 0 <= j < vN t ->
  exists t', vswap i j t = Some t' /\ vfull t' = true /\ vN t' = vN t /\ vread i t' = vread j t /\ vread j t' = vread i t /\
    forall k, 0 <= k < vN t -> k <> i -> k <> j -> vread k t' = vread k t.
Proof. exact (swap_laws t i j). Qed.
Print Assumptions C30_swap.
Example C30_swap_ex : option_map velems (vswap 1 4 abcde) = Some [10; 50; 30; 40; 20].
Proof. vm_compute. reflexivity. Qed.
(** Permuting rearranges the elements, whatever generator supplies the 32-bit values. *)
Theorem C30_permute {T G} (value : G -> Z) (next : G -> option G) (P : G -> Prop) (t : vec T) g :
  (forall g, P g -> 0 <= value g < 2 ^ 32 /\ exists g', next g = Some g' /\ P g') -> vfull t = true -> P g ->
  exists t' g', vpermute value next g t = Some (t', g') /\ Permutation (velems t) (velems t') /\ vshape t' = vshape t /\ P g'.
Proof. exact (permute_any value next P t g). Qed.
Print Assumptions C30_permute.
Example C30_permute_at := C30_permute (fun g : Z => g) (fun g => Some ((5 * g + 1) mod 2 ^ 32)) (fun g => 0 <= g < 2 ^ 32) abcde 7 ltac:(intros g H; split; [exact H|]; eexists; split; [reflexivity|apply Z.mod_pos_bound; lia]) ltac:(hyp) ltac:(hyp).
(** With the generator of the library it is the shuffle of the comment in the source, and it
    leaves the generator one step further for every element but one. *)
Theorem C30_permute_is_shuffle {T} (t : vec T) x : vfull t = true -> 0 <= x < 2 ^ 32 ->
  exists t', vpermute rng_value rng_next x t = Some (t', Nat.iter (Z.to_nat (vN t) - 1) (step lcg_A lcg_C) x) /\
    velems t' = fst (shuffle (step lcg_A lcg_C) (length (velems t)) x (velems t)).
Proof. exact (permute_lcg t x). Qed.
Print Assumptions C30_permute_is_shuffle.
Example C30_permute_ex : option_map (fun p => velems (fst p)) (vpermute rng_value rng_next 949333985 abcde) = Some [40; 30; 50; 20; 10].
Proof. vm_compute. reflexivity. Qed.
(** Every arrangement of at most 65536 elements comes out for some sequence of 32-bit values. *)
Theorem C30_permute_reaches_all {T} (t : vec T) l : vfull t = true -> vN t <= 2 ^ 16 -> Permutation (velems t) l ->
  exists vs : list Z, Forall (fun v => 0 <= v < 2 ^ 32) vs /\ exists t' r,
    vpermute (fun g : list Z => hd 0 g) (fun g => Some (tl g)) vs t = Some (t', r) /\ velems t' = l.
Proof. exact (permute_reaches_all t l). Qed.
Print Assumptions C30_permute_reaches_all.
Example C30_permute_reaches_ex : option_map (fun p => velems (fst p))
  (vpermute (fun g : list Z => hd 0 g) (fun g => Some (tl g)) [0; 65536; 2 * 65536; 0] abcde) = Some [40; 50; 30; 20; 10].
Proof. vm_compute. reflexivity. Qed.
(** An index outside the vector is not diagnosed: it reads the element at the nearer end. *)
Theorem C30_out_of_range_refuted {T} (t : vec T) i : vfull t = true ->
  (i < 0 -> vread i t = vread 0 t) /\ (vN t <= i -> vread i t = vread (vN t - 1) t).
Proof. exact (read_outside t i). Qed.
Print Assumptions C30_out_of_range_refuted.
Example C30_out_of_range_ex : vread 7 abcde = Some 50 /\ vread (-1) abcde = Some 10.
Proof. vm_compute. split; reflexivity. Qed.
(** A vector with an empty part cannot be read or written at all, even where it has elements. *)
Theorem C30_empty_part_refuted {T} (t : vec T) i (w : T) : vfull t = false -> vread i t = None /\ vwrite i w t = None.
Proof. exact (fun H => conj (vread_empty t H i) (vwrite_empty w t H i)). Qed.
Print Assumptions C30_empty_part_refuted.
Example C30_empty_part_ex : vN (Branch (Leaf 10) (Branch Empty (Leaf 30))) = 2 /\ vread 0 (Branch (Leaf 10) (Branch Empty (Leaf 30))) = None.
Proof. vm_compute. split; reflexivity. Qed.
(** A vector of no elements cannot be permuted. *)
Theorem C30_permute_empty_refuted {T G} (value : G -> Z) (next : G -> option G) (t : vec T) g : vN t = 0 -> vpermute value next g t = None.
Proof. exact (permute_empty value next t g). Qed.
Print Assumptions C30_permute_empty_refuted.
Example C30_permute_empty_ex : vN (@Empty Z) = 0 /\ vpermute rng_value rng_next 5 (Leaf 10) = Some (Leaf 10, 5).
Proof. vm_compute. split; reflexivity. Qed.

(** ** C31 *)
(** unique holds exactly the distinct elements, strictly increasing. *)
Theorem C31_unique t l0 : vfull t = true -> velems t = map IC l0 -> vN t <= 2 ^ 31 ->
  exists u l, vunique t = Some u /\ vfull u = true /\ velems u = map IC l /\ StronglySorted Z.lt l /\ (forall z, In z l <-> In z l0).
Proof. exact (unique_spec t l0). Qed.
Print Assumptions C31_unique.
Example C31_unique_at := C31_unique (Branch (Branch (Leaf (IC 5)) (Leaf (IC 3))) (Branch (Leaf (IC 5)) (Leaf (IC 1)))) [5; 3; 5; 1] ltac:(hyp) ltac:(hyp) ltac:(hyp).
(** That determines the result. *)
Theorem C31_result_determined l l' : StronglySorted Z.lt l -> StronglySorted Z.lt l' -> (forall z, In z l <-> In z l') -> l = l'.
Proof. exact (strong_sorted_unique l l'). Qed.
Print Assumptions C31_result_determined.
Example C31_unique_ex : option_map velems (vunique (Branch (Branch (Leaf (IC 5)) (Leaf (IC (-3)))) (Branch (Leaf (IC 5)) (Branch (Leaf (IC 0)) (Leaf (IC (-3)))))))
  = Some [IC (-3); IC 0; IC 5].
Proof. vm_compute. reflexivity. Qed.
(** A vector with an empty part has no unique. *)
Theorem C31_empty_refuted t : vfull t = false -> vunique t = None.
Proof. exact (unique_empty t). Qed.
Print Assumptions C31_empty_refuted.
Example C31_empty_ex : vfull (@Empty cv) = false.
Proof. reflexivity. Qed.

(** ** C52 *)
(** A created vector holds n copies. *)
Theorem C52_create {T} (v : T) n : 1 <= n < 2 ^ 31 -> exists t, vcreate 64 n v = Some t /\ vfull t = true /\ velems t = repeat v (Z.to_nat n).
Proof. exact (create_spec v n). Qed.
Print Assumptions C52_create.
Example C52_create_at := C52_create 7 11 ltac:(hyp).
(** A created rotation holds o, o+1, ... modulo n. *)
Theorem C52_rotation o n : 1 <= n < 2 ^ 31 -> 0 <= o < 2 ^ 31 ->
  exists t, vrotation IC o n = Some t /\ vfull t = true /\ velems t = map IC (rotation (Z.to_nat o) (Z.to_nat n)).
Proof. exact (rotation_spec o n). Qed.
Print Assumptions C52_rotation.
Example C52_create_ex : option_map velems (vcreate 64 3 7) = Some [7; 7; 7] /\ option_map velems (vrotation (fun z => z) 1 5) = Some [1; 2; 3; 4; 0].
Proof. vm_compute. split; reflexivity. Qed.
(** for_each calls its functor once an element, in order, with the index. *)
Theorem C52_for_each {T} (t : vec T) : vfull t = true ->
  vfor_each 0 t = Some (combine (map Z.of_nat (seq 0 (length (velems t)))) (velems t)).
Proof. exact (fun H => vfor_each_ok t H 0). Qed.
Print Assumptions C52_for_each.
Example C52_for_each_ex : vfor_each 0 abcde = Some [(0, 10); (1, 20); (2, 30); (3, 40); (4, 50)].
Proof. vm_compute. reflexivity. Qed.
(** map_reduce with an associative reduction is the reduction of the mapped elements in order,
    whatever the shape of the tree. *)
Theorem C52_map_reduce {T A} (g : Z -> T -> A) (f : A -> A -> A) (t : vec T) : (forall a b c, f a (f b c) = f (f a b) c) ->
  vfull t = true -> forall off, exists x l,
    map (fun p => g (fst p) (snd p)) (combine (map (fun i => off + Z.of_nat i) (seq 0 (length (velems t)))) (velems t)) = x :: l /\
    vmap_reduce (fun o c => Some (g o c)) (fun a b => Some (f a b)) off t = Some (fold1 f x l).
Proof. exact (vmap_reduce_ok g f t). Qed.
Print Assumptions C52_map_reduce.
Example C52_map_reduce_ex : vmap_reduce (fun o c => Some (o * c)) (fun a b => Some (a + b)) 0 abcde = Some 400 /\
  fold1 Z.add 0 [20; 60; 120; 200] = 400.
Proof. vm_compute. split; reflexivity. Qed.

(** ** C32 *)
(** Each bit of the next state is the XOR of its taps, counted once each. *)
Theorem C32_step_bits N T S : 1 <= N < 2 ^ 31 -> 1 <= T < 2 ^ 31 -> 0 <= S < 2 ^ 32 -> forall s, 0 <= s < 2 ^ N ->
  exists r, lut_opt_step N T S s = Some r /\ 0 <= r < 2 ^ N /\
  forall o, 0 <= o < N -> forall l, StronglySorted Z.lt l ->
    (forall b, In b l <-> taps (step lcg_A lcg_C) (Z.to_nat N) (Z.to_nat T) S o b) -> Z.testbit r o = xor_bits s l.
Proof. exact (step_bits N T S). Qed.
Print Assumptions C32_step_bits.
Example C32_step_bits_at := C32_step_bits 4 2 7 ltac:(hyp) ltac:(hyp) ltac:(hyp) 5 ltac:(hyp).
(** Each bit has between 1 and T taps, all of them state bits. *)
Theorem C32_tap_list N T S : 1 <= N < 2 ^ 31 -> 1 <= T < 2 ^ 31 -> 0 <= S < 2 ^ 32 -> forall o, 0 <= o < N ->
  exists l, StronglySorted Z.lt l /\ (forall b, In b l <-> taps (step lcg_A lcg_C) (Z.to_nat N) (Z.to_nat T) S o b) /\
    1 <= Z.of_nat (length l) <= T /\ forall b, In b l -> 0 <= b < N.
Proof. exact (tap_list N T S). Qed.
Print Assumptions C32_tap_list.
Example C32_tap_list_at := C32_tap_list 4 2 7 ltac:(hyp) ltac:(hyp) ltac:(hyp) 3 ltac:(hyp).
(** Each state bit is a tap of at least one bit and of at most T. *)
Theorem C32_every_bit_used N T S : 1 <= N < 2 ^ 31 -> 1 <= T < 2 ^ 31 -> 0 <= S < 2 ^ 32 -> forall b, 0 <= b < N ->
  exists o, 0 <= o < N /\ taps (step lcg_A lcg_C) (Z.to_nat N) (Z.to_nat T) S o b.
Proof. exact (tap_used N T S). Qed.
Print Assumptions C32_every_bit_used.
Example C32_every_bit_used_at := C32_every_bit_used 4 2 7 ltac:(hyp) ltac:(hyp) ltac:(hyp) 1 ltac:(hyp).
Theorem C32_fanout N T S : 1 <= N < 2 ^ 31 -> 1 <= T < 2 ^ 31 -> 0 <= S < 2 ^ 32 -> forall b os, NoDup os ->
  (forall o, In o os -> 0 <= o < N /\ taps (step lcg_A lcg_C) (Z.to_nat N) (Z.to_nat T) S o b) -> Z.of_nat (length os) <= T.
Proof. exact (tap_fanout N T S). Qed.
Print Assumptions C32_fanout.
Example C32_fanout_at := C32_fanout 4 2 7 ltac:(hyp) ltac:(hyp) ltac:(hyp) 1 [1; 3] ltac:(hyp) ltac:(intros o H; cbn in H; destruct H as [<-|[<-|[]]]; vm_compute; intuition discriminate).
(** The step is linear over XOR, and keeps zero. *)
Theorem C32_linear N T S : 1 <= N < 2 ^ 31 -> 1 <= T < 2 ^ 31 -> 0 <= S < 2 ^ 32 -> forall s t, 0 <= s < 2 ^ N -> 0 <= t < 2 ^ N ->
  exists a b, lut_opt_step N T S s = Some a /\ lut_opt_step N T S t = Some b /\ lut_opt_step N T S (Z.lxor s t) = Some (Z.lxor a b).
Proof. exact (step_linear N T S). Qed.
Print Assumptions C32_linear.
Example C32_linear_at := C32_linear 4 2 7 ltac:(hyp) ltac:(hyp) ltac:(hyp) 5 3 ltac:(hyp) ltac:(hyp).
Theorem C32_zero N T S : 1 <= N < 2 ^ 31 -> 1 <= T < 2 ^ 31 -> 0 <= S < 2 ^ 32 -> lut_opt_step N T S 0 = Some 0.
Proof. exact (step_zero N T S). Qed.
Print Assumptions C32_zero.
Example C32_zero_at := C32_zero 4 2 7 ltac:(hyp) ltac:(hyp) ltac:(hyp).
(** A bit depends only on its taps, and flips with each of them. *)
Theorem C32_depends_only_on_taps N T S : 1 <= N < 2 ^ 31 -> 1 <= T < 2 ^ 31 -> 0 <= S < 2 ^ 32 -> forall s t o a b,
  0 <= s < 2 ^ N -> 0 <= t < 2 ^ N -> 0 <= o < N ->
  (forall i, taps (step lcg_A lcg_C) (Z.to_nat N) (Z.to_nat T) S o i -> Z.testbit s i = Z.testbit t i) ->
  lut_opt_step N T S s = Some a -> lut_opt_step N T S t = Some b -> Z.testbit a o = Z.testbit b o.
Proof. exact (step_depends N T S). Qed.
Print Assumptions C32_depends_only_on_taps.
Example C32_depends_only_on_taps_at := C32_depends_only_on_taps 4 2 7 ltac:(hyp) ltac:(hyp) ltac:(hyp) 2 3 1 10 6 ltac:(hyp) ltac:(hyp) ltac:(hyp) ltac:(let i := fresh in let H := fresh in intros i H; vm_compute in H; intuition (subst; reflexivity)) ltac:(hyp) ltac:(hyp).
Theorem C32_flips_with_tap N T S : 1 <= N < 2 ^ 31 -> 1 <= T < 2 ^ 31 -> 0 <= S < 2 ^ 32 -> forall s o i a b,
  0 <= s < 2 ^ N -> 0 <= o < N -> taps (step lcg_A lcg_C) (Z.to_nat N) (Z.to_nat T) S o i ->
  lut_opt_step N T S s = Some a -> lut_opt_step N T S (Z.lxor s (2 ^ i)) = Some b -> Z.testbit b o = negb (Z.testbit a o).
Proof. exact (step_flips N T S). Qed.
Print Assumptions C32_flips_with_tap.
Example C32_flips_with_tap_at := C32_flips_with_tap 4 2 7 ltac:(hyp) ltac:(hyp) ltac:(hyp) 1 3 1 12 6 ltac:(hyp) ltac:(hyp) ltac:(vm_compute; tauto) ltac:(hyp) ltac:(hyp).
(** With one tap a bit no two states have the same successor. *)
Theorem C32_one_tap_injective N S s t a : 1 <= N < 2 ^ 31 -> 0 <= S < 2 ^ 32 -> 0 <= s < 2 ^ N -> 0 <= t < 2 ^ N ->
  lut_opt_step N 1 S s = Some a -> lut_opt_step N 1 S t = Some a -> s = t.
Proof. exact (step_one_inj N S s t a). Qed.
Print Assumptions C32_one_tap_injective.
Example C32_one_tap_injective_at := C32_one_tap_injective 4 7 2 2 8 ltac:(hyp) ltac:(hyp) ltac:(hyp) ltac:(hyp) ltac:(hyp) ltac:(hyp).
(** With more taps a seed can lose states: this one takes 7 to zero, from which it never moves. *)
Theorem C32_injective_refuted : exists N T S s, 1 <= N /\ 1 <= T /\ 0 <= S < 2 ^ 32 /\ 0 < s < 2 ^ N /\
  lut_opt_step N T S s = Some 0 /\ lut_opt_step N T S 0 = Some 0.
Proof.
  exists 4, 2, 7, 7. split; [lia|]. split; [lia|]. split; [lia|]. split; [lia|]. vm_compute. split; reflexivity.
Qed.
Print Assumptions C32_injective_refuted.
(** Without taps there is no generator. *)
Theorem C32_no_taps_refuted N S s : lut_opt_step N 0 S s = None.
Proof. exact (step_no_taps N S s). Qed.
Print Assumptions C32_no_taps_refuted.
Example C32_ex : map (lut_opt_step 4 2 7) [0; 1; 2; 3; 5; 8] = [Some 0; Some 12; Some 10; Some 6; Some 10; Some 1] /\
  map (lut_opt_step 4 1 7) [1; 2; 4; 8] = [Some 4; Some 8; Some 2; Some 1] /\ taps (step lcg_A lcg_C) 4 2 7 3 1.
Proof. vm_compute. repeat split; try reflexivity. tauto. Qed.
