(** C77 for binary32 and binary64. *)
From Coq Require Import ZArith Bool Lia Reals Lra.
From Flocq Require Import Core.
From Verif Require Import Fw Spec Spec754 SpecFlocq SpecSf754 SoftFloat SfProofs10 SfReal1 SfReal2 SfReal3.
Open Scope Z_scope.
Lemma f32_oadd : forall U, 32 <= U -> op_ok 8 23 (f32_add U) (add754 8 23).
Proof. intros U HU. intros a b Ha Hb. exact (f32_add_ok U a b HU Ha Hb). Qed.
Lemma f32_omul : forall U, 32 <= U -> op_ok 8 23 (f32_mul U) (mul754 8 23).
Proof. intros U HU. intros a b Ha Hb. exact (f32_mul_ok U a b HU Ha Hb). Qed.
Lemma f32_odiv : forall U, 32 <= U -> op_ok 8 23 (f32_div U) (div754 8 23).
Proof. intros U HU. intros a b Ha Hb. exact (f32_div_ok U a b HU Ha Hb). Qed.
Lemma f32_ole a b : okw 8 23 a -> okw 8 23 b -> f32_le a b = le754 (decode754 8 23 a) (decode754 8 23 b).
Proof. intros Ha Hb. apply (f32_cmp_ok a b Ha Hb). Qed.
Lemma f32_olt a b : okw 8 23 a -> okw 8 23 b -> f32_lt a b = lt754 (decode754 8 23 a) (decode754 8 23 b).
Proof. intros Ha Hb. apply (f32_cmp_ok a b Ha Hb). Qed.
Lemma f32_oeq a b : okw 8 23 a -> okw 8 23 b -> f32_eq a b = eq754 (decode754 8 23 a) (decode754 8 23 b).
Proof. intros Ha Hb. apply (f32_cmp_ok a b Ha Hb). Qed.
Lemma f64_oadd : op_ok 11 52 f64_add (add754 11 52).
Proof. intros a b Ha Hb. exact (f64_add_ok a b Ha Hb). Qed.
Lemma f64_omul : op_ok 11 52 f64_mul (mul754 11 52).
Proof. intros a b Ha Hb. exact (f64_mul_ok a b Ha Hb). Qed.
Lemma f64_odiv : op_ok 11 52 f64_div (div754 11 52).
Proof. intros a b Ha Hb. exact (f64_div_ok a b Ha Hb). Qed.
Lemma f64_ole a b : okw 11 52 a -> okw 11 52 b -> f64_le a b = le754 (decode754 11 52 a) (decode754 11 52 b).
Proof. intros Ha Hb. apply (f64_cmp_ok a b Ha Hb). Qed.
Lemma f64_olt a b : okw 11 52 a -> okw 11 52 b -> f64_lt a b = lt754 (decode754 11 52 a) (decode754 11 52 b).
Proof. intros Ha Hb. apply (f64_cmp_ok a b Ha Hb). Qed.
Lemma f64_oeq a b : okw 11 52 a -> okw 11 52 b -> f64_eq a b = eq754 (decode754 11 52 a) (decode754 11 52 b).
Proof. intros Ha Hb. apply (f64_cmp_ok a b Ha Hb). Qed.
Lemma f32_add_order U a b c : 32 <= U -> 0 <= a < 2 ^ 32 -> 0 <= b < 2 ^ 32 -> 0 <= c < 2 ^ 32 -> f32_le a b = true ->
  exists r s, f32_add U a c = Some r /\ f32_add U b c = Some s /\ (f32_eq r r = true -> f32_eq s s = true -> f32_le r s = true).
Proof. intros HU. exact (t_add_order 8 23 ltac:(lia) ltac:(lia) f32_le f32_eq f32_ole f32_oeq (f32_add U) (f32_oadd U HU) a b c). Qed.
Lemma f32_mul_order U a b c : 32 <= U -> 0 <= a < 2 ^ 32 -> 0 <= b < 2 ^ 32 -> 0 <= c < 2 ^ 32 -> f32_le a b = true ->
  exists r s, f32_mul U a c = Some r /\ f32_mul U b c = Some s /\
    (f32_eq r r = true -> f32_eq s s = true -> (f32_le 0 c = true -> f32_le r s = true) /\ (f32_le c 0 = true -> f32_le s r = true)).
Proof. intros HU. exact (t_mul_order 8 23 ltac:(lia) ltac:(lia) f32_le f32_eq f32_ole f32_oeq (f32_mul U) (f32_omul U HU) a b c). Qed.
Lemma f32_div_order U a b c : 32 <= U -> 0 <= a < 2 ^ 32 -> 0 <= b < 2 ^ 32 -> 0 <= c < 2 ^ 32 -> f32_le a b = true -> f32_lt 0 c = true ->
  exists r s, f32_div U a c = Some r /\ f32_div U b c = Some s /\ (f32_eq r r = true -> f32_eq s s = true -> f32_le r s = true).
Proof. intros HU. exact (t_div_order 8 23 ltac:(lia) ltac:(lia) f32_le f32_lt f32_eq f32_ole f32_olt f32_oeq (f32_div U) (f32_odiv U HU) a b c). Qed.
Lemma f32_add_exact U a b w : 32 <= U -> 0 <= a < 2 ^ 32 -> 0 <= b < 2 ^ 32 -> 0 <= w < 2 ^ 32 -> finite_v (decode754 8 23 a) -> finite_v (decode754 8 23 b) -> finite_v (decode754 8 23 w) -> (real754 8 23 a + real754 8 23 b = real754 8 23 w)%R ->
  exists r, f32_add U a b = Some r /\ 0 <= r < 2 ^ 32 /\ finite_v (decode754 8 23 r) /\ real754 8 23 r = real754 8 23 w /\ (real754 8 23 w <> 0%R -> r = w).
Proof. intros HU. exact (s_add_exact 8 23 ltac:(lia) ltac:(lia) (f32_add U) (f32_oadd U HU) a b w). Qed.
Lemma f32_mul_exact U a b w : 32 <= U -> 0 <= a < 2 ^ 32 -> 0 <= b < 2 ^ 32 -> 0 <= w < 2 ^ 32 -> finite_v (decode754 8 23 a) -> finite_v (decode754 8 23 b) -> finite_v (decode754 8 23 w) -> (real754 8 23 a * real754 8 23 b = real754 8 23 w)%R ->
  exists r, f32_mul U a b = Some r /\ 0 <= r < 2 ^ 32 /\ finite_v (decode754 8 23 r) /\ real754 8 23 r = real754 8 23 w /\ (real754 8 23 w <> 0%R -> r = w).
Proof. intros HU. exact (s_mul_exact 8 23 ltac:(lia) ltac:(lia) (f32_mul U) (f32_omul U HU) a b w). Qed.
Lemma f32_div_exact U a b w : 32 <= U -> 0 <= a < 2 ^ 32 -> 0 <= b < 2 ^ 32 -> 0 <= w < 2 ^ 32 -> finite_v (decode754 8 23 a) -> finite_v (decode754 8 23 b) -> finite_v (decode754 8 23 w) -> real754 8 23 b <> 0%R -> (real754 8 23 a / real754 8 23 b = real754 8 23 w)%R ->
  exists r, f32_div U a b = Some r /\ 0 <= r < 2 ^ 32 /\ finite_v (decode754 8 23 r) /\ real754 8 23 r = real754 8 23 w /\ (real754 8 23 w <> 0%R -> r = w).
Proof. intros HU. intros Wa Wb Ww Fa Fb Fw N Q. exact (s_div_exact 8 23 ltac:(lia) ltac:(lia) (f32_div U) (f32_odiv U HU) a b w Wa Wb Ww Fa Fb N Fw Q). Qed.
Lemma f32_sterbenz U a b : 32 <= U -> 0 <= a < 2 ^ 32 -> 0 <= b < 2 ^ 32 -> finite_v (decode754 8 23 a) -> finite_v (decode754 8 23 b) -> (real754 8 23 b / 2 <= real754 8 23 a <= 2 * real754 8 23 b)%R ->
  exists r, f32_add U a (flip 32 b) = Some r /\ 0 <= r < 2 ^ 32 /\ finite_v (decode754 8 23 r) /\ real754 8 23 r = (real754 8 23 a - real754 8 23 b)%R.
Proof. intros HU. exact (s_sterbenz 8 23 ltac:(lia) ltac:(lia) (f32_add U) (f32_oadd U HU) a b). Qed.
Lemma f32_sub_zero U a b : 32 <= U -> 0 <= a < 2 ^ 32 -> 0 <= b < 2 ^ 32 -> finite_v (decode754 8 23 a) -> finite_v (decode754 8 23 b) ->
  exists r, f32_add U a (flip 32 b) = Some r /\ (f32_eq r 0 = true <-> f32_eq a b = true).
Proof. intros HU. exact (t_sub_zero 8 23 ltac:(lia) ltac:(lia) f32_eq f32_oeq (f32_add U) (f32_oadd U HU) a b). Qed.
Lemma f32_fast_two_sum U x y a : 32 <= U -> 0 <= x < 2 ^ 32 -> 0 <= y < 2 ^ 32 -> finite_v (decode754 8 23 x) -> finite_v (decode754 8 23 y) ->
  (Rabs (real754 8 23 y) <= Rabs (real754 8 23 x))%R -> f32_add U x y = Some a -> finite_v (decode754 8 23 a) ->
  exists b, sf_fast_two_sum 32 (f32_add U) x y = Some (a, b) /\ finite_v (decode754 8 23 b) /\ (real754 8 23 a + real754 8 23 b = real754 8 23 x + real754 8 23 y)%R.
Proof. intros HU. intros Wx Wy Fx Fy. exact (s_fast_two_sum 8 23 ltac:(lia) ltac:(lia) (f32_add U) (f32_oadd U HU) x y a (conj Wx Fx) (conj Wy Fy)). Qed.
Lemma f32_two_sum U x y a : 32 <= U -> 0 <= x < 2 ^ 32 -> 0 <= y < 2 ^ 32 -> finite_v (decode754 8 23 x) -> finite_v (decode754 8 23 y) ->
  y mod 2 ^ 31 <> 2 ^ 31 - 2 ^ 23 - 1 -> f32_add U x y = Some a -> finite_v (decode754 8 23 a) ->
  exists b, sf_two_sum 32 (f32_add U) x y = Some (a, b) /\ finite_v (decode754 8 23 b) /\ (real754 8 23 a + real754 8 23 b = real754 8 23 x + real754 8 23 y)%R.
Proof. intros HU. intros Wx Wy Fx Fy. exact (s_two_sum 8 23 ltac:(lia) ltac:(lia) (f32_add U) (f32_oadd U HU) x y a (conj Wx Fx) (conj Wy Fy)). Qed.
Lemma f64_add_order a b c : 0 <= a < 2 ^ 64 -> 0 <= b < 2 ^ 64 -> 0 <= c < 2 ^ 64 -> f64_le a b = true ->
  exists r s, f64_add a c = Some r /\ f64_add b c = Some s /\ (f64_eq r r = true -> f64_eq s s = true -> f64_le r s = true).
Proof. exact (t_add_order 11 52 ltac:(lia) ltac:(lia) f64_le f64_eq f64_ole f64_oeq f64_add (f64_oadd) a b c). Qed.
Lemma f64_mul_order a b c : 0 <= a < 2 ^ 64 -> 0 <= b < 2 ^ 64 -> 0 <= c < 2 ^ 64 -> f64_le a b = true ->
  exists r s, f64_mul a c = Some r /\ f64_mul b c = Some s /\
    (f64_eq r r = true -> f64_eq s s = true -> (f64_le 0 c = true -> f64_le r s = true) /\ (f64_le c 0 = true -> f64_le s r = true)).
Proof. exact (t_mul_order 11 52 ltac:(lia) ltac:(lia) f64_le f64_eq f64_ole f64_oeq f64_mul (f64_omul) a b c). Qed.
Lemma f64_div_order a b c : 0 <= a < 2 ^ 64 -> 0 <= b < 2 ^ 64 -> 0 <= c < 2 ^ 64 -> f64_le a b = true -> f64_lt 0 c = true ->
  exists r s, f64_div a c = Some r /\ f64_div b c = Some s /\ (f64_eq r r = true -> f64_eq s s = true -> f64_le r s = true).
Proof. exact (t_div_order 11 52 ltac:(lia) ltac:(lia) f64_le f64_lt f64_eq f64_ole f64_olt f64_oeq f64_div (f64_odiv) a b c). Qed.
Lemma f64_add_exact a b w : 0 <= a < 2 ^ 64 -> 0 <= b < 2 ^ 64 -> 0 <= w < 2 ^ 64 -> finite_v (decode754 11 52 a) -> finite_v (decode754 11 52 b) -> finite_v (decode754 11 52 w) -> (real754 11 52 a + real754 11 52 b = real754 11 52 w)%R ->
  exists r, f64_add a b = Some r /\ 0 <= r < 2 ^ 64 /\ finite_v (decode754 11 52 r) /\ real754 11 52 r = real754 11 52 w /\ (real754 11 52 w <> 0%R -> r = w).
Proof. exact (s_add_exact 11 52 ltac:(lia) ltac:(lia) f64_add (f64_oadd) a b w). Qed.
Lemma f64_mul_exact a b w : 0 <= a < 2 ^ 64 -> 0 <= b < 2 ^ 64 -> 0 <= w < 2 ^ 64 -> finite_v (decode754 11 52 a) -> finite_v (decode754 11 52 b) -> finite_v (decode754 11 52 w) -> (real754 11 52 a * real754 11 52 b = real754 11 52 w)%R ->
  exists r, f64_mul a b = Some r /\ 0 <= r < 2 ^ 64 /\ finite_v (decode754 11 52 r) /\ real754 11 52 r = real754 11 52 w /\ (real754 11 52 w <> 0%R -> r = w).
Proof. exact (s_mul_exact 11 52 ltac:(lia) ltac:(lia) f64_mul (f64_omul) a b w). Qed.
Lemma f64_div_exact a b w : 0 <= a < 2 ^ 64 -> 0 <= b < 2 ^ 64 -> 0 <= w < 2 ^ 64 -> finite_v (decode754 11 52 a) -> finite_v (decode754 11 52 b) -> finite_v (decode754 11 52 w) -> real754 11 52 b <> 0%R -> (real754 11 52 a / real754 11 52 b = real754 11 52 w)%R ->
  exists r, f64_div a b = Some r /\ 0 <= r < 2 ^ 64 /\ finite_v (decode754 11 52 r) /\ real754 11 52 r = real754 11 52 w /\ (real754 11 52 w <> 0%R -> r = w).
Proof. intros Wa Wb Ww Fa Fb Fw N Q. exact (s_div_exact 11 52 ltac:(lia) ltac:(lia) f64_div (f64_odiv) a b w Wa Wb Ww Fa Fb N Fw Q). Qed.
Lemma f64_sterbenz a b : 0 <= a < 2 ^ 64 -> 0 <= b < 2 ^ 64 -> finite_v (decode754 11 52 a) -> finite_v (decode754 11 52 b) -> (real754 11 52 b / 2 <= real754 11 52 a <= 2 * real754 11 52 b)%R ->
  exists r, f64_add a (flip 64 b) = Some r /\ 0 <= r < 2 ^ 64 /\ finite_v (decode754 11 52 r) /\ real754 11 52 r = (real754 11 52 a - real754 11 52 b)%R.
Proof. exact (s_sterbenz 11 52 ltac:(lia) ltac:(lia) f64_add (f64_oadd) a b). Qed.
Lemma f64_sub_zero a b : 0 <= a < 2 ^ 64 -> 0 <= b < 2 ^ 64 -> finite_v (decode754 11 52 a) -> finite_v (decode754 11 52 b) ->
  exists r, f64_add a (flip 64 b) = Some r /\ (f64_eq r 0 = true <-> f64_eq a b = true).
Proof. exact (t_sub_zero 11 52 ltac:(lia) ltac:(lia) f64_eq f64_oeq f64_add (f64_oadd) a b). Qed.
Lemma f64_fast_two_sum x y a : 0 <= x < 2 ^ 64 -> 0 <= y < 2 ^ 64 -> finite_v (decode754 11 52 x) -> finite_v (decode754 11 52 y) ->
  (Rabs (real754 11 52 y) <= Rabs (real754 11 52 x))%R -> f64_add x y = Some a -> finite_v (decode754 11 52 a) ->
  exists b, sf_fast_two_sum 64 f64_add x y = Some (a, b) /\ finite_v (decode754 11 52 b) /\ (real754 11 52 a + real754 11 52 b = real754 11 52 x + real754 11 52 y)%R.
Proof. intros Wx Wy Fx Fy. exact (s_fast_two_sum 11 52 ltac:(lia) ltac:(lia) f64_add f64_oadd x y a (conj Wx Fx) (conj Wy Fy)). Qed.
Lemma f64_two_sum x y a : 0 <= x < 2 ^ 64 -> 0 <= y < 2 ^ 64 -> finite_v (decode754 11 52 x) -> finite_v (decode754 11 52 y) ->
  y mod 2 ^ 63 <> 2 ^ 63 - 2 ^ 52 - 1 -> f64_add x y = Some a -> finite_v (decode754 11 52 a) ->
  exists b, sf_two_sum 64 f64_add x y = Some (a, b) /\ finite_v (decode754 11 52 b) /\ (real754 11 52 a + real754 11 52 b = real754 11 52 x + real754 11 52 y)%R.
Proof. intros Wx Wy Fx Fy. exact (s_two_sum 11 52 ltac:(lia) ltac:(lia) f64_add f64_oadd x y a (conj Wx Fx) (conj Wy Fy)). Qed.
Lemma f32_two_sum_overflow : exists x y a b, 0 <= x < 2 ^ 32 /\ 0 <= y < 2 ^ 32 /\ finite_v (decode754 8 23 x) /\ finite_v (decode754 8 23 y) /\
  f32_add 32 x y = Some a /\ finite_v (decode754 8 23 a) /\ sf_two_sum 32 (f32_add 32) x y = Some (a, b) /\ decode754 8 23 b = NaN.
Proof. exists 4089446400, 2139095039, 2139095038, (match sf_two_sum 32 (f32_add 32) 4089446400 2139095039 with Some (_, b) => b | None => 0 end). vm_compute. repeat split; congruence. Qed.
Lemma f64_two_sum_overflow : exists x y a b, 0 <= x < 2 ^ 64 /\ 0 <= y < 2 ^ 64 /\ finite_v (decode754 11 52 x) /\ finite_v (decode754 11 52 y) /\
  f64_add x y = Some a /\ finite_v (decode754 11 52 a) /\ sf_two_sum 64 f64_add x y = Some (a, b) /\ decode754 11 52 b = NaN.
Proof. exists 18205801493645230080, 9218868437227405311, 9218868437227405310, (match sf_two_sum 64 f64_add 18205801493645230080 9218868437227405311 with Some (_, b) => b | None => 0 end). vm_compute. repeat split; congruence. Qed.
