(** The other names under which the library offers operations already treated, and small constructors. *)
From Coq Require Import ZArith QArith Bool Lia.
From Verif Require Import Fw FwLemmas Spec SpecFma SpecFix SpecInv InvNrProofs2 Flopoco AddSingle AddDual Fma InvNr FwWord FwPair Fixval HlsInt Hls.
From Verif Require Import PropsFma PropsAdd PropsInv PropsFlopoco HlsProofs FixvalProofs FwPairProofs AddDualProofs Inst.
Open Scope Z_scope.

(** flopoco_fma: the statement of C21. *)
Theorem C21_flopoco_fma_partial :
  forall wER wFR wEX wFX wEY wFY wEZ wFZ x y z,
    1 <= wER -> 1 <= wFR -> 1 <= wEX -> 1 <= wFX -> 1 <= wEY -> 1 <= wFY -> 1 <= wEZ -> 1 <= wFZ ->
    let E := Z.max (Z.max wEX wEY + 2) (wEZ + 1) in let F := Z.max (wFX + wFY + 2) wFZ in
    dual_ok_width E F -> wER <> E \/ F <= wFR ->
    wf (wEX + wFX + 3) x -> wf (wEY + wFY + 3) y -> wf (wEZ + wFZ + 3) z ->
    exists r, flopoco_fma wER wFR wEX wFX wEY wFY wEZ wFZ x y z = Some r /\ wf (wER + wFR + 3) r /\
      decode wER wFR r =
      convert_spec wER wFR (add_spec E F (prod_exact (decode wEX wFX x) (decode wEY wFY y)) (decode wEZ wFZ z)).
Proof. exact C21_fma_two_roundings_partial. Qed.
Print Assumptions C21_flopoco_fma_partial.
Example C21_flopoco_fma_at := C21_flopoco_fma_partial 8 23 8 23 8 23 8 23 0x13F800000 0x140490FDB 0x1BF800000 ltac:(hyp) ltac:(hyp) ltac:(hyp) ltac:(hyp) ltac:(hyp) ltac:(hyp) ltac:(hyp) ltac:(hyp) ltac:(hyp) ltac:(hyp) ltac:(hyp) ltac:(hyp) ltac:(hyp).
(** add_small: the statement of C03. *)
Theorem C03_add_small_partial :
  forall wEX wFX wEY wFY x y,
  let E := Z.max wEX wEY in let F := Z.max wFX wFY in
  1 <= wEX -> 1 <= wFX -> 1 <= wEY -> 1 <= wFY -> F + 3 < 2 ^ E -> 2 ^ E <> 2 * (F + 3) -> 2 * F + 4 < 2 ^ 31 ->
  wf (wEX + wFX + 3) x -> wf (wEY + wFY + 3) y ->
  exists r, add_small E F wEX wFX wEY wFY x y = Some r /\ wf (E + F + 3) r /\
    let vx := decode wEX wFX x in let vy := decode wEY wFY y in
    ((2 ^ E < 2 * (F + 3) \/ ~ absorbed F vx vy /\ ~ absorbed F vy vx) -> decode E F r = add_spec E F vx vy) /\
    (2 * (F + 3) < 2 ^ E -> absorbed F vx vy -> veq (decode E F r) vx) /\
    (2 * (F + 3) < 2 ^ E -> absorbed F vy vx -> veq (decode E F r) vy).
Proof. exact C03_add_single_correctly_rounded_partial. Qed.
Print Assumptions C03_add_small_partial.
Example C03_add_small_at := C03_add_small_partial 4 2 4 2 161 211 ltac:(hyp) ltac:(hyp) ltac:(hyp) ltac:(hyp) ltac:(hyp) ltac:(hyp) ltac:(hyp) ltac:(hyp) ltac:(hyp).
(** inv_faithful: those of C53 and C40. *)
Theorem C53_inv_faithful E F w y s m e : 2 <= E -> 7 <= F <= 62 -> 8 <= w -> index_bits (F + 1) <= w -> wf (E + w + 3) y -> decode E w y = Num s m e ->
  e + w <= emax E - 2 \/ (e + w = emax E - 1 /\ m = 2 ^ w) ->
  exists r m' e', inv_faithful E F E w y = Some r /\ wf (E + F + 3) r /\ decode E F r = Num s m' e' /\
    faithful E F (/ qval (decode E w y)) (qval (decode E F r)).
Proof. exact (C53_newton_faithful E F w y s m e). Qed.
Print Assumptions C53_inv_faithful.
Example C53_inv_faithful_at := C53_inv_faithful 8 23 23 0x140490FDB false 0xC90FDB (-22) ltac:(hyp) ltac:(hyp) ltac:(hyp) ltac:(hyp) ltac:(hyp) ltac:(hyp) ltac:(hyp).
Theorem C40_inv_faithful_special E F w y : 2 <= E -> 7 <= F <= 62 -> 8 <= w -> index_bits (F + 1) <= w -> wf (E + w + 3) y ->
  exists r, inv_faithful E F E w y = Some r /\ wf (E + F + 3) r /\
    match decode E w y with
    | NaN => decode E F r = NaN
    | Inf s => decode E F r = Zero s
    | Zero s => decode E F r = Inf s
    | Num s m e => (e + w = emax E -> decode E F r = Zero s)
    end.
Proof. exact (C40_newton_special E F w y). Qed.
Print Assumptions C40_inv_faithful_special.
Example C40_inv_faithful_special_at := C40_inv_faithful_special 8 23 23 0x140490FDB ltac:(hyp) ltac:(hyp) ltac:(hyp) ltac:(hyp) ltac:(hyp).
(** denorm_min(): no positive number is smaller. *)
Theorem C43_denorm_min E F : 1 <= E -> 1 <= F -> wf (E + F + 3) (lim_denorm_min E F) /\ (exists m e, decode E F (lim_denorm_min E F) = Num false m e) /\
  forall z m e, wf (E + F + 3) z -> decode E F z = Num false m e -> vcmp (decode E F (lim_denorm_min E F)) (decode E F z) <> Some Gt.
Proof.
  intros HE HF. destruct (C43_flopoco_limits E F HE HF) as ((_ & _ & A) & B & _ & _ & C & _). split; [exact A|]. split; [exact C|]. intros z m e Hz D. exact (proj2 (proj2 (B z false m e Hz D)) eq_refl).
Qed.
Print Assumptions C43_denorm_min.
Example C43_denorm_min_at := C43_denorm_min 8 23 ltac:(hyp) ltac:(hyp).
(** A fixval constant holds its value in a range of one value. *)
Theorem C37_constant s v : fix_constant s v = Some (Fixt s v v, v).
Proof. exact (mkfix_ok (Fixt s v v) v (conj (Z.le_refl v) (Z.le_refl v))). Qed.
Print Assumptions C37_constant.
Example C37_constant_at := C37_constant (-3) 21.
(** A 128-bit pair from a 64-bit word has that value; from an int, the int's value only if that is not negative. *)
Theorem C36_pair_of_words x : (0 <= x < 2 ^ 64 -> pval (p_u64 x) = x) /\ (0 <= x < 2 ^ 31 -> pval (p_int x) = x) /\
  (- 2 ^ 31 <= x < 0 -> pval (p_int x) = 2 ^ 64 + x).
Proof.
  unfold pval, p_u64, p_int, u64. cbn [FwPair.hi FwPair.lo]. split; [intros H|split; intros H].
  - rewrite Z.mul_0_l, Z.add_0_l. reflexivity.
  - rewrite Z.mul_0_l, Z.add_0_l. apply Z.mod_small. lia.
  - rewrite Z.mul_0_l, Z.add_0_l. rewrite <- (Z.mod_add x 1) by lia. rewrite Z.mod_small; lia.
Qed.
Print Assumptions C36_pair_of_words.
Example C36_pair_of_words_ex : pval (p_u64 (2 ^ 64 - 1)) = 2 ^ 64 - 1 /\ pval (p_int 77) = 77 /\ pval (p_int (-1)) = 2 ^ 64 - 1.
Proof. decide_example. Qed.
(** A new fw_uint is zero; one made from a bool, in the synthesis back ends, is 0 or 1. *)
Theorem C35_default W : 0 <= W -> m_default W = Some 0.
Proof. intros H. unfold m_default. replace (0 <=? W) with true by lia. reflexivity. Qed.
Print Assumptions C35_default.
Example C35_default_at := C35_default 17 ltac:(hyp).
Theorem C67_bool b : h_of_bool b = Some (if b then 1 else 0).
Proof. rewrite h_of_bool_ok. destruct b; reflexivity. Qed.
Print Assumptions C67_bool.
Example C67_bool_at := C67_bool true.
(** The fixed-point minus of the reciprocal adds: no use of it in the library, but a user's would be wrong unless y is zero
    or half the modulus. *)
Theorem C39_minus_refuted M L x y : 0 <= M - L -> 0 <= x < 2 ^ (M - L + 1) -> 0 <= y < 2 ^ (M - L + 1) ->
  (fix_minus M L x y = (x - y) mod 2 ^ (M - L + 1) <-> y = 0 \/ 2 * y = 2 ^ (M - L + 1)).
Proof.
  intros H Hx Hy. unfold fix_minus. rewrite fadd_eq by lia. set (p := 2 ^ (M - L + 1)) in *. split.
  - intros A. assert (D : (2 * y) mod p = 0). { replace (2 * y) with (x + y - (x - y)) by ring. rewrite Zminus_mod, A, Z.sub_diag. apply Z.mod_0_l. lia. }
    apply Z.mod_divide in D; [|lia]. destruct D as [k D]. assert (k = 0 \/ k = 1) by nia. destruct H0 as [-> | ->]; [left|right]; lia.
  - intros [-> | A]; [f_equal; lia|]. replace (x + y) with (x - y + 1 * p) by lia. apply Z.mod_add. lia.
Qed.
Print Assumptions C39_minus_refuted.
Example C39_minus_refuted_at := C39_minus_refuted 3 (-4) 77 5 ltac:(hyp) ltac:(hyp) ltac:(hyp).
