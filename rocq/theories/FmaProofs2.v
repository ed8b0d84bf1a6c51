From Coq Require Import ZArith Bool Lia.
From Verif Require Import Fw FwLemmas Spec SpecLemmas SpecFma Flopoco FlopocoLemmas CompareProofs ConvertProofs ValueLemmas AddDual AddDualProofs AddDualProofs4 Fma FmaProofs.
Open Scope Z_scope.

Lemma rne_nearest n d q : 0 < d -> - d < 2 * (n - q * d) < d -> rne_div n d = q.
Proof.
  intros Hd H. unfold rne_div. destruct (Z_le_gt_dec 0 (n - q * d)) as [L|L].
  - replace n with (n - q * d + q * d) by lia. rewrite Z.div_add, Z.mod_add by lia. rewrite Z.div_small, Z.mod_small by lia.
    destruct (Z.ltb_spec (2 * (n - q * d)) d); lia.
  - replace n with (n - (q - 1) * d + (q - 1) * d) by lia. rewrite Z.div_add, Z.mod_add by lia. rewrite Z.div_small, Z.mod_small by lia.
    destruct (Z.ltb_spec (2 * (n - (q - 1) * d)) d); [lia|]. destruct (Z.ltb_spec d (2 * (n - (q - 1) * d))); lia.
Qed.

Lemma rne_near n d : 0 < d -> - d <= 2 * (n - rne_div n d * d) <= d.
Proof.
  intros Hd. unfold rne_div. pose proof (div_mod_eq n d Hd). pose proof (Z.mod_pos_bound n d Hd).
  destruct (Z.ltb_spec (2 * (n mod d)) d); [lia|]. destruct (Z.ltb_spec d (2 * (n mod d))); [lia|]. destruct (Z.even (n / d)); lia.
Qed.

(** Rounding twice is rounding once unless the first result is half way. *)
Lemma rne_rne n d K : 0 < d -> 1 <= K -> rne_div n d mod 2 ^ K <> 2 ^ (K - 1) -> rne_div (rne_div n d) (2 ^ K) = rne_div n (d * 2 ^ K).
Proof.
  intros Hd HK HT. remember (rne_div n d) as M eqn:EM. pose proof (rne_near n d Hd) as B1. rewrite <- EM in B1. clear EM.
  assert (EK : 2 ^ K = 2 * 2 ^ (K - 1)) by (rewrite <- pow2_S by lia; f_equal; lia). assert (PK : 0 < 2 ^ (K - 1)) by (apply pow2_pos; lia).
  pose proof (rne_near M (2 ^ K) ltac:(lia)) as B2. remember (rne_div M (2 ^ K)) as q eqn:Eq.
  assert (B3 : - (2 ^ (K - 1) - 1) <= M - q * 2 ^ K <= 2 ^ (K - 1) - 1).
  { assert (NH : forall j, M - j * 2 ^ K <> 2 ^ (K - 1)).
    { intros j Ej. apply HT. replace M with (2 ^ (K - 1) + j * 2 ^ K) by lia. rewrite Z.mod_add by lia. apply Z.mod_small. lia. }
    pose proof (NH q). pose proof (NH (q - 1)). lia. }
  symmetry. apply rne_nearest; [lia|]. clear - Hd B1 B3 EK PK.
  replace (2 * (n - q * (d * 2 ^ K))) with (2 * (n - M * d) + 2 * (M - q * 2 ^ K) * d) by ring.
  remember (M - q * 2 ^ K) as u eqn:Eu. remember (2 ^ (K - 1)) as h eqn:Eh. rewrite EK. clear Eu Eh EK. nia.
Qed.

Lemma round_to_log E F s n k : 0 <= F -> 0 < n ->
  round_to E F s n 1 k = finish (emin E) (emax E) F s (norm_me F (rne_div (n * 2 ^ F) (2 ^ Z.log2 n)) (Z.log2 n - F + k)).
Proof.
  intros HF Hn. pose proof (Z.log2_spec n Hn) as L. pose proof (Z.log2_nonneg n) as L0. remember (Z.log2 n) as c eqn:Ec. clear Ec.
  assert (Pc : 0 < 2 ^ c) by (apply pow2_pos; lia). assert (PF : 0 < 2 ^ F) by (apply pow2_pos; lia).
  unfold round_to. rewrite (round_range_char _ _ F s n 1 k (c - F + k) (n * 2 ^ F) (2 ^ c)); try lia; [reflexivity| |].
  - replace (k - (c - F + k)) with (F - c) by lia. pose proof (num2_den2_cross n 1 (F - c) c L0 ltac:(lia)) as Q. replace (c + (F - c)) with F in Q by lia.
    rewrite Z.mul_1_l in Q. symmetry. exact Q.
  - rewrite pow2_S by lia. rewrite <- Z.add_1_r, pow2_S in L by lia. clear - L Pc PF. nia.
Qed.

Lemma rne_bound n d a b : 0 < d -> a * d <= n -> n <= b * d -> a <= rne_div n d <= b.
Proof. intros. split; [apply rne_div_lower|apply rne_div_upper]; assumption. Qed.

Lemma double_round E F ER FR s n k : 1 <= ER < E -> 1 <= FR < F -> 0 < n ->
  (forall m e, round_to E F s n 1 k = Num s m e -> m mod 2 ^ (F - FR) <> 2 ^ (F - FR - 1) \/ cmp_num n k m e = Eq) ->
  convert_spec ER FR (round_to E F s n 1 k) = round_to ER FR s n 1 k.
Proof.
  intros HE HF Hn HT.
  assert (HB : emin E < emin ER /\ emax ER < emax E /\ emin ER <= emax ER).
  { pose proof (pow2_pos (ER - 1) ltac:(lia)). assert (2 ^ (ER - 1) < 2 ^ (E - 1)) by (apply Z.pow_lt_mono_r; lia). unfold emin, emax, bias. lia. }
  assert (PF : 0 < 2 ^ F) by (apply pow2_pos; lia). assert (PR : 0 < 2 ^ FR) by (apply pow2_pos; lia). assert (PK : 0 < 2 ^ (F - FR)) by (apply pow2_pos; lia).
  assert (EF : 2 ^ F = 2 ^ FR * 2 ^ (F - FR)) by (rewrite <- pow2_add by lia; f_equal; lia).
  pose proof (Z.log2_spec n Hn) as L. pose proof (Z.log2_nonneg n) as L0.
  assert (Pc : 0 < 2 ^ Z.log2 n) by (apply pow2_pos; lia). rewrite <- Z.add_1_r, pow2_S in L by lia.
  (* the two direct roundings *)
  pose proof (round_to_log E F s n k ltac:(lia) Hn) as W. pose proof (round_to_log ER FR s n k ltac:(lia) Hn) as D.
  remember (Z.log2 n) as c eqn:Ec. clear Ec.
  assert (BM : 2 ^ F <= rne_div (n * 2 ^ F) (2 ^ c) <= 2 * 2 ^ F) by (apply rne_bound; [lia|clear - L PF; nia|clear - L PF; nia]).
  assert (BR : 2 ^ FR <= rne_div (n * 2 ^ FR) (2 ^ c) <= 2 * 2 ^ FR) by (apply rne_bound; [lia|clear - L PR; nia|clear - L PR; nia]).
  assert (X : rne_div (n * 2 ^ FR) (2 ^ c) = rne_div (n * 2 ^ F) (2 ^ c * 2 ^ (F - FR))) by (rewrite EF, Z.mul_assoc, rne_div_scale by lia; reflexivity).
  assert (Y : rne_div (n * 2 ^ F) (2 ^ c) mod 2 ^ (F - FR) <> 2 ^ (F - FR - 1) -> rne_div (n * 2 ^ FR) (2 ^ c) = rne_div (rne_div (n * 2 ^ F) (2 ^ c)) (2 ^ (F - FR))).
  { intros T. rewrite X. symmetry. apply rne_rne; [lia|lia|exact T]. }
  remember (rne_div (n * 2 ^ F) (2 ^ c)) as M eqn:EM. remember (rne_div (n * 2 ^ FR) (2 ^ c)) as m eqn:Em. clear EM Em X.
  unfold norm_me in W, D. rewrite !pow2_S in W, D by lia. unfold finish in W, D.
  (* narrow results outside the wide range *)
  destruct (Z.eqb_spec M (2 * 2 ^ F)) as [E2|E2].
  - (* rounds up to a power of two *)
    assert (Ym : m = 2 * 2 ^ FR).
    { rewrite Y. - rewrite E2, EF, Z.mul_assoc. apply rne_div_exact. lia. - rewrite E2, EF, Z.mul_assoc, Z.mod_mul by lia. pose proof (pow2_pos (F - FR - 1) ltac:(lia)). lia. }
    destruct (Z.eqb_spec m (2 * 2 ^ FR)) as [_|]; [|lia].
    replace (c - F + k + 1 + F) with (c + k + 1) in W by lia. replace (c - FR + k + 1 + FR) with (c + k + 1) in D by lia.
    destruct (Z.ltb_spec (c + k + 1) (emin E)); [rewrite W, D; destruct (Z.ltb_spec (c + k + 1) (emin ER)); [reflexivity|lia]|].
    destruct (Z.ltb_spec (emax E) (c + k + 1)); [rewrite W, D; destruct (Z.ltb_spec (c + k + 1) (emin ER)); [lia|]; destruct (Z.ltb_spec (emax ER) (c + k + 1)); [reflexivity|lia]|].
    rewrite W, D. unfold convert_spec, convert_gen.
    rewrite EF. replace (c - F + k + 1) with (c - FR + k + 1 - (F - FR)) by lia. rewrite round_to_val by lia.
    unfold round_to. rewrite (round_range_char _ _ FR s (2 ^ FR) 1 (c - FR + k + 1) (c - FR + k + 1) (2 ^ FR) 1); [|lia|lia|lia|lia| |].
    + rewrite rne_div_1. unfold norm_me. rewrite pow2_S by lia. destruct (Z.eqb_spec (2 ^ FR) (2 * 2 ^ FR)); [lia|]. unfold finish. replace (c - FR + k + 1 + FR) with (c + k + 1) by lia. reflexivity.
    + rewrite Z.sub_diag. unfold num2, den2. cbn [Z.max Z.opp Z.compare]. change (2 ^ 0) with 1. ring.
    + rewrite pow2_S by lia. lia.
  - replace (c - F + k + F) with (c + k) in W by lia.
    assert (RN : finish (emin ER) (emax ER) FR s (if m =? 2 * 2 ^ FR then (2 ^ FR, c - FR + k + 1) else (m, c - FR + k)) = round_to ER FR s n 1 k) by (symmetry; exact D).
    rewrite <- RN. unfold finish.
    destruct (Z.ltb_spec (c + k) (emin E)).
    { rewrite W. cbn [convert_spec convert_gen]. unfold convert_spec, convert_gen. destruct (m =? 2 * 2 ^ FR).
      - destruct (Z.ltb_spec (c - FR + k + 1 + FR) (emin ER)); [reflexivity|lia].
      - destruct (Z.ltb_spec (c - FR + k + FR) (emin ER)); [reflexivity|lia]. }
    destruct (Z.ltb_spec (emax E) (c + k)).
    { rewrite W. unfold convert_spec, convert_gen. destruct (m =? 2 * 2 ^ FR).
      - destruct (Z.ltb_spec (c - FR + k + 1 + FR) (emin ER)); [lia|]. destruct (Z.ltb_spec (emax ER) (c - FR + k + 1 + FR)); [reflexivity|lia].
      - destruct (Z.ltb_spec (c - FR + k + FR) (emin ER)); [lia|]. destruct (Z.ltb_spec (emax ER) (c - FR + k + FR)); [reflexivity|lia]. }
    fold (finish (emin ER) (emax ER) FR s (if m =? 2 * 2 ^ FR then (2 ^ FR, c - FR + k + 1) else (m, c - FR + k))). rewrite RN.
    destruct (HT _ _ W) as [T|T].
    + rewrite W. unfold convert_spec, convert_gen. rewrite <- RN.
      unfold round_to. rewrite (round_range_char _ _ FR s M 1 (c - F + k) (c - FR + k) M (2 ^ (F - FR))); [|lia|lia|lia|lia| |].
      * rewrite <- Y by exact T. unfold norm_me. rewrite pow2_S by lia. reflexivity.
      * replace (c - F + k - (c - FR + k)) with (- (F - FR)) by lia. unfold num2, den2. rewrite Z.opp_involutive, (Z.max_r 0 (F - FR)), (Z.max_l 0 (- (F - FR))) by lia. change (2 ^ 0) with 1. ring.
      * rewrite pow2_S by lia. rewrite <- Z.mul_assoc, <- EF. lia.
    + rewrite W. unfold convert_spec, convert_gen, round_to.
      unfold cmp_num in T. apply Z.compare_eq in T.
      apply (round_range_val _ _ _ _ _ _ _ _ (Z.min k (c - F + k))); try lia.
Qed.

Lemma prod_pos E F E' F' x y : 0 <= F -> 0 <= F' -> pos_v (prod_exact (decode E F x) (decode E' F' y)).
Proof.
  intros H H'. pose proof (decode_pos E F x H) as A. pose proof (decode_pos E' F' y H') as B.
  destruct (decode E F x), (decode E' F' y); cbn in *; try exact I. apply Z.mul_pos_pos; assumption.
Qed.

Lemma double_add E F ER FR p z : 1 <= ER < E -> 1 <= FR < F -> pos_v p -> pos_v z ->
  (forall s m e, add_spec E F p z = Num s m e -> m mod 2 ^ (F - FR) <> 2 ^ (F - FR - 1) \/ veq (sum_exact p z) (Num s m e)) ->
  convert_spec ER FR (add_spec E F p z) = add_gen (round_to ER FR) p z.
Proof.
  intros HE HF Hp Hz. unfold add_spec, sum_exact.
  destruct p as [|s|s|s m e], z as [|t|t|t n f]; cbn [add_gen pos_v no_rounding] in *; intros H; try reflexivity.
  - destruct (Bool.eqb s t); reflexivity.
  - apply double_round; try assumption. intros m e K. destruct (H t m e K) as [A|A]; [left; exact A|right]. apply A.
  - apply double_round; try assumption. intros m' e' K. destruct (H s m' e' K) as [A|A]; [left; exact A|right]. apply A.
  - remember (sgn s (m * 2 ^ (e - Z.min e f)) + sgn t (n * 2 ^ (f - Z.min e f))) as v eqn:Ev.
    destruct (Z.eqb_spec v 0) as [V|V]; [reflexivity|]. apply double_round; [assumption..|lia|].
    intros m' e' K. destruct (H (v <? 0) m' e' K) as [A|A]; [left; exact A|right]. apply A.
Qed.

Theorem fma_rounds_once wER wFR wEX wFX wEY wFY wEZ wFZ x y z :
  1 <= wFR -> 1 <= wEX -> 1 <= wFX -> 1 <= wEY -> 1 <= wFY -> 1 <= wEZ -> 1 <= wFZ ->
  let E := Z.max (Z.max wEX wEY + 2) (wEZ + 1) in let F := Z.max (wFX + wFY + 2) wFZ in
  let p := prod_exact (decode wEX wFX x) (decode wEY wFY y) in let dz := decode wEZ wFZ z in
  dual_ok_width E F -> 1 <= wER < E -> wFR < F ->
  wf (wEX + wFX + 3) x -> wf (wEY + wFY + 3) y -> wf (wEZ + wFZ + 3) z ->
  (forall s m e, add_spec E F p dz = Num s m e -> m mod 2 ^ (F - wFR) <> 2 ^ (F - wFR - 1) \/ veq (sum_exact p dz) (Num s m e)) ->
  exists r, fma wER wFR wEX wFX wEY wFY wEZ wFZ x y z = Some r /\ wf (wER + wFR + 3) r /\
    decode wER wFR r = fma_spec wER wFR (decode wEX wFX x) (decode wEY wFY y) (decode wEZ wFZ z).
Proof.
  intros HFR HEX HFX HEY HFY HEZ HFZ E F p dz HD HE HF Wx Wy Wz HT.
  destruct (fma_two_roundings wER wFR wEX wFX wEY wFY wEZ wFZ x y z ltac:(lia) HFR HEX HFX HEY HFY HEZ HFZ HD ltac:(left; unfold E in HE; lia) Wx Wy Wz) as (r & R1 & R2 & R3).
  exists r. split; [exact R1|]. split; [exact R2|]. rewrite R3. apply double_add; [exact HE|lia|apply prod_pos; lia|apply decode_pos; lia|exact HT].
Qed.
