(** Rounding and addition depend only on the value of their operands. *)
From Coq Require Import ZArith Bool Lia.
From Verif Require Import Fw FwLemmas Spec SpecLemmas FlopocoLemmas CompareProofs.
Open Scope Z_scope.

Definition pos_v (x : fval) : Prop := match x with Num _ m _ => 0 < m | _ => True end.

Lemma decode_pos E F x : 0 <= F -> pos_v (decode E F x).
Proof.
  intros HF. unfold decode. pose proof (pow2_pos F HF). pose proof (Z.mod_pos_bound x (2 ^ F) H).
  destruct (_ =? 0); [exact I|]. destruct (_ =? 1); [cbn; lia|]. destruct (_ =? 2); exact I.
Qed.

Lemma num2_scale n d x j : 0 <= j -> num2 (n * 2 ^ j) (x - j) * den2 d x = num2 n x * den2 d (x - j).
Proof.
  intros Hj. unfold num2, den2.
  assert (H : 2 ^ j * 2 ^ Z.max 0 (x - j) * 2 ^ Z.max 0 (- x) = 2 ^ Z.max 0 x * 2 ^ Z.max 0 (- (x - j))).
  { rewrite <- !pow2_add by lia. f_equal. lia. }
  transitivity (n * d * (2 ^ j * 2 ^ Z.max 0 (x - j) * 2 ^ Z.max 0 (- x))); [ring|]. rewrite H. ring.
Qed.

Lemma round_range_scale lo hi F s n k j : 0 <= F -> 0 < n -> 0 <= j ->
  round_range lo hi F s (n * 2 ^ j) 1 (k - j) = round_range lo hi F s n 1 k.
Proof.
  intros HF Hn Hj. pose proof (pow2_pos j Hj) as PJ.
  pose proof (mag_spec n 1 Hn ltac:(lia)) as Hm. remember (mag n 1) as g eqn:Eg.
  remember (k + g - F) as e.
  assert (Hnum : num2 n (k - e) * den2 1 (k - e) = num2 n (k - e) * den2 1 (k - e)) by reflexivity.
  pose proof (den2_pos 1 (k - e) ltac:(lia)) as PD.
  assert (HB : 2 ^ F * den2 1 (k - e) <= num2 n (k - e) < 2 ^ (F + 1) * den2 1 (k - e)).
  { replace (k - e) with (F - g) by lia.
    pose proof (num2_scale n 1 (F - g) F HF) as HC. replace (F - g - F) with (- g) in HC by lia.
    assert (HS : num2 (n * 2 ^ F) (- g) = 2 ^ F * num2 n (- g)) by (unfold num2; ring). rewrite HS in HC.
    rewrite pow2_S by lia. pose proof (pow2_pos F HF) as PF. pose proof (den2_pos 1 (F - g) ltac:(lia)) as PD2.
    pose proof (den2_pos 1 (- g) ltac:(lia)) as PD3. remember (num2 n (F - g)) as A. remember (den2 1 (F - g)) as B.
    remember (num2 n (- g)) as C. remember (den2 1 (- g)) as D. remember (2 ^ F) as P. clear - HC Hm PF PD2 PD3.
    split; nia. }
  rewrite (round_range_char lo hi F s n 1 k e (num2 n (k - e)) (den2 1 (k - e))) by (assumption || lia).
  apply round_range_char; try lia.
  replace (k - j - e) with (k - e - j) by lia. symmetry. apply num2_scale. assumption.
Qed.

Lemma round_range_val lo hi F s n k n' k' c : 0 <= F -> 0 < n -> 0 < n' -> c <= k -> c <= k' ->
  n * 2 ^ (k - c) = n' * 2 ^ (k' - c) -> round_range lo hi F s n 1 k = round_range lo hi F s n' 1 k'.
Proof.
  intros HF Hn Hn' Hc Hc' E.
  rewrite <- (round_range_scale lo hi F s n k (k - c)), <- (round_range_scale lo hi F s n' k' (k' - c)) by lia.
  rewrite E. f_equal. lia.
Qed.

Definition rnd_val (rnd : bool -> Z -> Z -> Z -> fval) : Prop :=
  forall s n k j, 0 < n -> 0 <= j -> rnd s (n * 2 ^ j) 1 (k - j) = rnd s n 1 k.

Lemma round_to_val E F : 0 <= F -> rnd_val (round_to E F).
Proof. intros HF s n k j Hn Hj. apply round_range_scale; assumption. Qed.
Lemma round_ieee_val E F : 0 <= F -> rnd_val (round_ieee E F).
Proof. intros HF s n k j Hn Hj. apply round_range_scale; assumption. Qed.

Lemma add_gen_comm rnd x y : add_gen rnd x y = add_gen rnd y x.
Proof.
  destruct x as [|s|s|s m e], y as [|t|t|t n f]; cbn [add_gen]; try reflexivity.
  - destruct s, t; reflexivity.
  - rewrite andb_comm. reflexivity.
  - rewrite Z.min_comm, Z.add_comm. reflexivity.
Qed.

Lemma sgn_scale s m p : sgn s (m * p) = sgn s m * p.
Proof. destruct s; cbn [sgn]; ring. Qed.

Lemma rnd_signed rnd v k j : rnd_val rnd -> 0 <= j ->
  (if v * 2 ^ j =? 0 then Zero false else rnd (v * 2 ^ j <? 0) (Z.abs (v * 2 ^ j)) 1 (k - j)) =
  (if v =? 0 then Zero false else rnd (v <? 0) (Z.abs v) 1 k).
Proof.
  intros Hr Hj. pose proof (pow2_pos j Hj) as P. destruct (Z.eqb_spec v 0) as [->|Hn].
  - rewrite Z.mul_0_l. reflexivity.
  - destruct (Z.eqb_spec (v * 2 ^ j) 0); [nia|]. rewrite Z.abs_mul, (Z.abs_eq (2 ^ j)) by lia. rewrite Hr by lia.
    f_equal. destruct (Z.ltb_spec (v * 2 ^ j) 0), (Z.ltb_spec v 0); (reflexivity || nia).
Qed.

Lemma add_gen_scale rnd d x y : rnd_val rnd -> 0 <= d -> pos_v x ->
  add_gen rnd (scale_v d x) y = add_gen rnd x y.
Proof.
  intros Hr Hd Hx. destruct x as [|s|s|s m e], y as [|t|t|t n f]; cbn [add_gen scale_v] in *; try reflexivity.
  - apply Hr; assumption.
  - cbn in Hx. set (k := Z.min e f). set (k' := Z.min (e - d) f).
    replace (m * 2 ^ d * 2 ^ (e - d - k')) with (m * 2 ^ (e - k) * 2 ^ (k - k')).
    2:{ rewrite <- !Z.mul_assoc, <- !pow2_add by lia. do 2 f_equal. lia. }
    replace (n * 2 ^ (f - k')) with (n * 2 ^ (f - k) * 2 ^ (k - k')).
    2:{ rewrite <- !Z.mul_assoc, <- !pow2_add by lia. do 2 f_equal. lia. }
    rewrite !(sgn_scale _ _ (2 ^ (k - k'))), <- Z.mul_add_distr_r.
    replace (rnd ((sgn s (m * 2 ^ (e - k)) + sgn t (n * 2 ^ (f - k))) * 2 ^ (k - k') <? 0)
       (Z.abs ((sgn s (m * 2 ^ (e - k)) + sgn t (n * 2 ^ (f - k))) * 2 ^ (k - k'))) 1 k')
      with (rnd ((sgn s (m * 2 ^ (e - k)) + sgn t (n * 2 ^ (f - k))) * 2 ^ (k - k') <? 0)
       (Z.abs ((sgn s (m * 2 ^ (e - k)) + sgn t (n * 2 ^ (f - k))) * 2 ^ (k - k'))) 1 (k - (k - k'))) by (f_equal; lia).
    apply rnd_signed; [assumption|lia].
Qed.

Lemma add_gen_scale2 rnd d d' x y : rnd_val rnd -> 0 <= d -> 0 <= d' -> pos_v x -> pos_v y ->
  add_gen rnd (scale_v d x) (scale_v d' y) = add_gen rnd x y.
Proof.
  intros. rewrite add_gen_scale by assumption. rewrite add_gen_comm, add_gen_scale by assumption. apply add_gen_comm.
Qed.
