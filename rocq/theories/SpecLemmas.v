(** Facts about the specification used by all operator proofs. *)
From Coq Require Import ZArith Bool Lia.
From Verif Require Import Fw FwLemmas Spec.
Open Scope Z_scope.

Lemma rne_div_scale n d k : 0 < d -> 0 < k -> rne_div (n * k) (d * k) = rne_div n d.
Proof.
  intros Hd Hk. unfold rne_div.
  rewrite Z.div_mul_cancel_r by lia. rewrite Z.mul_mod_distr_r by lia.
  replace (2 * (n mod d * k)) with ((2 * (n mod d)) * k) by lia.
  destruct (Z.ltb_spec (2 * (n mod d)) d) as [H1|H1];
  destruct (Z.ltb_spec (2 * (n mod d) * k) (d * k)) as [H2|H2]; try reflexivity; try nia.
  destruct (Z.ltb_spec d (2 * (n mod d))) as [H3|H3];
  destruct (Z.ltb_spec (d * k) (2 * (n mod d) * k)) as [H4|H4]; try reflexivity; try nia.
Qed.

Lemma rne_div_cross n d n' d' : 0 < d -> 0 < d' -> n * d' = n' * d ->
  rne_div n d = rne_div n' d'.
Proof.
  intros Hd Hd' H. rewrite <- (rne_div_scale n d d'), <- (rne_div_scale n' d' d) by lia.
  f_equal; lia.
Qed.

Lemma rne_div_lower n d a : 0 < d -> a * d <= n -> a <= rne_div n d.
Proof.
  intros Hd H. unfold rne_div.
  assert (a <= n / d) by (apply Z.div_le_lower_bound; lia).
  destruct (_ <? _); [lia|]. destruct (_ <? _); [lia|]. destruct (Z.even _); lia.
Qed.

Lemma rne_div_upper n d b : 0 < d -> n <= b * d -> rne_div n d <= b.
Proof.
  intros Hd H. unfold rne_div.
  pose proof (Z.div_mod n d ltac:(lia)) as E. pose proof (Z.mod_pos_bound n d ltac:(lia)) as B.
  destruct (Z.ltb_spec (2 * (n mod d)) d) as [H1|H1]; [nia|].
  assert (0 < n mod d) by lia. assert (n / d < b) by nia.
  destruct (_ <? _); [lia|]. destruct (Z.even _); lia.
Qed.

Lemma rne_div_1 n : rne_div n 1 = n.
Proof. unfold rne_div. rewrite Z.mod_1_r, Z.div_1_r. reflexivity. Qed.

(** q = n/d is exact *)
Lemma rne_div_exact q d : 0 < d -> rne_div (q * d) d = q.
Proof.
  intros. unfold rne_div. rewrite Z.mod_mul, Z.div_mul by lia.
  destruct (Z.ltb_spec (2 * 0) d); [reflexivity|lia].
Qed.

(** ** Scaling by powers of two *)
Lemma num2_pos n k : 0 < n -> 0 < num2 n k.
Proof. intros; unfold num2. pose proof (pow2_pos (Z.max 0 k) ltac:(lia)). nia. Qed.
Lemma den2_pos d k : 0 < d -> 0 < den2 d k.
Proof. intros; unfold den2. pose proof (pow2_pos (Z.max 0 (- k)) ltac:(lia)). nia. Qed.

Lemma num2_den2_cross n d k c : 0 <= c -> 0 <= c + k ->
  num2 n k * (d * 2 ^ c) = (n * 2 ^ (c + k)) * den2 d k.
Proof.
  intros Hc Hck. unfold num2, den2.
  assert (2 ^ Z.max 0 k * 2 ^ c = 2 ^ (c + k) * 2 ^ Z.max 0 (- k)).
  { rewrite <- !pow2_add by lia. f_equal; lia. }
  transitivity (n * d * (2 ^ Z.max 0 k * 2 ^ c)); [ring|]. rewrite H. ring.
Qed.

Lemma ratio_le_iff a b c d k : a * d = c * b -> 0 < b -> 0 < d -> (k * b <= a <-> k * d <= c).
Proof. intros; split; intros; nia. Qed.

Lemma ratio_lt_iff a b c d k : a * d = c * b -> 0 < b -> 0 < d -> (a < k * b <-> c < k * d).
Proof. intros; split; intros; nia. Qed.

(** [mag] is floor(log2(n/d)). *)
Lemma mag_spec n d : 0 < n -> 0 < d ->
  den2 d (- mag n d) <= num2 n (- mag n d) < 2 * den2 d (- mag n d).
Proof.
  intros Hn Hd. unfold mag. set (k := Z.log2 n - Z.log2 d).
  pose proof (Z.log2_spec n Hn) as [Ln Un]. pose proof (Z.log2_spec d Hd) as [Ld Ud].
  pose proof (Z.log2_nonneg n) as Pn. pose proof (Z.log2_nonneg d) as Pd.
  rewrite <- Z.add_1_r in Un, Ud. rewrite pow2_S in Un, Ud by lia.
  assert (Hup : num2 n (- k) < 2 * den2 d (- k)).
  { pose proof (num2_den2_cross n d (- k) (Z.log2 n) ltac:(lia) ltac:(lia)) as X.
    replace (Z.log2 n + - k) with (Z.log2 d) in X by lia.
    pose proof (den2_pos d (- k) Hd). pose proof (pow2_pos (Z.log2 n) ltac:(lia)). pose proof (pow2_pos (Z.log2 d) ltac:(lia)).
    apply (ratio_lt_iff _ _ _ _ 2 X H ltac:(nia)). nia. }
  destruct (Z.ltb_spec (num2 n (- k)) (den2 d (- k))) as [Hlt|Hge]; [|lia].
  (* n/d < 2^k, so the exponent is k-1 *)
  pose proof (num2_den2_cross n d (- k) (Z.log2 n + 1) ltac:(lia) ltac:(lia)) as X.
  pose proof (num2_den2_cross n d (- (k - 1)) (Z.log2 n + 1) ltac:(lia) ltac:(lia)) as Y.
  replace (Z.log2 n + 1 + - k) with (Z.log2 d + 1) in X by lia.
  replace (Z.log2 n + 1 + - (k - 1)) with (Z.log2 d + 2) in Y by lia.
  pose proof (den2_pos d (- k) Hd) as D1. pose proof (den2_pos d (- (k - 1)) Hd) as D2.
  pose proof (pow2_pos (Z.log2 n) ltac:(lia)) as P1. pose proof (pow2_pos (Z.log2 d) ltac:(lia)) as P2.
  replace (Z.log2 d + 2) with (Z.log2 d + 1 + 1) in Y by lia.
  repeat rewrite pow2_S in X by lia. repeat rewrite pow2_S in Y by lia.
  split.
  - rewrite <- (Z.mul_1_l (den2 d _)).
    apply (ratio_le_iff _ _ _ _ 1 Y D2 ltac:(nia)).
    assert (d * 2 ^ Z.log2 n <= 2 * 2 ^ Z.log2 d * 2 ^ Z.log2 n) by (apply Z.mul_le_mono_nonneg_r; lia).
    assert (2 ^ Z.log2 n * 2 ^ Z.log2 d <= n * 2 ^ Z.log2 d) by (apply Z.mul_le_mono_nonneg_r; lia).
    lia.
  - apply (ratio_lt_iff _ _ _ _ 2 Y D2 ltac:(nia)).
    assert (Hlt' : num2 n (- k) < 1 * den2 d (- k)) by lia.
    apply (ratio_lt_iff _ _ _ _ 1 X D1 ltac:(nia)) in Hlt'. nia.
Qed.

Lemma mag_unique n d k : 0 < n -> 0 < d ->
  den2 d (- k) <= num2 n (- k) < 2 * den2 d (- k) -> mag n d = k.
Proof.
  intros Hn Hd Hk. pose proof (mag_spec n d Hn Hd) as Hm. set (j := mag n d) in *.
  assert (Hgen : forall a b, den2 d (- a) <= num2 n (- a) -> num2 n (- b) < 2 * den2 d (- b) -> a <= b).
  { clear Hk Hm. intros a b Ha Hb. destruct (Z_le_gt_dec a b) as [|Hgt]; [assumption|exfalso].
    set (c := Z.abs a + Z.abs b).
    pose proof (num2_den2_cross n d (- a) c ltac:(lia) ltac:(lia)) as X.
    pose proof (num2_den2_cross n d (- b) c ltac:(lia) ltac:(lia)) as Y.
    pose proof (den2_pos d (- a) Hd) as D1. pose proof (den2_pos d (- b) Hd) as D2.
    pose proof (pow2_pos c ltac:(lia)) as Pc.
    rewrite <- (Z.mul_1_l (den2 d _)) in Ha.
    apply (ratio_le_iff _ _ _ _ 1 X D1 ltac:(nia)) in Ha.
    apply (ratio_lt_iff _ _ _ _ 2 Y D2 ltac:(nia)) in Hb.
    assert (2 * 2 ^ (c + - a) <= 2 ^ (c + - b)).
    { rewrite <- pow2_S by lia. apply pow2_le; lia. }
    nia. }
  apply Z.le_antisymm; apply Hgen; lia.
Qed.

(** Renormalise after the rounding carried out of the significand. *)
Definition norm_me (F m e : Z) : Z * Z := if m =? 2 ^ (F + 1) then (2 ^ F, e + 1) else (m, e).

(** The rounding of n/d, computed from any fraction N/D equal to (n/d)*2^-e that lies in
    [2^F,2^(F+1)). *)
Lemma round_pos_char F n d e N D :
  0 <= F -> 0 < n -> 0 < d -> 0 < D ->
  N * den2 d (- e) = num2 n (- e) * D ->
  2 ^ F * D <= N < 2 ^ (F + 1) * D ->
  round_pos F n d = norm_me F (rne_div N D) e.
Proof.
  intros HF Hn Hd HD Hx [Hlo Hhi].
  assert (Hm : mag n d = e + F).
  { apply mag_unique; try assumption.
    set (c := Z.abs e + F).
    pose proof (num2_den2_cross n d (- (e + F)) c ltac:(lia) ltac:(lia)) as X.
    pose proof (num2_den2_cross n d (- e) c ltac:(lia) ltac:(lia)) as Y.
    pose proof (den2_pos d (- (e + F)) Hd) as D1. pose proof (den2_pos d (- e) Hd) as D2.
    pose proof (pow2_pos c ltac:(lia)) as Pc.
    assert (E2 : 2 ^ (c + - e) = 2 ^ F * 2 ^ (c + - (e + F))).
    { rewrite <- pow2_add by lia. f_equal; lia. }
    pose proof (pow2_pos (c + - (e + F)) ltac:(lia)) as Pq. pose proof (pow2_pos F HF) as PF.
    assert (Hx' : N * (d * 2 ^ c) = (n * 2 ^ (c + - e)) * D).
    { apply (Z.mul_reg_r _ _ (den2 d (- e))); [lia|].
      transitivity ((N * den2 d (- e)) * (d * 2 ^ c)); [ring|]. rewrite Hx.
      transitivity (num2 n (- e) * (d * 2 ^ c) * D); [ring|]. rewrite Y. ring. }
    apply (ratio_le_iff _ _ _ _ _ Hx' HD ltac:(nia)) in Hlo.
    apply (ratio_lt_iff _ _ _ _ _ Hx' HD ltac:(nia)) in Hhi.
    rewrite pow2_S in Hhi by lia. rewrite E2 in Hlo, Hhi.
    rewrite <- (Z.mul_1_l (den2 d (- (e + F)))) at 1. split.
    - apply (ratio_le_iff _ _ _ _ 1 X D1 ltac:(nia)). nia.
    - apply (ratio_lt_iff _ _ _ _ 2 X D1 ltac:(nia)). nia. }
  unfold round_pos. rewrite Hm. replace (e + F - F) with e by lia.
  rewrite (rne_div_cross (num2 n (- e)) (den2 d (- e)) N D); try assumption; try lia.
  - reflexivity.
  - apply den2_pos; assumption.
Qed.

(** The general form used by the operators: the exact value is (n/d)*2^k = (N/D)*2^e. *)
Lemma round_range_char lo hi F neg n d k e N D :
  0 <= F -> 0 < n -> 0 < d -> 0 < D ->
  N * den2 d (k - e) = num2 n (k - e) * D ->
  2 ^ F * D <= N < 2 ^ (F + 1) * D ->
  round_range lo hi F neg n d k = finish lo hi F neg (norm_me F (rne_div N D) e).
Proof.
  intros HF Hn Hd HD Hx Hr. unfold round_range.
  rewrite (round_pos_char F n d (e - k) N D); try assumption.
  - unfold norm_me. destruct (_ =? _); do 2 f_equal; lia.
  - replace (- (e - k)) with (k - e) by lia. exact Hx.
Qed.

(** ** Packing exponent and fraction in one integer *)
Lemma finish_norm E F neg m X :
  0 <= F -> 1 <= E -> 2 ^ F <= m <= 2 ^ (F + 1) ->
  let T := X * 2 ^ F + (m - 2 ^ F) in
  finish (emin E) (emax E) F neg (norm_me F m (X - bias E - F)) =
  if T <? 0 then Zero neg
  else if T <? 2 ^ (E + F) then Num neg (2 ^ F + T mod 2 ^ F) (T / 2 ^ F - bias E - F)
  else Inf neg.
Proof.
  intros HF HE Hm T. pose proof (pow2_pos F HF) as PF. pose proof (pow2_pos E ltac:(lia)) as PE.
  rewrite pow2_add by lia. rewrite pow2_S in Hm by lia.
  assert (HB : 2 ^ E = 2 * (bias E + 1)).
  { unfold bias. replace (2 ^ (E - 1) - 1 + 1) with (2 ^ (E - 1)) by lia.
    rewrite <- pow2_S by lia. f_equal; lia. }
  unfold norm_me. rewrite pow2_S by lia.
  destruct (Z.eqb_spec m (2 * 2 ^ F)) as [Hme|Hme].
  - assert (HT : T = (X + 1) * 2 ^ F) by (unfold T; lia).
    unfold finish, emin, emax. rewrite HT, Z.mod_mul, Z.div_mul by lia.
    destruct (Z.ltb_spec (X - bias E - F + 1 + F) (- bias E));
    destruct (Z.ltb_spec ((X + 1) * 2 ^ F) 0); try reflexivity; try nia.
    destruct (Z.ltb_spec (bias E + 1) (X - bias E - F + 1 + F));
    destruct (Z.ltb_spec ((X + 1) * 2 ^ F) (2 ^ E * 2 ^ F)); try reflexivity; try nia.
    f_equal; lia.
  - assert (HT : T = X * 2 ^ F + (m - 2 ^ F)) by (unfold T; lia).
    assert (HTd : T / 2 ^ F = X) by (rewrite HT; apply join_div; lia).
    assert (HTm : T mod 2 ^ F = m - 2 ^ F) by (rewrite HT; apply join_mod; lia).
    rewrite HTd, HTm, HT.
    unfold finish, emin, emax.
    destruct (Z.ltb_spec (X - bias E - F + F) (- bias E));
    destruct (Z.ltb_spec (X * 2 ^ F + (m - 2 ^ F)) 0); try reflexivity; try nia.
    destruct (Z.ltb_spec (bias E + 1) (X - bias E - F + F));
    destruct (Z.ltb_spec (X * 2 ^ F + (m - 2 ^ F)) (2 ^ E * 2 ^ F)); try reflexivity; try nia.
    f_equal; lia.
Qed.

(** Decoding a pattern assembled from its fields. *)
Lemma decode_fields E F fl (s : bool) body :
  0 <= E -> 0 <= F -> 0 <= body < 2 ^ (E + F) ->
  decode E F (fl * 2 ^ (E + F + 1) + Z.b2z s * 2 ^ (E + F) + body) =
  if fl =? 0 then Zero s
  else if fl =? 1 then Num s (2 ^ F + body mod 2 ^ F) (body / 2 ^ F - bias E - F)
  else if fl =? 2 then Inf s else NaN.
Proof.
  intros HE HF Hb. unfold decode.
  pose proof (pow2_pos F HF) as PF. pose proof (pow2_pos E HE) as PE.
  pose proof (pow2_pos (E + F) ltac:(lia)) as PEF.
  rewrite (pow2_S (E + F)) by lia.
  replace (fl * (2 * 2 ^ (E + F)) + Z.b2z s * 2 ^ (E + F) + body)
    with ((fl * 2 + Z.b2z s) * 2 ^ (E + F) + body) by ring.
  set (x := (fl * 2 + Z.b2z s) * 2 ^ (E + F) + body).
  assert (H1 : x / 2 ^ (E + F) = fl * 2 + Z.b2z s) by (apply join_div; lia).
  assert (H2 : x / (2 * 2 ^ (E + F)) = fl).
  { rewrite (Z.mul_comm 2), <- Z.div_div, H1 by lia.
    rewrite Z.add_comm, Z.div_add, Z.div_small by (destruct s; cbn; lia). lia. }
  assert (H3 : x mod 2 ^ F = body mod 2 ^ F).
  { unfold x. rewrite (pow2_add E F) by lia.
    replace ((fl * 2 + Z.b2z s) * (2 ^ E * 2 ^ F) + body)
      with (body + ((fl * 2 + Z.b2z s) * 2 ^ E) * 2 ^ F) by ring.
    apply Z.mod_add; lia. }
  assert (H4 : (x / 2 ^ F) mod 2 ^ E = body / 2 ^ F).
  { unfold x. rewrite (pow2_add E F) by lia.
    replace ((fl * 2 + Z.b2z s) * (2 ^ E * 2 ^ F) + body)
      with (body + ((fl * 2 + Z.b2z s) * 2 ^ E) * 2 ^ F) by ring.
    rewrite Z.div_add by lia. rewrite Z.mod_add by lia.
    apply Z.mod_small, div_pow_lt; try lia. replace (F + E) with (E + F) by lia. lia. }
  rewrite H1, H2, H3, H4.
  replace (Z.odd (fl * 2 + Z.b2z s)) with s.
  - reflexivity.
  - rewrite Z.odd_add, Z.odd_mul. destruct s; rewrite andb_false_r; reflexivity.
Qed.

(** The result of an operator: two flag bits chosen by the range of T, sign, and the low
    E+F bits of T. *)
Lemma pack_decode E F neg m X fl body :
  0 <= F -> 1 <= E -> 2 ^ F <= m <= 2 ^ (F + 1) ->
  let T := X * 2 ^ F + (m - 2 ^ F) in
  0 <= body < 2 ^ (E + F) ->
  (0 <= T < 2 ^ (E + F) -> body = T) ->
  fl = (if T <? 0 then 0 else if T <? 2 ^ (E + F) then 1 else 2) ->
  decode E F (fl * 2 ^ (E + F + 1) + Z.b2z neg * 2 ^ (E + F) + body) =
  finish (emin E) (emax E) F neg (norm_me F m (X - bias E - F)).
Proof.
  intros HF HE Hm T Hb HbT Hfl.
  rewrite decode_fields by lia. pose proof (finish_norm E F neg m X HF HE Hm) as Hfin.
  cbv zeta in Hfin. fold T in Hfin. rewrite Hfin. subst fl.
  destruct (Z.ltb_spec T 0) as [H1|H1]; [reflexivity|].
  destruct (Z.ltb_spec T (2 ^ (E + F))) as [H2|H2]; [|reflexivity].
  rewrite HbT by lia. reflexivity.
Qed.

(** Round-to-nearest-even from a round bit and a sticky bit. *)
Lemma rne_bits P K : 1 <= K ->
  rne_div P (2 ^ K) =
  P / 2 ^ K + (if Z.odd (P / 2 ^ (K - 1)) && (negb (P mod 2 ^ (K - 1) =? 0) || Z.odd (P / 2 ^ K))
               then 1 else 0).
Proof.
  intros HK. pose proof (pow2_pos (K - 1) ltac:(lia)) as PH. set (h := 2 ^ (K - 1)) in *.
  assert (E2 : 2 ^ K = h * 2).
  { unfold h. rewrite Z.mul_comm, <- pow2_S by lia. f_equal; lia. }
  rewrite E2. unfold rne_div.
  assert (Hq : P / (h * 2) = (P / h) / 2) by (rewrite Z.div_div; lia).
  assert (Hr : P mod (h * 2) = h * ((P / h) mod 2) + P mod h).
  { rewrite Z.rem_mul_r by lia. lia. }
  rewrite Hq, Hr. pose proof (Z.mod_pos_bound P h PH) as B. rewrite odd_mod2.
  rewrite <- Z.negb_odd. destruct (Z.odd (P / h)) eqn:Ho; cbn [Z.b2z andb].
  - destruct (Z.ltb_spec (2 * (h * 1 + P mod h)) (h * 2)); [lia|].
    destruct (Z.ltb_spec (h * 2) (2 * (h * 1 + P mod h))) as [H1|H1].
    + destruct (Z.eqb_spec (P mod h) 0); [lia|]. cbn [negb orb]. lia.
    + replace (P mod h) with 0 by lia. cbn [Z.eqb negb orb].
      destruct (Z.odd (P / h / 2)); cbn [negb]; lia.
  - destruct (Z.ltb_spec (2 * (h * 0 + P mod h)) (h * 2)); lia.
Qed.

(** The fields of a flopoco pattern. *)
Lemma flopoco_fields E F x : 1 <= E -> 1 <= F -> wf (E + F + 3) x ->
  exists fl s e f,
    0 <= fl < 4 /\ 0 <= e < 2 ^ E /\ 0 <= f < 2 ^ F /\
    x = fl * 2 ^ (E + F + 1) + Z.b2z s * 2 ^ (E + F) + (e * 2 ^ F + f) /\
    x mod 2 ^ F = f /\ (x / 2 ^ F) mod 2 ^ E = e /\ (x / 2 ^ (E + F)) mod 2 = Z.b2z s /\
    x / 2 ^ (E + F + 1) = fl /\ (x / 2 ^ (E + F + 1)) mod 4 = fl /\
    x mod 2 ^ (E + F) = e * 2 ^ F + f.
Proof.
  intros HE HF [H0 H1].
  pose proof (pow2_pos F ltac:(lia)) as PF. pose proof (pow2_pos E ltac:(lia)) as PE.
  pose proof (pow2_pos (E + F) ltac:(lia)) as PEF. pose proof (pow2_pos (E + F + 1) ltac:(lia)) as PG.
  set (fl := x / 2 ^ (E + F + 1)).
  set (s := Z.odd (x / 2 ^ (E + F))).
  set (e := (x / 2 ^ F) mod 2 ^ E). set (f := x mod 2 ^ F).
  assert (Hfl : 0 <= fl < 4).
  { apply (div_pow_lt x (E + F + 1) 2); try lia. replace (E + F + 1 + 2) with (E + F + 3) by lia. lia. }
  assert (He : 0 <= e < 2 ^ E) by (apply mod_pow_bound; lia).
  assert (Hf : 0 <= f < 2 ^ F) by (apply mod_pow_bound; lia).
  assert (X1 : x = 2 ^ F * (x / 2 ^ F) + f) by (apply div_mod_eq; lia).
  assert (X2 : x / 2 ^ F = 2 ^ E * (x / 2 ^ F / 2 ^ E) + e) by (apply div_mod_eq; lia).
  assert (X3 : x / 2 ^ F / 2 ^ E = x / 2 ^ (E + F)).
  { rewrite Z.div_div by lia. rewrite (pow2_add E F) by lia. f_equal; lia. }
  assert (X4 : x / 2 ^ (E + F) = 2 * fl + Z.b2z s).
  { unfold fl, s. rewrite <- odd_mod2. rewrite (pow2_S (E + F)) by lia.
    rewrite (Z.mul_comm 2 (2 ^ (E + F))). rewrite <- Z.div_div by lia. apply div_mod_eq; lia. }
  exists fl, s, e, f.
  assert (Hx : x = fl * 2 ^ (E + F + 1) + Z.b2z s * 2 ^ (E + F) + (e * 2 ^ F + f)).
  { rewrite X3, X4 in X2. rewrite X2 in X1. rewrite pow2_S by lia. rewrite (pow2_add E F) by lia. lia. }
  repeat split; try lia; try assumption; try reflexivity.
  - rewrite X4. rewrite Z.add_comm, Z.mul_comm, Z.mod_add by lia.
    apply Z.mod_small. destruct s; cbn; lia.
  - fold fl. apply Z.mod_small; lia.
  - rewrite Hx at 1.
    replace (fl * 2 ^ (E + F + 1) + Z.b2z s * 2 ^ (E + F) + (e * 2 ^ F + f))
      with ((2 * fl + Z.b2z s) * 2 ^ (E + F) + (e * 2 ^ F + f)) by (rewrite pow2_S by lia; ring).
    apply join_mod; [|lia]. rewrite (pow2_add E F) by lia. nia.
Qed.

(** Decoding in terms of fields. *)
Lemma decode_fields_ef E F fl s e f : 1 <= E -> 1 <= F -> 0 <= e < 2 ^ E -> 0 <= f < 2 ^ F ->
  decode E F (fl * 2 ^ (E + F + 1) + Z.b2z s * 2 ^ (E + F) + (e * 2 ^ F + f)) =
  if fl =? 0 then Zero s
  else if fl =? 1 then Num s (2 ^ F + f) (e - bias E - F)
  else if fl =? 2 then Inf s else NaN.
Proof.
  intros HE HF He Hf. pose proof (pow2_pos F ltac:(lia)) as PF.
  rewrite decode_fields by (try rewrite (pow2_add E F); nia).
  rewrite join_div, join_mod by lia. reflexivity.
Qed.

Lemma fields_bound E F fl (s : bool) body : 0 <= E -> 0 <= F -> 0 <= fl < 4 -> 0 <= body < 2 ^ (E + F) ->
  wf (E + F + 3) (fl * 2 ^ (E + F + 1) + Z.b2z s * 2 ^ (E + F) + body).
Proof.
  intros HE HF Hfl Hb. unfold wf. replace (E + F + 3) with (E + F + 1 + 2) by lia.
  rewrite (pow2_add (E + F + 1) 2) by lia. rewrite (pow2_S (E + F)) by lia.
  change (2 ^ 2) with 4. destruct s; cbn [Z.b2z]; nia.
Qed.
