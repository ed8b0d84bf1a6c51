(** The IEEE operators on flopoco arithmetic against IEEE arithmetic with subnormal numbers; proofs for C78. *)
From Coq Require Import ZArith Bool Lia.
From Verif Require Import Fw FwLemmas Spec SpecLemmas Spec754 SpecFtz Sf754Lemmas SfProofs2.
Open Scope Z_scope.

Lemma rne_near n d : 0 < d -> (2 * rne_div n d - 1) * d <= 2 * n <= (2 * rne_div n d + 1) * d.
Proof.
  intros H. unfold rne_div. cbv zeta. pose proof (Z.div_mod n d ltac:(lia)) as D. pose proof (Z.mod_pos_bound n d H) as M. set (q := n / d) in *. set (r := n mod d) in *. clearbody q r.
  destruct (Z.ltb_spec (2 * r) d); [nia|]. destruct (Z.ltb_spec d (2 * r)); [nia|]. destruct (Z.even q); nia.
Qed.
Lemma rne_above n d q : 0 < d -> (2 * q - 1) * d < 2 * n -> q <= rne_div n d.
Proof. intros H K. pose proof (rne_near n d H). nia. Qed.
Lemma nd_step n d j : num2 n (j + 1) * den2 d j = 2 * (num2 n j * den2 d (j + 1)).
Proof.
  unfold num2, den2. destruct (Z_le_gt_dec 0 j) as [H | H].
  - rewrite !(Z.max_r 0 (_ + _)), !(Z.max_l 0 (- _)), Z.max_r by lia. rewrite Z.pow_add_r by lia. change (2 ^ 1) with 2. ring.
  - rewrite !(Z.max_l 0 (j + 1)) by lia. rewrite (Z.max_l 0 j) by lia. rewrite !(Z.max_r 0 (- _)) by lia. replace (- j) with (- (j + 1) + 1) by lia. rewrite Z.pow_add_r by lia. change (2 ^ 1) with 2. ring.
Qed.
Lemma nd_shift n d j c : 0 <= c -> 0 < d -> 0 < n -> forall A, A * den2 d j <= num2 n j <-> A * 2 ^ c * den2 d (j + c) <= num2 n (j + c).
Proof.
  intros Hc Hd Hn. pattern c. apply Zlt_0_ind; [|exact Hc]. clear c Hc. intros c IH Hc A. destruct (Z.eq_dec c 0) as [-> | N]. { rewrite Z.add_0_r, Z.pow_0_r, Z.mul_1_r. reflexivity. }
  rewrite (IH (c - 1) ltac:(lia) A). replace (j + c) with (j + (c - 1) + 1) by lia. assert (Q : 2 ^ c = 2 ^ (c - 1) * 2) by (replace c with (c - 1 + 1) at 1 by lia; rewrite Z.pow_add_r by lia; reflexivity). rewrite Q. rewrite Z.mul_assoc. set (i := j + (c - 1)). pose proof (nd_step n d i) as S. pose proof (den2_pos d i Hd). pose proof (den2_pos d (i + 1) Hd). set (B := A * 2 ^ (c - 1)). clearbody B i.
  set (x := num2 n (i + 1)) in *. set (y := num2 n i) in *. set (u := den2 d i) in *. set (v := den2 d (i + 1)) in *. clearbody x y u v. split; intros K; nia.
Qed.
Section Round.
Context (E F : Z) (HE : 2 <= E) (HF : 1 <= F).
Notation lo := (1 - bias E - F).
Definition frel (w v : fval) : Prop :=
  match w with
  | Num t m e => if (e =? lo) && (m <? 2 ^ F) then v = Zero t else if (e =? lo) && (m =? 2 ^ F) then v = w \/ v = Zero t else v = w
  | _ => v = w
  end.
Lemma frel_refl_big t m e : 2 ^ F <= m -> frel (Num t m e) (Num t m e).
Proof. intros H. unfold frel. destruct (Z.eqb_spec e lo), (Z.ltb_spec m (2 ^ F)), (Z.eqb_spec m (2 ^ F)); cbn [andb]; try lia; try reflexivity. left. reflexivity. Qed.
Lemma round_rel neg n d k : 0 < n -> 0 < d -> frel (round754 E F neg n d k) (round_ieee E F neg n d k).
Proof.
  intros Hn Hd. assert (BP : 1 <= bias E). { unfold bias. assert (2 ^ 1 <= 2 ^ (E - 1)) by (apply Z.pow_le_mono_r; lia). lia. }
  assert (PF : 0 < 2 ^ F) by (apply Z.pow_pos_nonneg; lia). assert (P1 : 2 ^ (F + 1) = 2 * 2 ^ F) by (rewrite Z.pow_add_r by lia; lia).
  set (e := mag n d + k - F). assert (M : 2 ^ F * den2 d (k - e) <= num2 n (k - e) < 2 ^ (F + 1) * den2 d (k - e)).
  { pose proof (mag_spec n d Hn Hd) as [A B]. replace (k - e) with (- mag n d + F) by (unfold e; lia). split.
    - pose proof (proj1 (nd_shift n d (- mag n d) F ltac:(lia) Hd Hn 1)) as S. rewrite Z.mul_1_l in S. rewrite Z.mul_1_l in S. apply S. exact A.
    - destruct (Z_lt_ge_dec (num2 n (- mag n d + F)) (2 ^ (F + 1) * den2 d (- mag n d + F))) as [L | G]; [exact L|exfalso]. rewrite P1 in G. pose proof (proj2 (nd_shift n d (- mag n d) F ltac:(lia) Hd Hn 2)) as S. lia. }
  unfold round_ieee. rewrite (round_range_char _ _ F neg n d k e (num2 n (k - e)) (den2 d (k - e))) by (try apply den2_pos; try assumption; try lia).
  pose proof (den2_pos d (k - e) Hd) as PD. pose proof (rne_div_lower _ _ _ PD (proj1 M)) as RL. pose proof (rne_div_upper (num2 n (k - e)) (den2 d (k - e)) (2 ^ (F + 1)) PD ltac:(lia)) as RU.
  unfold round754. cbv zeta. fold e. unfold emin, emax.
  destruct (Z_le_gt_dec lo e) as [C | C].
  - rewrite Z.max_l by exact C. set (m := rne_div (num2 n (k - e)) (den2 d (k - e))) in *. clearbody m. clear M. clearbody e. unfold norm_me, finish. destruct (Z.eqb_spec m (2 ^ (F + 1))) as [Q | Q].
    + destruct (Z.eqb_spec m 0); [lia|]. destruct (Z.ltb_spec (e + 1 + F) (- bias E + 1)); [lia|]. replace (bias E + 1 - 1) with (bias E) by lia. destruct (bias E <? e + 1 + F); [reflexivity|]. apply frel_refl_big. lia.
    + destruct (Z.eqb_spec m 0); [lia|]. destruct (Z.ltb_spec (e + F) (- bias E + 1)); [lia|]. replace (bias E + 1 - 1) with (bias E) by lia. destruct (bias E <? e + F); [reflexivity|]. apply frel_refl_big. lia.
  - rewrite Z.max_r by lia. pose proof (den2_pos d (k - lo) Hd) as PL.
    assert (U : num2 n (k - lo) < 2 ^ F * den2 d (k - lo)).
    { destruct (Z_lt_ge_dec (num2 n (k - lo)) (2 ^ F * den2 d (k - lo))) as [L | G]; [exact L|exfalso]. pose proof (proj1 (nd_shift n d (k - lo) (lo - e) ltac:(lia) Hd Hn (2 ^ F)) ltac:(lia)) as S. replace (k - lo + (lo - e)) with (k - e) in S by lia.
      assert (2 ^ 1 <= 2 ^ (lo - e)) by (apply Z.pow_le_mono_r; lia). nia. }
    pose proof (rne_div_upper (num2 n (k - lo)) (den2 d (k - lo)) (2 ^ F) PL ltac:(lia)) as MU. pose proof (rne_div_lower (num2 n (k - lo)) (den2 d (k - lo)) 0 PL) as ML. pose proof (num2_pos n (k - lo) Hn) as PN.
    assert (X : e = lo - 1 -> rne_div (num2 n (k - e)) (den2 d (k - e)) = 2 ^ (F + 1) -> rne_div (num2 n (k - lo)) (den2 d (k - lo)) = 2 ^ F).
    { intros He Hr. apply Z.le_antisymm; [exact MU|]. apply rne_above; [exact PL|]. pose proof (rne_near (num2 n (k - e)) (den2 d (k - e)) PD) as [N1 _]. rewrite Hr, P1 in N1. pose proof (nd_step n d (k - lo)) as S. replace (k - lo + 1) with (k - e) in S by lia.
      set (x := num2 n (k - e)) in *. set (y := num2 n (k - lo)) in *. set (u := den2 d (k - lo)) in *. set (v := den2 d (k - e)) in *. set (p := 2 ^ F) in *. clearbody x y u v p. clear - N1 S PD PL PF. 
      assert ((2 * (2 * p) - 1) * v * u <= 4 * y * v) by nia. nia. }
    set (m := rne_div (num2 n (k - lo)) (den2 d (k - lo))) in *. set (m0 := rne_div (num2 n (k - e)) (den2 d (k - e))) in *. clearbody m m0. clear M U. clearbody e. unfold norm_me, finish.
    destruct (Z.eqb_spec m (2 ^ (F + 1))); [lia|]. destruct (Z.eqb_spec m 0) as [Q | Q].
    + destruct (Z.eqb_spec m0 (2 ^ (F + 1))) as [Q0 | Q0].
      * destruct (Z.ltb_spec (e + 1 + F) (- bias E + 1)); [reflexivity|]. exfalso. pose proof (X ltac:(lia) Q0). lia.
      * destruct (Z.ltb_spec (e + F) (- bias E + 1)); [reflexivity|lia].
    + destruct (Z.ltb_spec (bias E) (lo + F)); [lia|]. unfold frel. rewrite Z.eqb_refl. cbn [andb]. destruct (Z.eqb_spec m0 (2 ^ (F + 1))) as [Q0 | Q0].
      * destruct (Z.ltb_spec (e + 1 + F) (- bias E + 1)); [destruct (Z.ltb_spec m (2 ^ F)); [reflexivity|]; destruct (Z.eqb_spec m (2 ^ F)); [right; reflexivity|exfalso; lia]|].
        pose proof (X ltac:(lia) Q0) as Y. destruct (Z.ltb_spec (bias E + 1 - 1) (e + 1 + F)); [lia|]. destruct (Z.ltb_spec m (2 ^ F)); [lia|]. destruct (Z.eqb_spec m (2 ^ F)); [|lia]. left. rewrite Y. f_equal. lia.
      * destruct (Z.ltb_spec (e + F) (- bias E + 1)); [|lia]. destruct (Z.ltb_spec m (2 ^ F)); [reflexivity|]. destruct (Z.eqb_spec m (2 ^ F)); [right; reflexivity|exfalso; lia].
Qed.
Definition posn (v : fval) : Prop := match v with Num _ m _ => 0 < m | _ => True end.
Lemma mul_rel x y : posn x -> posn y -> frel (mul754 E F x y) (mul_ieee E F x y).
Proof. intros Hx Hy. destruct x as [|s|s|s m e], y as [|t|t|t n f]; try reflexivity. apply round_rel; cbn in *; nia. Qed.
Lemma div_rel x y : posn x -> posn y -> frel (div754 E F x y) (div_ieee E F x y).
Proof. intros Hx Hy. destruct x as [|s|s|s m e], y as [|t|t|t n f]; try reflexivity. apply round_rel; cbn in *; nia. Qed.
Lemma add_rel x y : posn x -> posn y -> frel (add754 E F x y) (add_ieee E F x y).
Proof.
  intros Hx Hy. destruct x as [|s|s|s m e], y as [|t|t|t n f]; try reflexivity; try (apply round_rel; cbn in *; lia).
  - unfold add754, add_ieee, add_gen. destruct (Bool.eqb s t); reflexivity.
  - unfold add754, add_ieee, add_gen. cbv zeta. destruct (Z.eqb_spec (sgn s (m * 2 ^ (e - Z.min e f)) + sgn t (n * 2 ^ (f - Z.min e f))) 0); [reflexivity|]. apply round_rel; lia.
Qed.
End Round.

Section Words.
Context (E F : Z) (HE : 3 <= E <= 15) (HF : 1 <= F).
Notation W := (E + F + 1).
Notation word := (SfProofs2.word E F).
Lemma fields s e f : 0 <= e < 2 ^ E -> 0 <= f < 2 ^ F -> expo_field E F (word s e f) = e /\ frac_field F (word s e f) = f /\ word s e f / 2 ^ (E + F) = Z.b2z s.
Proof.
  intros He Hf. assert (PF : 0 < 2 ^ F) by (apply Z.pow_pos_nonneg; lia). split; [|split].
  - unfold expo_field. rewrite <- Z.shiftr_div_pow2 by lia. rewrite (word_shiftr E F HE HF) by lia. rewrite Z.add_comm, Z_mod_plus_full. apply Z.mod_small. exact He.
  - apply (word_mod E F HE HF); lia.
  - pose proof (word_body E F HE HF s e f He Hf) as B. unfold SfProofs2.word. rewrite Z.add_comm, Z.div_add by (apply Z.pow_nonzero; lia). rewrite Z.div_small by exact B. lia.
Qed.
Lemma dec_ie_word s e f : 0 <= e < 2 ^ E -> 0 <= f < 2 ^ F -> decode_ieee E F (word s e f) =
  if e =? 0 then Zero s else if e =? 2 ^ E - 1 then if f =? 0 then Inf s else NaN else Num s (2 ^ F + f) (e - bias E - F).
Proof.
  intros He Hf. destruct (fields s e f He Hf) as [A [B C]]. unfold decode_ieee. cbv zeta. fold (expo_field E F (word s e f)) (frac_field F (word s e f)). rewrite A, B, C. replace (Z.odd (Z.b2z s)) with s by (destruct s; reflexivity). reflexivity.
Qed.
Lemma two_E : 8 <= 2 ^ E.
Proof. change 8 with (2 ^ 3). apply Z.pow_le_mono_r; lia. Qed.
Lemma flush_dec x : 0 <= x < 2 ^ W -> 0 <= flushed E F x < 2 ^ W /\ decode754 E F (flushed E F x) = decode_ieee E F x /\ posn (decode_ieee E F x).
Proof.
  intros Hx. pose proof two_E as P8. assert (PF : 0 < 2 ^ F) by (apply Z.pow_pos_nonneg; lia). destruct (word_split E F HE HF x Hx) as (s & e & f & -> & He & Hf). destruct (fields s e f He Hf) as [A [B C]]. unfold flushed, subnormal, signed_zero. rewrite A, B, C.
  rewrite (dec_ie_word s e f He Hf). assert (Z0 : Z.b2z s * 2 ^ (E + F) = word s 0 0) by (unfold SfProofs2.word; lia). rewrite Z0.
  destruct (Z.eqb_spec e 0) as [-> | N]; cbn [andb].
  - destruct (Z.eqb_spec f 0) as [-> | M]; cbn [negb]; (split; [apply (word_wf E F HE HF); lia|]); split; try exact I; rewrite (decode_word E F HE HF) by lia; destruct (Z.eqb_spec 0 (2 ^ E - 1)); try lia; reflexivity.
  - split; [exact Hx|]. rewrite (decode_word E F HE HF) by lia. destruct (Z.eqb_spec e (2 ^ E - 1)) as [K | K].
    + split; [reflexivity|]. destruct (f =? 0); exact I.
    + destruct (Z.eqb_spec e 0); [lia|]. split; [reflexivity|]. cbn. lia.
Qed.
Lemma ftz_of s r : 0 <= s < 2 ^ W -> 0 <= r < 2 ^ W -> (forall t, decode_ieee E F r = Zero t -> r = if t then 2 ^ (E + F) else 0) ->
  frel E F (decode754 E F s) (decode_ieee E F r) -> ftz_result E F s r.
Proof.
  intros Hs Hr CR. pose proof two_E as P8. assert (PF : 0 < 2 ^ F) by (apply Z.pow_pos_nonneg; lia).
  destruct (word_split E F HE HF s Hs) as (t & e & f & -> & He & Hf). destruct (word_split E F HE HF r Hr) as (u & g & h & -> & Hg & Hh). destruct (fields t e f He Hf) as [A [B C]]. destruct (fields u g h Hg Hh) as [A' [B' C']].
  assert (CR' : forall v, decode_ieee E F (word u g h) = Zero v -> word u g h = word v 0 0). { intros v K. rewrite (CR v K). unfold SfProofs2.word. destruct v; cbn [Z.b2z]; lia. }
  unfold ftz_result, nan_word, subnormal, smallest_normal, signed_zero. rewrite A, B, C, A', B'. assert (Z0 : Z.b2z t * 2 ^ (E + F) = word t 0 0) by (unfold SfProofs2.word; lia). rewrite Z0. clear CR.
  rewrite (decode_word E F HE HF) by lia. rewrite (dec_ie_word u g h) in * by lia.
  destruct (Z.eqb_spec e (2 ^ E - 1)) as [K1 | K1].
  - destruct (Z.eqb_spec f 0) as [K2 | K2]; cbn [andb negb frel]; intros R.
    + destruct (Z.eqb_spec e 0); [lia|]. destruct (Z.eqb_spec e 1); [lia|]. cbn [andb]. destruct (Z.eqb_spec g 0); [discriminate|]. destruct (Z.eqb_spec g (2 ^ E - 1)); [|discriminate]. destruct (Z.eqb_spec h 0); [|discriminate]. injection R as R. congruence.
    + destruct (Z.eqb_spec g 0); [discriminate|]. destruct (Z.eqb_spec g (2 ^ E - 1)); [|discriminate]. destruct (Z.eqb_spec h 0); [discriminate|]. reflexivity.
  - cbn [andb]. destruct (Z.eqb_spec e 0) as [K0 | K0].
    + destruct (Z.eqb_spec f 0) as [K2 | K2]; cbn [andb negb]; intros R.
      * destruct (Z.eqb_spec e 1); [lia|]. cbn [andb]. cbn [frel] in R. rewrite (CR' _ R). congruence.
      * unfold frel in R. rewrite Z.eqb_refl in R. cbn [andb] in R. destruct (Z.ltb_spec f (2 ^ F)); [|lia]. apply CR'. exact R.
    + cbn [andb]. intros R. unfold frel in R. destruct (Z.ltb_spec (2 ^ F + f) (2 ^ F)); [lia|]. rewrite andb_false_r in R.
      assert (V : (if g =? 0 then Zero u else if g =? 2 ^ E - 1 then if h =? 0 then Inf u else NaN else Num u (2 ^ F + h) (g - bias E - F)) = Num t (2 ^ F + f) (e - bias E - F) -> word u g h = word t e f).
      { destruct (Z.eqb_spec g 0); [discriminate|]. destruct (Z.eqb_spec g (2 ^ E - 1)); [destruct (h =? 0); discriminate|]. intros Q. pose proof (f_equal (fun v => match v with Num a _ _ => a | _ => u end) Q) as Q1. pose proof (f_equal (fun v => match v with Num _ a _ => a | _ => 0 end) Q) as Q2. pose proof (f_equal (fun v => match v with Num _ _ a => a | _ => 0 end) Q) as Q3. cbv beta iota in Q1, Q2, Q3. f_equal; [exact Q1|lia|lia]. }
      destruct (Z.eqb_spec (e - bias E - F) (1 - bias E - F)) as [K3 | K3]; cbn [andb] in R.
      * destruct (Z.eqb_spec e 1); [|lia]. destruct (Z.eqb_spec (2 ^ F + f) (2 ^ F)), (Z.eqb_spec f 0); try lia; cbn [andb].
        { destruct R as [R | R]; [left; apply V; exact R|right; apply CR'; exact R]. }
        { apply V. exact R. }
      * destruct (Z.eqb_spec e 1); [lia|]. cbn [andb]. apply V. exact R.
Qed.
End Words.
