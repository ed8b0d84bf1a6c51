(** The operators in terms of real numbers. *)
From Coq Require Import ZArith Bool Lia Reals.
From Flocq Require Import Core Relative.
From Verif Require Import Fw FwLemmas Spec SpecLemmas SpecFma SpecFlocq SpecReal SpecDbl Flopoco Ieee Mul MulProofs Div DivProofs3 AddDual AddDualProofs AddDualProofs5 ConvertProofs IeeeProofs Mpfr MpfrProofs2 Dbl DblProofs DblProofs2.
Open Scope Z_scope.

Lemma em E : 1 <= E -> emin E <= emax E /\ (2 <= E -> emin E + 1 <= emax E - 1).
Proof. intros H. unfold emin, emax, bias. pose proof (pow2_pos (E - 1) ltac:(lia)). split; [lia|]. intros H2. assert (2 ^ 1 <= 2 ^ (E - 1)) by (apply pow2_le; lia). lia. Qed.
Lemma decode_ie_number E F x : 1 <= E -> 1 <= F -> wf (E + F + 1) x -> finite_v (decode_ieee E F x) -> number (decode_ieee E F x).
Proof.
  intros HE HF Hx. destruct (ie_view E F x HE HF Hx) as [s [e [f [O ->]]]]. rewrite decode_ipack by assumption. destruct O as (_ & _ & He & Hf). pose proof (pow2_pos F ltac:(lia)).
  destruct (e =? 0); [exact (fun h => h)|]. destruct (e =? 2 ^ E - 1); [destruct (f =? 0); exact (fun h => h)|]. intros _. cbn [number]. lia.
Qed.
Lemma mul_r wE wFR wFX wFY x y : 2 <= wE -> 1 <= wFX -> 1 <= wFY -> 1 <= wFR < wFX + wFY + 1 -> wf (wE + wFX + 3) x -> wf (wE + wFY + 3) y -> finite_v (decode wE wFX x) -> finite_v (decode wE wFY y) ->
  exists r, mul wE wFR wE wFX wFY x y = Some r /\ wf (wE + wFR + 3) r /\ rounded (emin wE) (emax wE) wFR (rv (decode wE wFX x) * rv (decode wE wFY y)) (decode wE wFR r).
Proof.
  intros HE HX HY HR Hx Hy Fx Fy. destruct (mul_round_correct wE wFR wFX wFY x y HE HX HY HR Hx Hy) as [r [A [B C]]]. exists r. split; [exact A|]. split; [exact B|]. rewrite C. apply mul_real; [lia|apply em; lia|apply decode_number; lia || assumption|apply decode_number; lia || assumption].
Qed.
Lemma div_r wER wFR wEX wFX wEY wFY x y : 1 <= wEX <= wER -> 1 <= wEY <= wER -> 2 <= wER -> 1 <= wFX <= wFR -> 1 <= wFY <= wFR -> wf (wEX + wFX + 3) x -> wf (wEY + wFY + 3) y ->
  finite_v (decode wEX wFX x) -> finite_v (decode wEY wFY y) -> rv (decode wEY wFY y) <> 0%R ->
  exists r, div wER wFR wEX wFX wEY wFY x y = Some r /\ wf (wER + wFR + 3) r /\ rounded (emin wER) (emax wER) wFR (rv (decode wEX wFX x) / rv (decode wEY wFY y)) (decode wER wFR r).
Proof.
  intros H1 H2 H3 H4 H5 Hx Hy Fx Fy N. destruct (div_v1_correct wER wFR wEX wFX wEY wFY x y H1 H2 H3 H4 H5 Hx Hy) as [r [A [B C]]]. exists r. split; [exact A|]. split; [exact B|]. rewrite C. apply div_real; [lia|apply em; lia|apply decode_number; lia || assumption|apply decode_number; lia || assumption|exact N].
Qed.
Lemma add_r wEX wFX wEY wFY x y : let E := Z.max wEX wEY in let F := Z.max wFX wFY in 1 <= wEX -> 1 <= wFX -> 1 <= wEY -> 1 <= wFY -> dual_ok_width E F -> wf (wEX + wFX + 3) x -> wf (wEY + wFY + 3) y ->
  finite_v (decode wEX wFX x) -> finite_v (decode wEY wFY y) ->
  exists r, add_dual E F wEX wFX wEY wFY x y = Some r /\ wf (E + F + 3) r /\ rounded (emin E) (emax E) F (rv (decode wEX wFX x) + rv (decode wEY wFY y)) (decode E F r).
Proof.
  intros E F H1 H2 H3 H4 H5 Hx Hy Fx Fy. destruct (add_dual_ok wEX wFX wEY wFY x y H1 H2 H3 H4 H5 Hx Hy) as [r [A [B C]]]. exists r. split; [exact A|]. split; [exact B|]. fold E F in C. rewrite C. apply add_real; [lia|apply em; lia|apply decode_number; lia || assumption|apply decode_number; lia || assumption].
Qed.
Lemma convert_r ER FR EX FX x : 1 <= ER -> 1 <= FR -> 1 <= EX -> 1 <= FX -> wf (EX + FX + 3) x -> finite_v (decode EX FX x) -> rv (decode EX FX x) <> 0%R ->
  exists r, convert ER FR EX FX x = Some r /\ wf (ER + FR + 3) r /\ rounded (emin ER) (emax ER) FR (rv (decode EX FX x)) (decode ER FR r).
Proof.
  intros H1 H2 H3 H4 Hx Fx N. destruct (convert_correct ER FR EX FX x H1 H2 H3 H4 Hx) as [r [A [B C]]].
  { intros (_ & _ & _ & D). destruct (decode EX FX x); try contradiction; apply N; reflexivity. }
  exists r. split; [exact A|]. split; [exact B|]. rewrite C. apply convert_real; [lia|apply em; lia|apply decode_number; assumption].
Qed.
Lemma w_mul_r E F a b : 2 <= E -> 1 <= F -> wf (E + F + 1) a -> wf (E + F + 1) b -> finite_v (decode_ieee E F a) -> finite_v (decode_ieee E F b) ->
  exists r, w_mul E F a b = Some r /\ wf (E + F + 1) r /\ rounded (emin E + 1) (emax E - 1) F (rv (decode_ieee E F a) * rv (decode_ieee E F b)) (decode_ieee E F r).
Proof.
  intros HE HF Ha Hb Fa Fb. destruct (w_mul_ok E F a b HE HF Ha Hb) as [r [A [B C]]]. exists r. split; [exact A|]. split; [exact B|]. rewrite C. apply mul_real; [lia|apply em; lia|apply decode_ie_number; assumption || lia|apply decode_ie_number; assumption || lia].
Qed.
Lemma w_div_r E F a b : 2 <= E -> 1 <= F -> wf (E + F + 1) a -> wf (E + F + 1) b -> finite_v (decode_ieee E F a) -> finite_v (decode_ieee E F b) -> rv (decode_ieee E F b) <> 0%R ->
  exists r, w_div E F a b = Some r /\ wf (E + F + 1) r /\ rounded (emin E + 1) (emax E - 1) F (rv (decode_ieee E F a) / rv (decode_ieee E F b)) (decode_ieee E F r).
Proof.
  intros HE HF Ha Hb Fa Fb N. destruct (w_div_ok E F a b HE HF Ha Hb) as [r [A [B C]]]. exists r. split; [exact A|]. split; [exact B|]. rewrite C. apply div_real; [lia|apply em; lia|apply decode_ie_number; assumption || lia|apply decode_ie_number; assumption || lia|exact N].
Qed.
Lemma w_add_r E F a b : dual_ok_width E F -> wf (E + F + 1) a -> wf (E + F + 1) b -> finite_v (decode_ieee E F a) -> finite_v (decode_ieee E F b) ->
  exists r, w_add E F a b = Some r /\ wf (E + F + 1) r /\ rounded (emin E + 1) (emax E - 1) F (rv (decode_ieee E F a) + rv (decode_ieee E F b)) (decode_ieee E F r).
Proof.
  intros H Ha Hb Fa Fb. destruct (w_add_ok E F a b H Ha Hb) as [r [A [B C]]]. exists r. split; [exact A|]. split; [exact B|]. rewrite C. destruct H as (H1 & H2 & _). apply add_real; [lia|apply em; lia|apply decode_ie_number; assumption || lia|apply decode_ie_number; assumption || lia].
Qed.
Lemma ref_fma_r ER FR EA FA EB FB EC FC a b c : ok_ef ER FR -> ok_ef EA FA -> ok_ef EB FB -> ok_ef EC FC -> wf (EA + FA + 3) a -> wf (EB + FB + 3) b -> wf (EC + FC + 3) c ->
  finite_v (decode EA FA a) -> finite_v (decode EB FB b) -> finite_v (decode EC FC c) ->
  exists r, ref_fma ER FR EA FA EB FB EC FC a b c = Some r /\ wf (ER + FR + 3) r /\ rounded (emin ER) (emax ER) FR (rv (decode EA FA a) * rv (decode EB FB b) + rv (decode EC FC c)) (decode ER FR r).
Proof.
  intros R A B C Ha Hb Hc Fa Fb Fc. destruct (ref_fma_ok ER FR EA FA EB FB EC FC a b c R A B C Ha Hb Hc) as [r [X [Y Z]]]. exists r. split; [exact X|]. split; [exact Y|]. rewrite Z. destruct R, A, B, C. apply fma_real; [lia|lia|apply decode_number; lia || assumption..].
Qed.
(** to_double_approx of a finite number: Flocq's nearest double. *)
Lemma to_double_approx_r E F x s m e : 1 <= E <= 30 -> 1 <= F <= 128 -> wf (E + F + 3) x -> decode E F x = Num s m e ->
  let r := round radix2 (FLT_exp (-1074) 53) ZnearestE (rv (decode E F x)) in
  exists v, to_double_approx E F x = Some v /\
    match v with
    | Num t n f => t = s /\ dbl (Num t n f) /\ rv (Num t n f) = r
    | Zero t => t = s /\ r = 0%R
    | Inf t => t = s /\ (bpow radix2 1024 <= Rabs r)%R
    | NaN => False
    end.
Proof.
  intros HE HF Hx D r. rewrite to_double_approx_ok by assumption. eexists. split; [reflexivity|]. unfold r. rewrite D. cbn [to_dbl]. rewrite rv_sgn. apply dbl_round_flocq. pose proof (ValueLemmas.decode_pos E F x ltac:(lia)) as P. rewrite D in P. exact P.
Qed.
(** A rounded number is within half a unit in the last place, relatively 2^-(F+1). *)
Lemma rounded_error lo hi F x t m e : 0 <= F -> rounded lo hi F x (Num t m e) -> (Rabs (rv (Num t m e) - x) <= bpow radix2 (- (F + 1)) * Rabs x)%R.
Proof.
  intros HF (_ & -> & _). pose proof (relative_error_N_FLX radix2 (F + 1) ltac:(unfold Prec_gt_0; lia) (fun z => negb (Z.even z)) x) as H. eapply Rle_trans; [exact H|]. apply Rmult_le_compat_r; [apply Rabs_pos|]. replace (- (F + 1) + 1) with (1 + - (F + 1)) by lia. rewrite (bpow_plus radix2 1). change (bpow radix2 1) with 2%R. apply Req_le. field.
Qed.
