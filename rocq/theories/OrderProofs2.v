(** The operators preserve order: proofs for C74. *)
From Coq Require Import ZArith Bool Lia Reals Lra.
From Flocq Require Import Core.
From Verif Require Import Fw FwLemmas Spec SpecLemmas SpecFma SpecFlocq SpecReal SpecOrder Flopoco CompareProofs FlopocoProofs ConvertProofs Mul MulProofs Div DivProofs3 AddDual AddDualProofs AddDualProofs5 AddSingle AddSingleProofs3 AddSingleProofs4 Fma FmaProofs4 Ieee IeeeProofs IeeeProofs2 RealProofs PolicyProofs2 OrderProofs OrderSingle.
From Verif Require ValueLemmas.
Open Scope Z_scope.

Lemma dec_okv E F x : 1 <= F -> okv (decode E F x).
Proof. intros H. exact (ValueLemmas.decode_pos E F x ltac:(lia)). Qed.
Lemma dec_num E F x s m e : 1 <= E -> 1 <= F -> decode E F x = Num s m e -> 2 ^ F <= m < 2 ^ (F + 1) /\ emin E <= e + F <= emax E.
Proof.
  intros HE HF D. split; [|exact (decode_in E F x s m e HE HF D)]. revert D. unfold decode. pose proof (pow2_pos F ltac:(lia)) as P. pose proof (Z.mod_pos_bound x (2 ^ F) P) as B. rewrite (Z.pow_add_r 2 F 1) by lia. destruct (_ =? 0); [discriminate|]. destruct (_ =? 1); [|destruct (_ =? 2); discriminate].
  intros Q. apply (f_equal (fun v => match v with Num _ k _ => k | _ => 0 end)) in Q. cbv beta iota in Q. rewrite <- Q. lia.
Qed.
Lemma order_up E F r s : 1 <= E -> 1 <= F -> wf (E + F + 3) r -> wf (E + F + 3) s -> le_spec (decode E F r) (decode E F s) = true -> not_above E F r s.
Proof.
  intros HE HF Wr Ws L. split; [exact L|].
  assert (C : (exists t, decode E F r = Inf t /\ decode E F s = Inf t) \/ ~ (exists t, decode E F r = Inf t /\ decode E F s = Inf t)).
  { destruct (decode E F r) as [|a| |]; try (right; intros [t [Q _]]; discriminate). destruct (decode E F s) as [|b| |]; try (right; intros [t [_ Q]]; discriminate). destruct a, b; try (left; eexists; split; reflexivity); right; intros [t [P Q]]; congruence. }
  destruct C as [C | C]; [right; exact C|left]. destruct (comparisons_correct E F E F r s HE HF HE HF Wr Ws C) as (_ & LE & _). rewrite LE, L. reflexivity.
Qed.
Lemma order_down EA FA EB FB x y : 1 <= EA -> 1 <= FA -> 1 <= EB -> 1 <= FB -> wf (EA + FA + 3) x -> wf (EB + FB + 3) y -> less_than_equal EA FA EB FB x y = Some 1 -> le_spec (decode EA FA x) (decode EB FB y) = true.
Proof.
  intros H1 H2 H3 H4 Wx Wy L.
  assert (C : (exists t, decode EA FA x = Inf t /\ decode EB FB y = Inf t) \/ ~ (exists t, decode EA FA x = Inf t /\ decode EB FB y = Inf t)).
  { destruct (decode EA FA x) as [|a| |]; try (right; intros [t [Q _]]; discriminate). destruct (decode EB FB y) as [|b| |]; try (right; intros [t [_ Q]]; discriminate). destruct a, b; try (left; eexists; split; reflexivity); right; intros [t [P Q]]; congruence. }
  destruct C as [[t [-> ->]] | C]; [destruct t; reflexivity|]. destruct (comparisons_correct EA FA EB FB x y H1 H2 H3 H4 Wx Wy C) as (_ & LE & _). rewrite LE in L. destruct (le_spec _ _); [reflexivity|discriminate].
Qed.
Lemma or_em E : 1 <= E -> emin E <= emax E.
Proof. intros H. apply em. exact H. Qed.

Lemma o_add EX FX EZ FZ x y z : let E := Z.max EX EZ in let F := Z.max FX FZ in 1 <= EX -> 1 <= FX -> 1 <= EZ -> 1 <= FZ -> dual_ok_width E F ->
  wf (EX + FX + 3) x -> wf (EX + FX + 3) y -> wf (EZ + FZ + 3) z -> le_spec (decode EX FX x) (decode EX FX y) = true ->
  exists r s, add_dual E F EX FX EZ FZ x z = Some r /\ add_dual E F EX FX EZ FZ y z = Some s /\ (decode E F r <> NaN -> decode E F s <> NaN -> not_above E F r s).
Proof.
  intros E F H1 H2 H3 H4 OK Wx Wy Wz L. destruct (add_dual_ok EX FX EZ FZ x z H1 H2 H3 H4 OK Wx Wz) as [r [Ar [Wr Dr]]]. destruct (add_dual_ok EX FX EZ FZ y z H1 H2 H3 H4 OK Wy Wz) as [s [As [Ws Ds]]].
  exists r, s. split; [exact Ar|]. split; [exact As|]. intros Nr Ns. fold E F in Wr, Ws, Dr, Ds. assert (1 <= E /\ 1 <= F) as [HE HF] by (unfold E, F; lia). apply order_up; try assumption. rewrite Dr, Ds in *. apply add_mono; try assumption; try (apply dec_okv; assumption); [lia|apply or_em; exact HE].
Qed.
Lemma o_mul wE wFR wFX wFZ x y z : 2 <= wE -> 1 <= wFX -> 1 <= wFZ -> 1 <= wFR < wFX + wFZ + 1 ->
  wf (wE + wFX + 3) x -> wf (wE + wFX + 3) y -> wf (wE + wFZ + 3) z -> le_spec (decode wE wFX x) (decode wE wFX y) = true ->
  exists r s, mul wE wFR wE wFX wFZ x z = Some r /\ mul wE wFR wE wFX wFZ y z = Some s /\ (decode wE wFR r <> NaN -> decode wE wFR s <> NaN ->
    (le_spec (Zero false) (decode wE wFZ z) = true -> not_above wE wFR r s) /\ (le_spec (decode wE wFZ z) (Zero false) = true -> not_above wE wFR s r)).
Proof.
  intros HE HX HZ HR Wx Wy Wz L. destruct (mul_round_correct wE wFR wFX wFZ x z HE HX HZ HR Wx Wz) as [r [Ar [Wr Dr]]]. destruct (mul_round_correct wE wFR wFX wFZ y z HE HX HZ HR Wy Wz) as [s [As [Ws Ds]]].
  exists r, s. split; [exact Ar|]. split; [exact As|]. intros Nr Ns. pose proof (or_em wE ltac:(lia)) as EM. split; intros Z; apply order_up; try assumption; try lia; rewrite Dr, Ds in *; [apply mul_mono|apply mul_anti]; try assumption; try (apply dec_okv; assumption); lia.
Qed.
Lemma o_square wE wFR wFX x y : 2 <= wE -> 1 <= wFX -> 1 <= wFR < wFX + wFX + 1 -> wf (wE + wFX + 3) x -> wf (wE + wFX + 3) y -> le_spec (Zero false) (decode wE wFX x) = true -> le_spec (decode wE wFX x) (decode wE wFX y) = true ->
  exists r s, square wE wFR wE wFX x = Some r /\ square wE wFR wE wFX y = Some s /\ not_above wE wFR r s.
Proof.
  intros HE HX HR Wx Wy P L. destruct (mul_round_correct wE wFR wFX wFX x x HE HX HX HR Wx Wx) as [r [Q [Wr Dr]]]. destruct (mul_round_correct wE wFR wFX wFX y y HE HX HX HR Wy Wy) as [s [Q' [Ws Ds]]].
  exists r, s. split; [exact Q|]. split; [exact Q'|]. pose proof (or_em wE ltac:(lia)) as EM. apply order_up; try assumption; try lia. rewrite Dr, Ds. clear Q Q' Dr Ds Wr Ws.
  pose proof (dec_okv wE wFX x HX) as Ox. pose proof (dec_okv wE wFX y HX) as Oy. unfold mul_spec, round_to. remember (decode wE wFX x) as vx. remember (decode wE wFX y) as vy. clear Heqvx Heqvy. destruct (le_not_nan _ _ L) as [Nx Ny]. assert (HF : 0 <= wFR) by lia.
  destruct (okv_cases vx Ox) as [Q | [[a ->] | Hx]]; [contradiction| |].
  - destruct a; [discriminate|]. rewrite (le_from_inf vy L). reflexivity.
  - assert (MX : mul_gen (round_range (emin wE) (emax wE) wFR) vx vx <> NaN). { pose proof (mul_real (emin wE) (emax wE) wFR HF EM vx vx Hx Hx) as R. intros Q. rewrite Q in R. exact R. }
    destruct (okv_cases vy Oy) as [Q | [[b ->] | Hy]]; [contradiction| |].
    { change (mul_gen (round_range (emin wE) (emax wE) wFR) (Inf b) (Inf b)) with (Inf (xorb b b)). rewrite xorb_nilpotent. apply le_inf_r. exact MX. }
    apply le_rv in L; try assumption. apply le_rv in P; [|exact I|exact Hx]. cbn [rv] in P. eapply rounded_mono; [exact HF|exact EM|apply mul_real; assumption|apply mul_real; assumption|]. apply Rmult_le_compat; lra.
Qed.
Lemma o_div wER wFR wEX wFX wEZ wFZ x y z : 1 <= wEX <= wER -> 1 <= wEZ <= wER -> 2 <= wER -> 1 <= wFX <= wFR -> 1 <= wFZ <= wFR ->
  wf (wEX + wFX + 3) x -> wf (wEX + wFX + 3) y -> wf (wEZ + wFZ + 3) z -> le_spec (decode wEX wFX x) (decode wEX wFX y) = true ->
  exists r s, div wER wFR wEX wFX wEZ wFZ x z = Some r /\ div wER wFR wEX wFX wEZ wFZ y z = Some s /\ (decode wER wFR r <> NaN -> decode wER wFR s <> NaN ->
    (lt_spec (Zero false) (decode wEZ wFZ z) = true -> not_above wER wFR r s) /\ (lt_spec (decode wEZ wFZ z) (Zero false) = true -> not_above wER wFR s r)).
Proof.
  intros H1 H2 H3 H4 H5 Wx Wy Wz L. destruct (div_v1_correct wER wFR wEX wFX wEZ wFZ x z H1 H2 H3 H4 H5 Wx Wz) as [r [Ar [Wr Dr]]]. destruct (div_v1_correct wER wFR wEX wFX wEZ wFZ y z H1 H2 H3 H4 H5 Wy Wz) as [s [As [Ws Ds]]].
  exists r, s. split; [exact Ar|]. split; [exact As|]. intros Nr Ns. pose proof (or_em wER ltac:(lia)) as EM. split; intros Z; apply order_up; try assumption; try lia; rewrite Dr, Ds in *; [apply div_mono|]; try assumption; try (apply dec_okv; lia); try lia.
  pose proof (dec_okv wEX wFX x ltac:(lia)) as Ox. pose proof (dec_okv wEX wFX y ltac:(lia)) as Oy. pose proof (dec_okv wEZ wFZ z ltac:(lia)) as Oz. unfold div_spec, round_to in *. remember (decode wEX wFX x) as vx. remember (decode wEX wFX y) as vy. remember (decode wEZ wFZ z) as vz. clear - Z L Nr Ns Ox Oy Oz EM H4.
  set (R := round_range (emin wER) (emax wER) wFR) in *.
  pose proof (div_neg (emin wER) (emax wER) wFR vx vz) as E1. pose proof (div_neg (emin wER) (emax wER) wFR vy vz) as E2. fold R in E1, E2.
  pose proof (div_neg_l (emin wER) (emax wER) wFR vx (neg_spec vz)) as E3. pose proof (div_neg_l (emin wER) (emax wER) wFR vy (neg_spec vz)) as E4. fold R in E3, E4. rewrite E1, neg_neg in E3. rewrite E2, neg_neg in E4. rewrite <- E3 in Nr |- *. rewrite <- E4 in Ns |- *.
  apply div_mono; try (apply neg_okv; assumption); try assumption; try lia; [|apply le_neg; assumption].
  destruct vz as [|[]|u|u k g]; try discriminate; try reflexivity. destruct u; [reflexivity|discriminate].
Qed.
Lemma o_div_r wER wFR wEX wFX wEZ wFZ x y z : 1 <= wEX <= wER -> 1 <= wEZ <= wER -> 2 <= wER -> 1 <= wFX <= wFR -> 1 <= wFZ <= wFR ->
  wf (wEX + wFX + 3) x -> wf (wEX + wFX + 3) y -> wf (wEZ + wFZ + 3) z -> lt_spec (Zero false) (decode wEX wFX x) = true -> le_spec (decode wEX wFX x) (decode wEX wFX y) = true -> le_spec (Zero false) (decode wEZ wFZ z) = true ->
  exists r s, div wER wFR wEZ wFZ wEX wFX z x = Some r /\ div wER wFR wEZ wFZ wEX wFX z y = Some s /\ (decode wER wFR r <> NaN -> decode wER wFR s <> NaN -> not_above wER wFR s r).
Proof.
  intros H1 H2 H3 H4 H5 Wx Wy Wz P L Q. destruct (div_v1_correct wER wFR wEZ wFZ wEX wFX z x H2 H1 H3 H5 H4 Wz Wx) as [r [Ar [Wr Dr]]]. destruct (div_v1_correct wER wFR wEZ wFZ wEX wFX z y H2 H1 H3 H5 H4 Wz Wy) as [s [As [Ws Ds]]].
  exists r, s. split; [exact Ar|]. split; [exact As|]. intros Nr Ns. pose proof (or_em wER ltac:(lia)) as EM. apply order_up; try assumption; try lia. rewrite Dr, Ds in *. apply div_anti_r; try assumption; try (apply dec_okv; lia); lia.
Qed.
Lemma o_convert ER FR EX FX x y : 1 <= ER -> 1 <= FR -> 1 <= EX -> 1 <= FX -> (ER <> EX \/ FX <= FR) -> wf (EX + FX + 3) x -> wf (EX + FX + 3) y -> le_spec (decode EX FX x) (decode EX FX y) = true ->
  exists r s, convert ER FR EX FX x = Some r /\ convert ER FR EX FX y = Some s /\ not_above ER FR r s.
Proof.
  intros H1 H2 H3 H4 D Wx Wy L. destruct (convert_correct ER FR EX FX x H1 H2 H3 H4 Wx ltac:(lia)) as [r [Ar [Wr Dr]]]. destruct (convert_correct ER FR EX FX y H1 H2 H3 H4 Wy ltac:(lia)) as [s [As [Ws Ds]]].
  exists r, s. split; [exact Ar|]. split; [exact As|]. pose proof (or_em ER ltac:(lia)) as EM. apply order_up; try assumption; try lia. rewrite Dr, Ds in *. apply convert_mono; try assumption; try (apply dec_okv; lia); lia.
Qed.
Lemma o_neg E F x y : 1 <= E -> 1 <= F -> wf (E + F + 3) x -> wf (E + F + 3) y -> le_spec (decode E F x) (decode E F y) = true ->
  exists r s, neg E F E F x = Some r /\ neg E F E F y = Some s /\ not_above E F s r.
Proof.
  intros H1 H2 Wx Wy L. destruct (neg_same_format E F x H1 H2 Wx) as [_ [r [Ar [Wr [_ Dr]]]]]. destruct (neg_same_format E F y H1 H2 Wy) as [_ [s [As [Ws [_ Ds]]]]].
  exists r, s. split; [exact Ar|]. split; [exact As|]. apply order_up; try assumption. rewrite Dr, Ds. apply le_neg; try assumption; apply dec_okv; assumption.
Qed.
