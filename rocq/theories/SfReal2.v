(** Order, exactness and error-free transformations over the IEEE interchange formats; proofs for C77. *)
From Coq Require Import ZArith Bool Lia Reals Lra.
From Flocq Require Import Core Sterbenz Pff2Flocq.
From Verif Require Import Fw FwLemmas Spec SpecLemmas Spec754 SpecFlocq SpecReal SpecFlocq754 SpecSf754 Sf754Lemmas SfProofs2 SfProofs7 OrderProofs ExactProofs2 ErrFreeProofs ErrFreeReal SfReal1.
Open Scope Z_scope.

Section Ops.
Context (E F : Z) (HE : 4 <= E <= 15) (HF : 1 <= F).
Notation W := (E + F + 1).
Notation lo := (1 - bias E - F).
Notation hi := (bias E + 1).
Notation dec := (decode754 E F).
Notation rl x := (rv (decode754 E F x)).
Notation rd := (rt lo F).

Lemma le_ninf w : nn w -> le754 (Inf true) w = true.
Proof. destruct w as [|[]|[]|t n f]; try contradiction; reflexivity. Qed.
Lemma le_pinf w : nn w -> le754 w (Inf false) = true.
Proof. destruct w as [|[]|[]|t n f]; try contradiction; reflexivity. Qed.
Lemma nn_cases v : nn v -> number v \/ exists s, v = Inf s.
Proof. destruct v as [|s|s|s m e]; intros H; [contradiction|right; exists s; reflexivity|left; exact I|left; exact H]. Qed.
Lemma num_nn v : number v -> nn v.
Proof. destruct v; cbn; tauto. Qed.
Lemma le_num x y : number x -> number y -> le754 x y = true -> (rv x <= rv y)%R.
Proof. intros Hx Hy. unfold le754. rewrite cmp754_real by assumption. destruct (Rcompare_spec (rv x) (rv y)); intros K; try discriminate; lra. Qed.
Lemma le_nn x y : le754 x y = true -> x <> NaN /\ y <> NaN.
Proof. destruct x, y; cbn; intros H; split; discriminate. Qed.
Lemma le_inf x : le754 (Inf false) x = true -> x = Inf false.
Proof. destruct x as [|[]|[]|t n f]; cbn; intros H; try discriminate; reflexivity. Qed.
Lemma le_to_ninf x : le754 x (Inf true) = true -> x = Inf true.
Proof. destruct x as [|[]|[]|t n f]; cbn; intros H; try discriminate; reflexivity. Qed.
Lemma le754_refl v : nn v -> le754 v v = true.
Proof. intros H. destruct (nn_cases v H) as [N | [s ->]]; [|destruct s; reflexivity]. unfold le754. rewrite cmp754_real by assumption. rewrite Rcompare_Eq by reflexivity. reflexivity. Qed.

Lemma HE2 : 2 <= E.
Proof. lia. Qed.
Lemma vadd_mono x y z : nn x -> nn y -> nn z -> le754 x y = true -> nn (add754 E F x z) -> nn (add754 E F y z) -> le754 (add754 E F x z) (add754 E F y z) = true.
Proof.
  intros Nx Ny Nz L Nr Ns. destruct (nn_cases x Nx) as [Mx | [s ->]], (nn_cases y Ny) as [My | [t ->]], (nn_cases z Nz) as [Mz | [u ->]].
  - apply (r754_mono E F HF (rv x + rv z) (rv y + rv z)); try assumption; [pose proof (le_num x y Mx My L); lra|apply add754_real; [exact HE2|exact HF|assumption|assumption]|apply add754_real; [exact HE2|exact HF|assumption|assumption]].
  - assert (A : forall v, number v -> add754 E F v (Inf u) = Inf u) by (intros v Hv; destruct v; try contradiction; reflexivity). rewrite !A by assumption. destruct u; reflexivity.
  - destruct t; [destruct x as [| | |]; try contradiction; discriminate|]. assert (A : add754 E F (Inf false) z = Inf false) by (destruct z; try contradiction; reflexivity). rewrite A. apply le_pinf. exact Nr.
  - destruct t; [destruct x as [| | |]; try contradiction; discriminate|]. destruct u; [contradiction|]. destruct x; try contradiction; reflexivity.
  - destruct s; [|destruct y as [| | |]; try contradiction; discriminate]. assert (A : add754 E F (Inf true) z = Inf true) by (destruct z; try contradiction; reflexivity). rewrite A. apply le_ninf. exact Ns.
  - destruct s; [|destruct y as [| | |]; try contradiction; discriminate]. destruct u; [|contradiction]. destruct y; try contradiction; reflexivity.
  - destruct s; [assert (A : add754 E F (Inf true) z = Inf true) by (destruct z; try contradiction; reflexivity); rewrite A; apply le_ninf; exact Ns|]. destruct t; [discriminate|]. apply le754_refl. exact Nr.
  - destruct s, t, u; try contradiction; try discriminate; reflexivity.
Qed.
Lemma vmul_mono x y z : nn x -> nn y -> nn z -> le754 x y = true -> nn (mul754 E F x z) -> nn (mul754 E F y z) ->
  (le754 (Zero false) z = true -> le754 (mul754 E F x z) (mul754 E F y z) = true) /\ (le754 z (Zero false) = true -> le754 (mul754 E F y z) (mul754 E F x z) = true).
Proof.
  intros Nx Ny Nz L Nr Ns.
  destruct (nn_cases x Nx) as [Mx | [s ->]], (nn_cases y Ny) as [My | [t ->]], (nn_cases z Nz) as [Mz | [u ->]].
  - pose proof (le_num x y Mx My L) as XY. split; intros LZ; apply le_num in LZ; try assumption; try exact I; cbn [rv] in LZ.
    + apply (r754_mono E F HF (rv x * rv z) (rv y * rv z)); try assumption; [nra|apply mul754_real; [exact HE2|exact HF|assumption|assumption]|apply mul754_real; [exact HE2|exact HF|assumption|assumption]].
    + apply (r754_mono E F HF (rv y * rv z) (rv x * rv z)); try assumption; [nra|apply mul754_real; [exact HE2|exact HF|assumption|assumption]|apply mul754_real; [exact HE2|exact HF|assumption|assumption]].
  - pose proof (le_num x y Mx My L) as XY. destruct x as [| | |s m e]; try contradiction. destruct y as [| | |t n f]; try contradiction.
    cbn [number] in *. pose proof (rv_pos s m e Mx) as PX. pose proof (rv_pos t n f My) as PY. destruct s, t, u; cbn; split; intros; try reflexivity; try discriminate; exfalso; cbv iota in PX, PY; lra.
  - destruct t; [destruct x as [| | |]; try contradiction; discriminate|]. destruct z as [| | |u k g]; try contradiction. destruct u; cbn [le754 cmp754]; split; intros; try discriminate; [apply le_ninf; exact Nr|apply le_pinf; exact Nr].
  - destruct t; [destruct x as [| | |]; try contradiction; discriminate|]. destruct x as [| | |s m e]; try contradiction. destruct s, u; cbn; split; intros; try reflexivity; discriminate.
  - destruct s; [|destruct y as [| | |]; try contradiction; discriminate]. destruct z as [| | |u k g]; try contradiction. destruct u; cbn [le754 cmp754]; split; intros; try discriminate; [apply le_pinf; exact Ns|apply le_ninf; exact Ns].
  - destruct s; [|destruct y as [| | |]; try contradiction; discriminate]. destruct y as [| | |s m e]; try contradiction. destruct s, u; cbn; split; intros; try reflexivity; discriminate.
  - destruct z as [| | |u k g]; try contradiction. destruct s, t, u; cbn; split; intros; try reflexivity; discriminate.
  - destruct s, t, u; cbn; split; intros; try reflexivity; discriminate.
Qed.
Lemma vdiv_mono x y z : nn x -> nn y -> nn z -> le754 x y = true -> lt754 (Zero false) z = true -> nn (div754 E F x z) -> nn (div754 E F y z) -> le754 (div754 E F x z) (div754 E F y z) = true.
Proof.
  intros Nx Ny Nz L LZ Nr Ns. destruct z as [|u|u|u k g]; try contradiction; try discriminate.
  - destruct u; [discriminate|]. destruct x as [|s|s|s m e], y as [|t|t|t n f]; try contradiction; reflexivity.
  - destruct u; [discriminate|]. cbn [nn] in Nz. pose proof (rv_pos false k g Nz) as PZ. cbv iota in PZ. destruct (nn_cases x Nx) as [Mx | [s ->]], (nn_cases y Ny) as [My | [t ->]].
    + pose proof (le_num x y Mx My L) as XY. assert (ZN : rv (Num false k g) <> 0%R) by lra. apply (r754_mono E F HF (rv x / rv (Num false k g)) (rv y / rv (Num false k g))); try assumption.
      * unfold Rdiv. apply Rmult_le_compat_r; [|exact XY]. left. apply Rinv_0_lt_compat. exact PZ.
      * apply div754_real; [exact HE2|exact HF|assumption|exact Nz|exact ZN].
      * apply div754_real; [exact HE2|exact HF|assumption|exact Nz|exact ZN].
    + destruct t; [destruct x as [| | |]; try contradiction; discriminate|]. apply le_pinf. exact Nr.
    + destruct s; [|destruct y as [| | |]; try contradiction; discriminate]. apply le_ninf. exact Ns.
    + destruct s, t; try discriminate; reflexivity.
Qed.
Lemma add_nan_r v : add754 E F v NaN = NaN.
Proof. destruct v; reflexivity. Qed.
Lemma mul_nan_r v : mul754 E F v NaN = NaN.
Proof. destruct v; reflexivity. Qed.

Definition okw (x : Z) : Prop := 0 <= x < 2 ^ W.
Definition op_ok (op : Z -> Z -> option Z) (sp : fval -> fval -> fval) : Prop := forall a b, okw a -> okw b -> exists r, op a b = Some r /\ okw r /\ dec r = sp (dec a) (dec b).
Context (add mul dv : Z -> Z -> option Z) (ADD : op_ok add (add754 E F)) (MUL : op_ok mul (mul754 E F)) (DIV : op_ok dv (div754 E F)).

Lemma dnn x : okw x -> dec x <> NaN -> nn (dec x).
Proof. intros [H _]. apply dec_nn; assumption. Qed.
Lemma s_add_order a b c : okw a -> okw b -> okw c -> le754 (dec a) (dec b) = true ->
  exists r s, add a c = Some r /\ add b c = Some s /\ (dec r <> NaN -> dec s <> NaN -> le754 (dec r) (dec s) = true).
Proof.
  intros Wa Wb Wc L. destruct (ADD a c Wa Wc) as [r [A [Wr Dr]]]. destruct (ADD b c Wb Wc) as [s [B [Ws Ds]]]. exists r, s. split; [exact A|]. split; [exact B|]. intros Nr Ns. pose proof (dnn r Wr Nr) as NNr. pose proof (dnn s Ws Ns) as NNs. rewrite Dr in NNr, Nr |- *. rewrite Ds in NNs |- *. destruct (le_nn _ _ L) as [Na Nb].
  apply vadd_mono; try assumption; apply dnn; try assumption. intros K. apply Nr. rewrite K. apply add_nan_r.
Qed.
Lemma s_mul_order a b c : okw a -> okw b -> okw c -> le754 (dec a) (dec b) = true ->
  exists r s, mul a c = Some r /\ mul b c = Some s /\ (dec r <> NaN -> dec s <> NaN ->
    (le754 (Zero false) (dec c) = true -> le754 (dec r) (dec s) = true) /\ (le754 (dec c) (Zero false) = true -> le754 (dec s) (dec r) = true)).
Proof.
  intros Wa Wb Wc L. destruct (MUL a c Wa Wc) as [r [A [Wr Dr]]]. destruct (MUL b c Wb Wc) as [s [B [Ws Ds]]]. exists r, s. split; [exact A|]. split; [exact B|]. intros Nr Ns. pose proof (dnn r Wr Nr) as NNr. pose proof (dnn s Ws Ns) as NNs. rewrite Dr in NNr, Nr |- *. rewrite Ds in NNs |- *. destruct (le_nn _ _ L) as [Na Nb].
  apply vmul_mono; try assumption; apply dnn; try assumption. intros K. apply Nr. rewrite K. apply mul_nan_r.
Qed.
Lemma s_div_order a b c : okw a -> okw b -> okw c -> le754 (dec a) (dec b) = true -> lt754 (Zero false) (dec c) = true ->
  exists r s, dv a c = Some r /\ dv b c = Some s /\ (dec r <> NaN -> dec s <> NaN -> le754 (dec r) (dec s) = true).
Proof.
  intros Wa Wb Wc L LC. destruct (DIV a c Wa Wc) as [r [A [Wr Dr]]]. destruct (DIV b c Wb Wc) as [s [B [Ws Ds]]]. exists r, s. split; [exact A|]. split; [exact B|]. intros Nr Ns. pose proof (dnn r Wr Nr) as NNr. pose proof (dnn s Ws Ns) as NNs. rewrite Dr in NNr, Nr |- *. rewrite Ds in NNs |- *. destruct (le_nn _ _ L) as [Na Nb].
  apply vdiv_mono; try assumption; apply dnn; try assumption. intros K. rewrite K in LC. discriminate.
Qed.
Lemma num_w x : okw x -> finite_v (dec x) -> number (dec x).
Proof. intros [H _]. apply decode754_number; assumption. Qed.
Lemma add_rr x y : okw x -> okw y -> finite_v (dec x) -> finite_v (dec y) -> exists r, add x y = Some r /\ okw r /\ rounded754 E F (rl x + rl y) (dec r).
Proof. intros Wx Wy Fx Fy. destruct (ADD x y Wx Wy) as [r [A [B D]]]. exists r. split; [exact A|]. split; [exact B|]. rewrite D. apply add754_real; [exact HE2|exact HF|apply num_w; assumption|apply num_w; assumption]. Qed.
(** Exact results. *)
Lemma s_exact o v w : okw w -> finite_v (dec w) -> v = rl w -> (exists r, o = Some r /\ okw r /\ rounded754 E F v (dec r)) ->
  exists r, o = Some r /\ okw r /\ finite_v (dec r) /\ rl r = v /\ (v <> 0%R -> r = w).
Proof.
  intros Ww Fw Q (r & A & B & R). destruct (word_num E F HE HF w Ww Fw) as [G L]. rewrite <- Q in G, L. destruct (r754_fits E F _ _ G L R) as [C D]. exists r. split; [exact A|]. split; [exact B|]. split; [exact C|]. split; [exact D|].
  intros N. apply (word_eq E F HE HF); try assumption; [rewrite D; exact Q|rewrite D; exact N].
Qed.
Lemma s_add_exact x y w : okw x -> okw y -> okw w -> finite_v (dec x) -> finite_v (dec y) -> finite_v (dec w) -> (rl x + rl y = rl w)%R ->
  exists r, add x y = Some r /\ okw r /\ finite_v (dec r) /\ rl r = rl w /\ (rl w <> 0%R -> r = w).
Proof. intros Wx Wy Ww Fx Fy Fw Q. rewrite <- Q. apply (s_exact _ _ w); try assumption. apply add_rr; assumption. Qed.
Lemma s_mul_exact x y w : okw x -> okw y -> okw w -> finite_v (dec x) -> finite_v (dec y) -> finite_v (dec w) -> (rl x * rl y = rl w)%R ->
  exists r, mul x y = Some r /\ okw r /\ finite_v (dec r) /\ rl r = rl w /\ (rl w <> 0%R -> r = w).
Proof.
  intros Wx Wy Ww Fx Fy Fw Q. rewrite <- Q. apply (s_exact _ _ w); try assumption. destruct (MUL x y Wx Wy) as [r [A [B D]]]. exists r. split; [exact A|]. split; [exact B|]. rewrite D. apply mul754_real; [exact HE2|exact HF|apply num_w; assumption|apply num_w; assumption].
Qed.
Lemma s_div_exact x y w : okw x -> okw y -> okw w -> finite_v (dec x) -> finite_v (dec y) -> rl y <> 0%R -> finite_v (dec w) -> (rl x / rl y = rl w)%R ->
  exists r, dv x y = Some r /\ okw r /\ finite_v (dec r) /\ rl r = rl w /\ (rl w <> 0%R -> r = w).
Proof.
  intros Wx Wy Ww Fx Fy Ny Fw Q. rewrite <- Q. apply (s_exact _ _ w); try assumption. destruct (DIV x y Wx Wy) as [r [A [B D]]]. exists r. split; [exact A|]. split; [exact B|]. rewrite D. apply div754_real; [exact HE2|exact HF|apply num_w; assumption|apply num_w; assumption|exact Ny].
Qed.
Lemma s_sterbenz x y : okw x -> okw y -> finite_v (dec x) -> finite_v (dec y) -> (rl y / 2 <= rl x <= 2 * rl y)%R ->
  exists r, add x (flip W y) = Some r /\ okw r /\ finite_v (dec r) /\ rl r = (rl x - rl y)%R.
Proof.
  intros Wx Wy Fx Fy S. destruct (flip_ok E F HE HF y Wy) as [Wn [Fn Vn]]. destruct (add_rr x (flip W y) Wx Wn Fx (Fn Fy)) as [r [A [B R]]]. rewrite Vn in R. exists r. split; [exact A|]. split; [exact B|].
  destruct (word_num E F HE HF x Wx Fx) as [Gx Bx]. destruct (word_num E F HE HF y Wy Fy) as [Gy By]. pose proof (PRF F HF) as PR. apply (r754_fits E F); [|apply Rle_lt_trans with (2 := By); rewrite (Rabs_pos_eq (rl y)) by lra; apply Rabs_le; lra|exact R].
  apply sterbenz; try assumption; typeclasses eauto.
Qed.
(** A difference is zero only if the operands are equal. *)
Lemma s_sub_zero x y : okw x -> okw y -> finite_v (dec x) -> finite_v (dec y) -> exists r, add x (flip W y) = Some r /\ okw r /\ (rl r = 0%R /\ finite_v (dec r) <-> rl x = rl y).
Proof.
  intros Wx Wy Fx Fy. destruct (flip_ok E F HE HF y Wy) as [Wn [Fn Vn]]. destruct (add_rr x (flip W y) Wx Wn Fx (Fn Fy)) as [r [A [B R]]]. rewrite Vn in R. exists r. split; [exact A|]. split; [exact B|].
  destruct (word_num E F HE HF x Wx Fx) as [Gx _]. destruct (word_num E F HE HF y Wy Fy) as [Gy _]. pose proof (PRF F HF) as PR. split.
  - intros [V FR]. destruct (Req_dec (rl x) (rl y)) as [Q | Q]; [exact Q|exfalso]. assert (C : coarse lo (rl x + - rl y)) by (apply coarse_sub; apply (flt_coarse lo F); try assumption; lia).
    pose proof (coarse_ge _ _ C ltac:(lra)) as G. assert (K : (bpow radix2 lo <= Rabs (rd (rl x + - rl y)))%R). { apply abs_round_ge_generic; try typeclasses eauto; try exact G. apply generic_format_FLT_bpow; [exact PR|lia]. }
    pose proof (bpow_gt_0 radix2 lo) as B0. unfold rounded754 in R. cbv zeta in R. destruct (dec r) as [|t|t|t n f]; try contradiction.
    + destruct R as [_ R]. rewrite R, Rabs_R0 in K. lra.
    + destruct R as [_ [R _]]. rewrite <- R, V, Rabs_R0 in K. lra.
  - intros Q. rewrite Q in R. replace (rl y + - rl y)%R with 0%R in R by ring. destruct (r754_fits E F _ _ (generic_format_0 _ _) ltac:(rewrite Rabs_R0; apply bpow_gt_0) R) as [C D]. split; assumption.
Qed.
(** Error-free transformations. *)
Notation Om := (top (bias E) F).
Notation U := (lastp (bias E) F).
Definition sfin (x : Z) : Prop := okw x /\ finite_v (dec x).
Lemma sfin_flip x : sfin x -> sfin (flip W x) /\ rl (flip W x) = (- rl x)%R.
Proof. intros [A B]. destruct (flip_ok E F HE HF x A) as [Wn [Fn Vn]]. split; [split; [exact Wn|exact (Fn B)]|exact Vn]. Qed.
Lemma sfin_flt x : sfin x -> flt lo F (rl x).
Proof. intros [A B]. apply (word_num E F HE HF x A B). Qed.
(** The largest number is 2^(E+F) - 2^F - 1, without the sign. *)
Lemma sfin_cases x : sfin x -> (Rabs (rl x) <= Om - U \/ Rabs (rl x) = Om /\ (x mod 2 ^ (E + F) = 2 ^ (E + F) - 2 ^ F - 1)%Z)%R.
Proof.
  intros [A B]. destruct (word_split E F ltac:(lia) HF x A) as (s & e & f & -> & He & Hf). rewrite decode_word in * by lia. pose proof (pow2_pos F ltac:(lia)) as PF.
  assert (BE : 2 ^ E = 2 * bias E + 2). { unfold bias. replace E with (E - 1 + 1) at 1 by lia. rewrite (Z.pow_add_r 2 (E - 1) 1) by lia. lia. }
  assert (F1 : 2 ^ (F + 1) = 2 * 2 ^ F) by (apply pow2_S; lia). pose proof (bias_pos E HE) as BP.
  assert (AB : forall m q, 0 <= m -> Rabs (rv (Num s m q)) = (IZR m * bpow radix2 q)%R).
  { intros m q Hm. rewrite rv_sgn. assert (0 <= IZR m * bpow radix2 q)%R by (apply Rmult_le_pos; [apply IZR_le; exact Hm|apply bpow_ge_0]). destruct s; cbn [sgnR]; [rewrite Rabs_Ropp|]; apply Rabs_pos_eq; assumption. }
  assert (Z0 : (0 <= Om - U)%R). { destruct (num_cases (bias E) F HF 0 (bias E - F) ltac:(lia) ltac:(lia)) as [K|K]; rewrite Rmult_0_l in K; [|exact K]. pose proof (Om_U (bias E) F HF). pose proof (U_pos (bias E) F). lra. }
  destruct (Z.eqb_spec e (2 ^ E - 1)); [destruct (f =? 0); contradiction|]. destruct (Z.eqb_spec e 0).
  - left. destruct (Z.eqb_spec f 0); [cbn [rv]; rewrite Rabs_R0; exact Z0|]. rewrite AB by lia. destruct (num_cases (bias E) F HF f (1 - bias E - F) ltac:(lia) ltac:(lia)) as [K|K]; [exfalso|exact K].
    assert (IZR f * bpow radix2 (1 - bias E - F) < Om)%R; [|lra]. unfold top, lastp. pose proof (bpow_le radix2 (1 - bias E - F) (bias E - F) ltac:(lia)). pose proof (bpow_gt_0 radix2 (1 - bias E - F)).
    assert (IZR f < IZR (2 ^ (F + 1) - 1))%R by (apply IZR_lt; lia). assert (0 <= IZR f)%R by (apply IZR_le; lia). nra.
  - rewrite AB by lia. destruct (num_cases (bias E) F HF (2 ^ F + f) (e - bias E - F) ltac:(lia) ltac:(lia)) as [K|K]; [right|left; exact K].
    split; [exact K|]. apply top_only in K; try lia. assert (e = 2 ^ E - 2 /\ f = 2 ^ F - 1) as [-> ->] by lia. unfold word.
    rewrite Z.add_comm, Z.mod_add by (pose proof (pow2_pos (E + F) ltac:(lia)); lia). rewrite (pow2_add E F) by lia. rewrite Z.mod_small; nia.
Qed.
Lemma sfin_le x : sfin x -> (Rabs (rl x) <= Om)%R.
Proof. intros H. pose proof (U_pos (bias E) F). destruct (sfin_cases x H) as [K|[K _]]; lra. Qed.
Lemma sfin_add x y : sfin x -> sfin y -> (Rabs (rd (rl x + rl y)) <= Om)%R -> exists r, add x y = Some r /\ sfin r /\ rl r = rd (rl x + rl y).
Proof.
  intros [Wx Fx] [Wy Fy] RB. destruct (add_rr x y Wx Wy Fx Fy) as [r [A [B R]]]. exists r. split; [exact A|]. pose proof (Om_lt (bias E) F HF) as BL. destruct (r754_range E F _ _ R ltac:(lra)) as [C D]. split; [split; assumption|exact D].
Qed.
Lemma sfin_sub x y : sfin x -> sfin y -> (Rabs (rd (rl x - rl y)) <= Om)%R -> exists r, add x (flip W y) = Some r /\ sfin r /\ rl r = rd (rl x - rl y).
Proof. intros Gx Gy RB. destruct (sfin_flip y Gy) as [Gn Vn]. destruct (sfin_add x _ Gx Gn) as [r H]; [rewrite Vn; exact RB|]. rewrite Vn in H. exists r. exact H. Qed.
Lemma sfin_first x y a : sfin x -> sfin y -> add x y = Some a -> finite_v (dec a) -> sfin a /\ rl a = rd (rl x + rl y).
Proof.
  intros [Wx Fx] [Wy Fy] A FA. destruct (add_rr x y Wx Wy Fx Fy) as [r [A' [B R]]]. rewrite A in A'. injection A' as <-. split; [split; assumption|].
  unfold rounded754 in R. cbv zeta in R. destruct (dec a) as [|t|t|t n f]; try contradiction; [symmetry; apply R|apply R].
Qed.
Lemma s_lo : lo <= 0 /\ lo + 1 <= bias E - F.
Proof. pose proof (bias_pos E HE). lia. Qed.
Lemma s_fast_two_sum x y a : sfin x -> sfin y -> (Rabs (rl y) <= Rabs (rl x))%R -> add x y = Some a -> finite_v (dec a) ->
  exists b, sf_fast_two_sum W add x y = Some (a, b) /\ finite_v (dec b) /\ (rl a + rl b = rl x + rl y)%R.
Proof.
  intros Sx Sy L Aa FA. destruct (sfin_first x y a Sx Sy Aa FA) as [Ga Va]. pose proof (sfin_le a Ga) as Ba. rewrite Va in Ba. destruct s_lo as [L0 L1].
  destruct (fast_real lo (bias E) F HF L0 L1 _ _ (sfin_flt x Sx) (sfin_flt y Sy) (sfin_le x Sx) Ba L) as [Bz [Bb Q]]. rewrite <- Va in Bz, Bb, Q.
  destruct (sfin_sub x a Sx Ga Bz) as [z [Az [Gz Vz]]]. rewrite <- Vz in Bb, Q. destruct (sfin_add y z Sy Gz Bb) as [b [Ab [Gb Vb]]].
  exists b. unfold sf_fast_two_sum. rewrite Aa. cbn [bind]. rewrite Az. cbn [bind]. rewrite Ab. cbn [bind]. split; [reflexivity|]. split; [apply Gb|]. rewrite Vb. exact Q.
Qed.
Lemma s_two_sum x y a : sfin x -> sfin y -> y mod 2 ^ (E + F) <> 2 ^ (E + F) - 2 ^ F - 1 -> add x y = Some a -> finite_v (dec a) ->
  exists b, sf_two_sum W add x y = Some (a, b) /\ finite_v (dec b) /\ (rl a + rl b = rl x + rl y)%R.
Proof.
  intros Sx Sy NY Aa FA. destruct (sfin_first x y a Sx Sy Aa FA) as [Ga Va]. pose proof (sfin_le a Ga) as Ba. rewrite Va in Ba. destruct s_lo as [L0 L1].
  destruct (sfin_cases y Sy) as [Cy|[_ Cy]]; [|contradiction]. assert (Cx : (Rabs (rl x) = Om \/ Rabs (rl x) <= Om - U)%R) by (destruct (sfin_cases x Sx) as [K|[K _]]; [right|left]; exact K).
  destruct (two_real lo (bias E) F HF L0 L1 _ _ (sfin_flt x Sx) (sfin_flt y Sy) Cx Cy Ba) as [B1 [B2 [B3 [B4 [B5 Q]]]]]. rewrite <- Va in *.
  destruct (sfin_sub a x Ga Sx B1) as [x' [Ax [Gx Vx]]]. rewrite <- Vx in *. destruct (sfin_sub a x' Ga Gx B2) as [t [At [Gt Vt]]]. rewrite <- Vt in *.
  destruct (sfin_sub x t Sx Gt B3) as [dx [Adx [Gdx Vdx]]]. rewrite <- Vdx in *. destruct (sfin_sub y x' Sy Gx B4) as [dy [Ady [Gdy Vdy]]]. rewrite <- Vdy in *.
  destruct (sfin_add dx dy Gdx Gdy B5) as [b [Ab [Gb Vb]]].
  exists b. unfold sf_two_sum. rewrite Aa. cbn [bind]. rewrite Ax. cbn [bind]. rewrite At. cbn [bind]. rewrite Adx. cbn [bind]. rewrite Ady. cbn [bind]. rewrite Ab. cbn [bind]. split; [reflexivity|]. split; [apply Gb|]. rewrite Vb. exact Q.
Qed.
End Ops.
