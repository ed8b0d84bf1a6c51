(** The random inputs of the test programs. *)
From Coq Require Import ZArith List Bool Lia.
From Verif Require Import SpecTests Fw FwLemmas Spec SpecLemmas Flopoco FlopocoLemmas MpfrLib Mpfr MpfrRange MpfrProofs MpfrProofs2 Policy PolicyProofs6 Tests TestsProofs.
Import ListNotations.
Open Scope Z_scope.

Lemma mp_one30 : mp_emax = 2 * 2 ^ 29 - 1 /\ mp_emin = - (2 * 2 ^ 29 - 1) /\ 1000 < 2 ^ 29. Proof. repeat split; reflexivity. Qed.
Lemma urandom_form F u : 1 <= F <= 128 -> 0 <= u < 2 ^ (F + 1) ->
  mpfr_urandomb (F + 1) u = Zero false \/ exists m e, mpfr_urandomb (F + 1) u = Num false m e /\ 2 ^ F <= m < 2 ^ (F + 1) /\ - (F + 1) <= e + F <= -1.
Proof.
  intros HF Hu. destruct mp_one30 as (R1 & R2 & R3). unfold mpfr_urandomb. destruct (u =? 0) eqn:U; [left; reflexivity|right].
  assert (L : 0 <= Z.log2 u <= F) by (split; [apply Z.log2_nonneg|assert (Z.log2 u < F + 1) by (apply Z.log2_lt_pow2; lia); lia]).
  rewrite mp_round_exact by lia. do 2 eexists. split; [reflexivity|]. replace (F + 1 - 1) with F by lia. pose proof (Z.log2_spec u ltac:(lia)) as LS. rewrite Z.pow_succ_r in LS by lia.
  assert (Q : 2 ^ F = 2 ^ Z.log2 u * 2 ^ (F - Z.log2 u)) by (rewrite <- Z.pow_add_r by lia; f_equal; lia). assert (0 < 2 ^ (F - Z.log2 u)) by (apply Z.pow_pos_nonneg; lia). rewrite (Z.pow_add_r 2 F 1) by lia. split; [|lia]. rewrite Q. change (2 ^ 1) with 2. nia.
Qed.
Lemma mag_unit F m n : 0 <= F -> 2 ^ F <= m < 2 ^ (F + 1) -> 2 ^ F <= n < 2 ^ (F + 1) -> -1 <= mag m n <= 0.
Proof.
  intros HF Hm Hn. assert (L : forall x, 2 ^ F <= x < 2 ^ (F + 1) -> Z.log2 x = F) by (intros x Hx; apply Z.log2_unique; [lia|]; replace (Z.succ F) with (F + 1) by lia; lia).
  unfold mag. rewrite !L by assumption. rewrite Z.sub_diag. cbv zeta. destruct (_ <? _); lia.
Qed.
Definition unit_v (F : Z) (v : fval) : Prop :=
  match v with Num _ m e => 2 ^ F <= m < 2 ^ (F + 1) /\ - (F + 2) <= e + F <= F + 2 | _ => True end.
Lemma ratio_form F a b : 1 <= F <= 128 -> 0 <= a < 2 ^ (F + 1) -> 0 <= b < 2 ^ (F + 1) -> unit_v F (mpfr_div (F + 1) RNDN (mpfr_urandomb (F + 1) a) (mpfr_urandomb (F + 1) b)).
Proof.
  intros HF Ha Hb. destruct (urandom_form F a HF Ha) as [-> |[m [e [-> [M1 M2]]]]]; destruct (urandom_form F b HF Hb) as [-> |[n [f [-> [N1 N2]]]]]; try exact I.
  cbn [mpfr_div]. destruct mp_one30 as (R1 & R2 & R3). pose proof (pow2_pos F ltac:(lia)) as PF. pose proof (mag_unit F m n ltac:(lia) M1 N1) as MG. rewrite mp_round_n by lia. pose proof (round_pos_range F m n ltac:(lia) ltac:(lia) ltac:(lia)) as R.
  assert (S : mag m n - F <= snd (round_pos F m n) <= mag m n - F + 1) by (unfold round_pos; cbv zeta; destruct (_ =? _); cbn [snd]; lia). destruct (round_pos F m n) as [q k]. cbn [fst snd] in *.
  replace (mp_emax <? k + (e - f) + (F + 1)) with false by lia. replace (k + (e - f) + (F + 1) <? mp_emin) with false by lia. cbn [unit_v]. lia.
Qed.
Definition small (E F w : Z) : Prop := plain E F w /\ forall s m e, decode E F w = Num s m e -> - (F + 2) <= e + F <= F + 2.
Lemma unit_word E F v : ok_ef E F -> unit_v F v -> exists w, fl_of_mpfr E F (F + 1) true v = Some w /\ small E F w.
Proof.
  intros OK V. assert (MO : mp_ok F v) by (destruct v; [exact I..|exact (proj1 V)]). assert (X : exists w, fl_of_mpfr E F (F + 1) true v = Some w /\ wf (E + F + 3) w /\ forall s m e, decode E F w = Num s m e -> v = Num s m e).
  { destruct v as [|s|s|s m e].
    - destruct (sp_nan E F OK) as [w [W1 [W2 W3]]]. exists w. rewrite W3. split; [exact W1|split; [exact W2|intros; discriminate]].
    - destruct (sp_inf E F s OK) as [w [W1 [W2 W3]]]. exists w. rewrite W3. split; [exact W1|split; [exact W2|intros; discriminate]].
    - destruct (sp_zero E F s OK) as [w [W1 [W2 W3]]]. exists w. rewrite W3. split; [exact W1|split; [exact W2|intros; discriminate]].
    - destruct OK as [HE HF]. destruct (fl_num E F s m e ltac:(lia) HF (proj1 V)) as [w [W1 [W2 W3]]]. exists w. split; [exact W1|]. split; [exact W2|]. intros s' m' e' D. rewrite W3 in D. unfold finish in D. destruct (_ <? emin E); [discriminate|]. destruct (_ <? _); [discriminate|]. exact D. }
  destruct X as [w [W1 [W2 W3]]]. exists w. split; [exact W1|]. split; [apply (fl_plain E F v); assumption|]. intros s m e D. rewrite (W3 s m e D) in V. cbn [unit_v] in V. lia.
Qed.
Lemma unit_neg F v : 1 <= F <= 128 -> unit_v F v -> unit_v F (mpfr_mul_neg1 (F + 1) RNDN v) /\ mpfr_mul_neg1 (F + 1) RNDN (mpfr_mul_neg1 (F + 1) RNDN v) = v.
Proof.
  intros HF V. destruct mp_one30 as (R1 & R2 & R3). destruct v as [|s|s|s m e]; [split; [exact I|reflexivity]|split; [exact I|destruct s; reflexivity]|split; [exact I|destruct s; reflexivity]|].
  cbn [unit_v] in V. assert (H30 : - 2 ^ 29 - 500 <= e + F <= 2 ^ 29 + 500) by lia. rewrite (neg1_num F HF s m e) by (apply V || exact H30). rewrite (neg1_num F HF (negb s) m e) by (apply V || exact H30). rewrite negb_involutive. split; [exact V|reflexivity].
Qed.
Lemma random_ok E F u n : ok_ef E F -> draws_ok F u -> forall fuel i l, (n <= length l + 2 * fuel)%nat ->
  exists l', push_random (flopoco_policy E F) u fuel i n l = Some (l ++ l') /\ Forall (small E F) l' /\ (Nat.max (length l) n <= length (l ++ l'))%nat /\ (l' = [] \/ length l < n /\ length (l ++ l') <= n + 1)%nat.
Proof.
  intros OK U. induction fuel as [|fuel IH]; intros i l H; cbn [push_random].
  - replace (length l <? n)%nat with false by (symmetry; apply Nat.ltb_ge; lia). exists []. rewrite app_nil_r. split; [reflexivity|]. split; [constructor|split; [lia|left; reflexivity]].
  - destruct (length l <? n)%nat eqn:L; [apply Nat.ltb_lt in L|apply Nat.ltb_ge in L; exists []; rewrite app_nil_r; split; [reflexivity|split; [constructor|split; [lia|left; reflexivity]]]].
    cbv zeta. change (digits (flopoco_policy E F)) with (F + 1). pose proof (ratio_form F (u i) (u (S i)) (proj2 OK) (U i) (U (S i))) as V. remember (mpfr_div _ _ _ _) as v.
    destruct (unit_neg F v (proj2 OK) V) as [V2 V3]. destruct (unit_word E F v OK V) as [a [A1 A2]]. destruct (unit_word E F _ OK V2) as [b [B1 B2]]. unfold push2. change (from_mpfr (flopoco_policy E F)) with (fl_of_mpfr E F (F + 1)). change (digits (flopoco_policy E F)) with (F + 1). rewrite A1. cbn [bind]. cbv zeta. rewrite B1. cbn [bind fst].
    destruct (IH (S (S i)) (l ++ [a; b]) ltac:(rewrite app_length; cbn [length]; lia)) as [l' [L1 [L2 [L3 L4]]]]. exists (a :: b :: l'). rewrite L1. rewrite <- app_assoc. cbn [app]. rewrite <- app_assoc in L3, L4. rewrite !app_length in *. cbn [app length] in *. split; [reflexivity|]. split; [constructor; [exact A2|constructor; [exact B2|exact L2]]|]. split; [lia|right]. split; [exact L|]. destruct L4 as [-> |L4]; [cbn [length]; lia|lia].
Qed.
(** All the inputs. *)
Theorem args_ok E F u n : 4 <= E <= 30 -> 1 <= F <= 128 -> draws_ok F u ->
  exists l, make_args E F u n = Some l /\ Forall (plain E F) l /\ Z.max (132 + 4 * F) (Z.of_nat n) <= Z.of_nat (length l) <= Z.max (132 + 4 * F) (Z.of_nat n + 1) /\
    (Z.of_nat n <= 132 + 4 * F -> Forall (fun w => decode E F w <> NaN) l).
Proof.
  intros HE HF U. assert (OK : ok_ef E F) by (split; lia). destruct (args_fixed E F HE HF) as [l [L1 [L2 [L3 [_ [_ L4]]]]]]. destruct (random_ok E F u n OK U n O l ltac:(lia)) as [l' [K1 [K2 [K3 K4]]]].
  exists (l ++ l'). rewrite L4, K1. split; [reflexivity|]. split; [apply Forall_app; split; [exact L1|eapply Forall_impl; [|exact K2]; intros w [W _]; exact W]|]. split; [destruct K4 as [-> |K4]; [rewrite app_nil_r in *; lia|lia]|].
  intros Hn. destruct K4 as [-> |K4]; [|exfalso; lia]. rewrite app_nil_r. exact L2.
Qed.
