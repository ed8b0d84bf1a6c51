(** In the default mode, near_even, the functions of SoftFloatFlagsMode.v are those of SoftFloatFlags.v. *)
From Coq Require Import ZArith Bool Lia.
From Verif Require Import Fw FwLemmas SoftFloat SoftFloatMode SoftFloatFlags SoftFloatFlagsMode.
Open Scope Z_scope.

Section Near.
Context (odd : bool) (E F U C : Z).
Context (HE : 3 <= E) (PK : forall sign, uw U (packUI E F sign (2 ^ E - 1) 0) = packUI E F sign (2 ^ E - 1) 0).
Local Notation near := softfloat_round_near_even.

Lemma roundPackFM_near sign e s : roundPackFM near odd E F U C sign e s = roundPackF E F U C sign e s.
Proof.
  unfold roundPackFM, roundPackF. change (near =? near) with true. change (near =? softfloat_round_odd) with false. rewrite !andb_false_r. cbv zeta. cbn [negb andb].
  rewrite ?andb_false_r, ?andb_true_r.
  replace (2 ^ (E - 1 - 1) =? 0) with false by (symmetry; apply Z.eqb_neq, Z.pow_nonzero; lia).
  change (Z.b2z false) with 0. rewrite Z.sub_0_r, PK. reflexivity.
Qed.
Ltac go := repeat (reflexivity || (apply roundPackFM_near) || match goal with
  | |- (if ?c then _ else _) = _ => destruct c
  | |- bind ?c _ = _ => destruct c; cbn [bind] end).
Lemma normRoundPackFM_near sign e s : normRoundPackFM near odd E F U C sign e s = normRoundPackF E F U C sign e s.
Proof. unfold normRoundPackFM, normRoundPackF. cbv zeta. go. Qed.
Lemma addMagsFM_near q a b : addMagsFM near odd E F U C q a b = addMagsF E F U C q a b.
Proof. unfold addMagsFM, addMagsF. cbv zeta. go. Qed.
Ltac go2 := repeat (reflexivity || (apply normRoundPackFM_near) || match goal with
  | |- (if ?c then _ else _) = _ => destruct c
  | |- bind ?c _ = _ => destruct c; cbn [bind] end).
Lemma subMagsFM_near a b : subMagsFM near odd E F U C a b = subMagsF E F U C a b.
Proof. unfold subMagsFM, subMagsF. cbv zeta. go2. Qed.
Lemma sf_addFM_near q a b : sf_addFM near odd E F U C q a b = sf_addF E F U C q a b.
Proof. unfold sf_addFM, sf_addF. rewrite addMagsFM_near, subMagsFM_near. reflexivity. Qed.
Lemma sf_mulFM_near m a b : sf_mulFM near odd E F U C m a b = sf_mulF E F U C m a b.
Proof. unfold sf_mulFM, sf_mulF. cbv zeta. go. Qed.
Lemma sf_divFM_near m a b : sf_divFM near odd E F U C m a b = sf_divF E F U C m a b.
Proof. unfold sf_divFM, sf_divF. cbv zeta. go. Qed.
End Near.
Lemma pk32 U sign : 32 <= U -> uw U (packUI 8 23 sign (2 ^ 8 - 1) 0) = packUI 8 23 sign (2 ^ 8 - 1) 0.
Proof.
  intros HU. unfold uw. apply Z.mod_small. assert (2 ^ 32 <= 2 ^ U) by (apply Z.pow_le_mono_r; lia).
  assert (0 <= packUI 8 23 sign (2 ^ 8 - 1) 0 < 2 ^ 32) by (destruct sign; vm_compute; split; (discriminate || reflexivity)). lia.
Qed.
Lemma pk64 sign : uw 64 (packUI 11 52 sign (2 ^ 11 - 1) 0) = packUI 11 52 sign (2 ^ 11 - 1) 0.
Proof. destruct sign; vm_compute; reflexivity. Qed.
