(** Tactics for the instances beside the theorems: "Example T_at := T args ltac:(hyp) ..." is the theorem T at concrete
    arguments, and compiles only if the arguments meet every hypothesis of T. *)
From Coq Require Import ZArith Bool List Lia.
Open Scope Z_scope.

Ltac hyp_closed := vm_compute; repeat split; first [reflexivity | discriminate | congruence].
Ltac hyp :=
  cbv zeta;
  first
    [ match goal with
      | |- Forall _ (cons _ _) => repeat first [apply Forall_cons; [hyp|] | apply Forall_nil]
      | |- forall a, In a _ -> _ => let H := fresh in cbn [In]; intros ? H; repeat destruct H as [H | H]; first [contradiction | subst; hyp]
      end
    | exact I | lia | reflexivity | solve [hyp_closed] | discriminate
    | solve [split; hyp] | solve [left; hyp] | solve [right; hyp]
    | solve [progress (repeat constructor); hyp]
    | solve [progress intros; cbn [In] in *; intuition (subst; hyp)]
    | solve [let H := fresh in intro H; repeat destruct H as [H | H]; first [discriminate H | lia | (vm_compute in H; intuition discriminate)]] ].
