(** * A sorted list exists *)
From Coq Require Import List Bool ZArith QArith Permutation.
From Verif Require Import ChainOrderModel ChainOrderSpec ChainOrderProof.
Import ListNotations.

Section Sort.
Variables (l : list cmove) (lt : cmove -> cmove -> bool).
Hypothesis W : strict_weak_order l lt.

Lemma not_before_trans : forall a b c, In a l -> In b l -> In c l -> lt b a = false -> lt c b = false -> lt c a = false.
Proof.
  destruct W as (I & T & E). intros a b c Ia Ib Ic H1 H2.
  destruct (lt c a) eqn:H; [|reflexivity].
  destruct (lt a b) eqn:H3; [rewrite (T c a b Ic Ia Ib H H3) in H2; discriminate|].
  destruct (lt b c) eqn:H4; [rewrite (T b c a Ib Ic Ia H4 H) in H1; discriminate|].
  destruct (E a b c Ia Ib Ic H3 H1 H4 H2) as (_ & X); congruence.
Qed.

Fixpoint place (x : cmove) (v : list cmove) : list cmove :=
  match v with [] => [x] | y :: v' => if lt y x then y :: place x v' else x :: y :: v' end.

Lemma place_perm : forall x v, Permutation (x :: v) (place x v).
Proof.
  intros x v; induction v as [|y v IH]; cbn; [apply Permutation_refl|].
  destruct (lt y x); [eapply perm_trans; [apply perm_swap | apply perm_skip; exact IH] | apply Permutation_refl].
Qed.

Lemma place_sorted : forall x v, In x l -> (forall y, In y v -> In y l) ->
  ForallOrdPairs (fun a b => lt b a = false) v -> ForallOrdPairs (fun a b => lt b a = false) (place x v).
Proof.
  intros x v Ix; induction v as [|y v IH]; intros Iv S; cbn; [apply FOP_cons; [apply Forall_nil | apply FOP_nil]|].
  inversion S as [|? ? S1 S2]; subst. assert (Iy : In y l) by (apply Iv; left; reflexivity).
  destruct (lt y x) eqn:E.
  - apply FOP_cons; [|apply IH; [intros z Hz; apply Iv; right; exact Hz | exact S2]].
    rewrite Forall_forall in *; intros z Hz. apply (Permutation_in _ (Permutation_sym (place_perm x v))) in Hz.
    destruct Hz as [<-|Hz]; [|exact (S1 z Hz)].
    destruct (lt x y) eqn:F; [|reflexivity]. destruct W as (I & T & _).
    pose proof (T x y x Ix Iy Ix F E) as X; rewrite (I x Ix) in X; discriminate.
  - apply FOP_cons; [|exact S]. apply Forall_cons; [exact E|]. rewrite Forall_forall in *; intros z Hz.
    apply (not_before_trans x y z); [exact Ix | exact Iy | apply Iv; right; exact Hz | exact E | exact (S1 z Hz)].
Qed.

Lemma sorted_exists_from : forall v, (forall y, In y v -> In y l) ->
  exists v', Permutation v v' /\ ForallOrdPairs (fun a b => lt b a = false) v'.
Proof.
  induction v as [|x v IH]; intro Iv; [exists []; split; [apply Permutation_refl | apply FOP_nil]|].
  destruct (IH (fun y Hy => Iv y (or_intror Hy))) as (v' & P & S).
  exists (place x v'); split; [eapply perm_trans; [apply perm_skip; exact P | apply place_perm]|].
  apply place_sorted; [apply Iv; left; reflexivity | | exact S].
  intros y Hy; apply Iv; right; eapply Permutation_in; [apply Permutation_sym; exact P | exact Hy].
Qed.

Lemma sorted_exists : exists l', sorted_by lt l l'.
Proof.
  destruct (sorted_exists_from l (fun y Hy => Hy)) as (l' & P & S).
  exists l'; split; [exact P|]. exact (pairs_sorted (fun a b => lt b a = false) l' S).
Qed.
End Sort.
