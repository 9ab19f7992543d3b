(** * The effect of every switch on every kind *)
From Coq Require Import List Bool Arith Permutation Lia.
From Verif Require Import SwitchModel SwitchSpec.
Import ListNotations.

Lemma kind_eqb_spec : forall a b, kind_eqb a b = true <-> a = b.
Proof. intros a b; destruct a, b; cbn; split; intro H; try reflexivity; discriminate. Qed.

Lemma kind_eqb_refl : forall a, kind_eqb a a = true.
Proof. intro a; destruct a; reflexivity. Qed.

Lemma put_same : forall nb k g, put nb k g k = g.
Proof. intros; unfold put; rewrite kind_eqb_refl; reflexivity. Qed.

Lemma put_other : forall nb k g j, kind_eqb j k = false -> put nb k g j = nb j.
Proof. intros nb k g j H; unfold put; rewrite H; reflexivity. Qed.

Definition on (b : bool) (g : generator) : generator :=
  if b && match ge_moves g with [] => false | _ => true end then mkGen (ge_moves g) true else g.
Definition off (b : bool) (g : generator) : generator := if b then mkGen (ge_moves g) false else g.
Definition afresh (g : generator) : generator := mkGen (map (fun m => (fst m, true)) (ge_moves g)) (ge_enabled g).

Lemma enable_if_same : forall opt k nb, enable_if opt k nb k = on (opt k) (nb k).
Proof.
  intros; unfold enable_if, on, enable, has_moves.
  destruct (opt k && _); [apply put_same | reflexivity].
Qed.
Lemma enable_if_other : forall opt k nb j, kind_eqb j k = false -> enable_if opt k nb j = nb j.
Proof. intros; unfold enable_if, enable; destruct (opt k && _); [apply put_other; assumption | reflexivity]. Qed.
Lemma disable_if_same : forall opt k nb, disable_if opt k nb k = off (opt k) (nb k).
Proof. intros; unfold disable_if, off, disable; destruct (opt k); [apply put_same | reflexivity]. Qed.
Lemma disable_if_other : forall opt k nb j, kind_eqb j k = false -> disable_if opt k nb j = nb j.
Proof. intros; unfold disable_if, disable; destruct (opt k); [apply put_other; assumption | reflexivity]. Qed.
Lemma reset_same : forall k nb, reset k nb k = afresh (nb k).
Proof. intros; unfold reset; apply put_same. Qed.
Lemma reset_other : forall k nb j, kind_eqb j k = false -> reset k nb j = nb j.
Proof. intros; unfold reset; apply put_other; assumption. Qed.

Ltac pointwise same other :=
  repeat (first [rewrite other by reflexivity | rewrite same]); try reflexivity.

Lemma disable_special_at : forall opt nb k,
  disable_special opt nb k = if is_special k then off (opt k) (nb k) else nb k.
Proof. intros opt nb k; unfold disable_special; destruct k; cbn [is_special]; pointwise disable_if_same disable_if_other. Qed.

Lemma reset_special_at : forall nb k, reset_special nb k = if is_special k then afresh (nb k) else nb k.
Proof. intros nb k; unfold reset_special; destruct k; cbn [is_special]; pointwise reset_same reset_other. Qed.

Lemma special_enabled_in : forall nb k, is_special k = true -> ge_enabled (nb k) = true -> special_enabled nb = true.
Proof.
  intros nb k Hs He; unfold special_enabled; destruct k; try discriminate Hs; rewrite He;
    repeat rewrite Bool.orb_true_r; reflexivity.
Qed.

Lemma special_enabled_none : forall nb, special_enabled nb = false -> forall k, is_special k = true -> ge_enabled (nb k) = false.
Proof.
  intros nb H k Hs; destruct (ge_enabled (nb k)) eqn:E; [|reflexivity].
  rewrite (special_enabled_in nb k Hs E) in H; discriminate.
Qed.

Lemma enable_special_at : forall opt nb k,
  enable_special opt nb k = (if is_special k then on (opt k) (nb k) else nb k) \/
  enable_special opt nb k = (if is_special k then afresh (on (opt k) (nb k)) else nb k).
Proof.
  intros opt nb k; unfold enable_special; cbv zeta.
  match goal with |- context[special_enabled ?X] => set (nb' := X) end.
  assert (P : nb' k = if is_special k then on (opt k) (nb k) else nb k).
  { unfold nb'; destruct k; cbn [is_special]; pointwise enable_if_same enable_if_other. }
  destruct (special_enabled nb').
  - right. rewrite reset_special_at, P. destruct (is_special k); reflexivity.
  - left. exact P.
Qed.

(** If the kind ends up enabled, its moves are available again. *)
Lemma enable_special_reset : forall opt nb k,
  is_special k = true -> ge_enabled (on (opt k) (nb k)) = true ->
  enable_special opt nb k = afresh (on (opt k) (nb k)).
Proof.
  intros opt nb k Hs He; unfold enable_special; cbv zeta.
  match goal with |- context[special_enabled ?X] => set (nb' := X) end.
  assert (P : nb' k = on (opt k) (nb k)).
  { unfold nb'; destruct k; try discriminate Hs; pointwise enable_if_same enable_if_other. }
  rewrite (special_enabled_in nb' k Hs) by (rewrite P; exact He).
  rewrite reset_special_at, Hs, P; reflexivity.
Qed.

Lemma enable_default_at : forall opt nb k,
  enable_default opt nb k =
  match k with
  | Binary | Integer | Selection => on (opt k) (nb k)
  | UserDefined => if opt k then mkGen (ge_moves (nb k)) true else nb k
  | _ => nb k
  end.
Proof.
  intros opt nb k; unfold enable_default; cbv zeta.
  assert (U : forall b n j, kind_eqb j UserDefined = false -> (if b : bool then enable UserDefined n else n) j = n j).
  { intros b n j H; destruct b; [apply put_other; exact H | reflexivity]. }
  destruct k; repeat (first [rewrite enable_if_other by reflexivity | rewrite U by reflexivity | rewrite enable_if_same]); try reflexivity.
  destruct (opt UserDefined); [|pointwise enable_if_same enable_if_other].
  unfold enable; rewrite put_same; pointwise enable_if_same enable_if_other.
Qed.

Lemma set_chain_other : forall f nb k, k <> Chain -> set_chain f nb k = nb k.
Proof. intros f nb k H; unfold set_chain; apply put_other. destruct k; try reflexivity; congruence. Qed.
Lemma set_chain_same : forall f nb, set_chain f nb Chain = mkGen (f (ge_moves (nb Chain))) (ge_enabled (nb Chain)).
Proof. intros; unfold set_chain; apply put_same. Qed.

(** What the end of a round does to a kind other than Chain. *)
Lemma finish_other : forall opt im cap ar sh improved it s k,
  k <> Chain ->
  st_nb (finish opt im cap ar sh improved it s) k =
  (if improved then disable_special opt (st_nb s) k
   else if Nat.eqb it im then enable_special opt (st_nb s) k else st_nb s k).
Proof.
  intros opt im cap ar sh improved it s k Hk; unfold finish; cbv zeta; cbn [st_nb].
  repeat match goal with |- (if ?b then set_chain _ _ else _) k = _ => destruct b; [rewrite set_chain_other by exact Hk|] end;
    destruct improved; try reflexivity; destruct (Nat.eqb it im); reflexivity.
Qed.

(** Membership of the list of the moves on offer. *)
Lemma generators_all : forall k, In k generators.
Proof. intro k; destruct k; cbn; tauto. Qed.

Lemma offers_spec : forall flag nb k m,
  In (k, m) (offers flag nb) <->
  ge_enabled (nb k) = true /\ flag k m = true /\
  exists a, In (m, a) (ge_moves (nb k)) /\ (is_special k = true -> a = true).
Proof.
  intros flag nb k m; unfold offers; rewrite in_flat_map; split.
  - intros (j & _ & H). destruct (ge_enabled (nb j)) eqn:E; [|destruct H].
    apply in_map_iff in H; destruct H as ((m', a) & Heq & H); cbn in Heq; inversion Heq; subst.
    apply filter_In in H; destruct H as (Hi & Hf); cbn in Hf.
    apply andb_true_iff in Hf; destruct Hf as (Hs & Hf).
    split; [exact E|]; split; [exact Hf|]; exists a; split; [exact Hi|].
    intro S; rewrite S in Hs; exact Hs.
  - intros (E & F & a & Hi & Hs); exists k; split; [apply generators_all|].
    rewrite E. apply in_map_iff; exists (m, a); split; [reflexivity|].
    apply filter_In; split; [exact Hi|]; cbn; rewrite F, andb_true_r.
    destruct (is_special k); [apply Hs; reflexivity | reflexivity].
Qed.

Lemma register_all_other : forall n s k, k <> Chain -> st_nb (register_all n s) k = st_nb s k.
Proof.
  induction n as [|n IH]; intros s k Hk; cbn; [reflexivity|].
  rewrite IH by exact Hk; unfold register; cbn [st_nb]; apply put_other.
  destruct k; try reflexivity; congruence.
Qed.
