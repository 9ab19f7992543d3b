(** Proofs for C64: what extract does to the model. *)
From Coq Require Import List ZArith QArith Qabs Bool Arith Lia Lqa.
From Verif Require Import ExprModel ExprSpec ExprProof ConstraintModel ConstraintSpec VariableModel TypeModel TypeSpec PresolveModel
  DependentModel DependentSpec DependentProof DependentProof2.
Import ListNotations.
Local Open Scope Q_scope.

(** ** Which constraints are candidates *)
Lemma qe_eq a b : qe a b = true -> a == b.
Proof. apply Qeq_bool_eq. Qed.
Lemma unit_abs_eq a : unit_abs a = true -> a == 1 \/ a == -(1).
Proof.
  unfold unit_abs. intros H. apply Qeq_bool_eq in H. revert H. apply Qabs_case; intros; [left; lra|right; lra].
Qed.
Definition keyed_by (x : tctx) (c : constr) (key : nat) : Prop :=
  ct_sense c = Equal /\ vi_fixed (tx_vi x key) = false /\
  exists a, In (key, a) (ex_sens (ct_expr c)) /\ (a == 1 \/ a == -(1)).

Lemma equal_sense c : csense_eqb (ct_sense c) Equal = true -> ct_sense c = Equal.
Proof. destruct (ct_sense c); simpl; congruence. Qed.


Ltac bools := repeat match goal with
  | H : (_ && _) = true |- _ => apply andb_true_iff in H; destruct H
  | H : negb _ = true |- _ => apply negb_true_iff in H
  end.

Ltac walk := match goal with |- (if ?b then _ else _) = _ -> _ => destruct b eqn:?; walk | |- _ => idtac end.

Ltac lists := repeat match goal with |- (match ?l with [] => _ | _ :: _ => _ end) = _ -> _ => destruct l end.

Lemma pair_keyed x c t key : b_pair_equal x c = Some (t, Some key) -> keyed_by x c key.
Proof.
  unfold b_pair_equal. destruct (ex_sens (ct_expr c)) as [|[v0 c0] [|[v1 c1] [|]]] eqn:Es; try discriminate.
  destruct (csense_eqb (ct_sense c) Equal && negb (vi_fixed (tx_vi x v0)) && negb (vi_fixed (tx_vi x v1))) eqn:G; [|discriminate].
  bools. rename H into G1, H1 into G2, H0 into G3. apply equal_sense in G1. cbv zeta.
  set (small := if (tx_name x v0 <? tx_name x v1)%nat then v0 else v1).
  assert (Small : forall a0 a1 t0, qe c0 a0 = true -> qe c1 a1 = true -> (a0 == 1 \/ a0 == -(1)) -> (a1 == 1 \/ a1 == -(1)) ->
           Some (t0, Some small) = Some (t, Some key) -> keyed_by x c key).
  { intros a0 a1 t0 A0 A1 U0 U1 E. assert (key = small) by congruence. subst key. apply qe_eq in A0. apply qe_eq in A1.
    unfold small. destruct (tx_name x v0 <? tx_name x v1)%nat; (split; [exact G1|split; [assumption|]]); rewrite Es.
    - exists c0. split; [left; reflexivity|]. rewrite A0. exact U0.
    - exists c1. split; [right; left; reflexivity|]. rewrite A1. exact U1. }
  assert (L1 : 1 == 1 \/ 1 == -(1)) by (left; reflexivity).
  assert (L2 : -(1) == 1 \/ -(1) == -(1)) by (right; reflexivity).
  walk; intros E; bools; try discriminate; try solve [eapply Small; eauto];
  match goal with
  | H : unit_abs c0 = true |- _ => assert (key = v0) by congruence; subst key;
       split; [exact G1|split; [assumption|]]; rewrite Es; exists c0; split; [left; reflexivity|apply unit_abs_eq, H]
  | H : unit_abs c1 = true |- _ => assert (key = v1) by congruence; subst key;
       split; [exact G1|split; [assumption|]]; rewrite Es; exists c1; split; [right; left; reflexivity|apply unit_abs_eq, H]
  end.
Qed.

Lemma minmax_keyed x c t key : b_minmax x c = Some (t, Some key) -> t = Intermediate -> keyed_by x c key.
Proof.
  unfold b_minmax. destruct (ct_is_integer c); [|discriminate]. cbv zeta.
  set (plus := filter (fun p => free_integer x p && qe (snd p) 1) (ex_sens (ct_expr c))).
  set (minus := filter (fun p => free_integer x p && qe (snd p) (-1)) (ex_sens (ct_expr c))).
  assert (P : forall v, In v (map fst plus) -> vi_fixed (tx_vi x v) = false /\ exists a, In (v, a) (ex_sens (ct_expr c)) /\ (a == 1 \/ a == -(1))).
  { intros v I. apply in_map_iff in I. destruct I as ([w a] & <- & I). apply filter_In in I. destruct I as [I G].
    unfold free_integer in G. cbn [fst snd] in *. bools. split; [assumption|]. exists a. split; [exact I|left; apply qe_eq; assumption]. }
  assert (M : forall v, In v (map fst minus) -> vi_fixed (tx_vi x v) = false /\ exists a, In (v, a) (ex_sens (ct_expr c)) /\ (a == 1 \/ a == -(1))).
  { intros v I. apply in_map_iff in I. destruct I as ([w a] & <- & I). apply filter_In in I. destruct I as [I G].
    unfold free_integer in G. cbn [fst snd] in *. bools. split; [assumption|]. exists a. split; [exact I|right; apply qe_eq; assumption]. }
  assert (S : csense_eqb (ct_sense c) Less = false -> csense_eqb (ct_sense c) Greater = false -> ct_sense c = Equal) by
    (destruct (ct_sense c); simpl; congruence).
  destruct (map fst minus) as [|m [|m' ms]] eqn:Em; destruct (map fst plus) as [|p [|p' pp]] eqn:Ep; try discriminate.
  all: walk; intros E T; subst t; try discriminate.
  all: match type of E with Some (_, Some ?k) = _ => assert (key = k) by congruence; subst key end.
  all: split; [auto using equal_sense|].
  all: first [apply P; left; reflexivity | apply M; left; reflexivity].
Qed.

Lemma classify_keyed x c t key : classify x c = (t, Some key) -> In t dependent_types -> keyed_by x c key.
Proof.
  intros E T. unfold classify in E. cbn [first_verdict] in E.
  assert (Sin : forall r, b_singleton c = Some r -> r = (Singleton, None)) by (unfold b_singleton; destruct (_ =? _)%nat; congruence).
  destruct (b_singleton c) as [r|]; [rewrite (Sin r eq_refl) in E; discriminate|].
  destruct (b_pair_equal x c) as [r|] eqn:Ep; [subst r; eapply pair_keyed; exact Ep|].
  destruct (b_pair_inequality x c) as [r|] eqn:Ei.
  { exfalso. subst r. revert Ei. unfold b_pair_inequality. destruct (ex_sens (ct_expr c)) as [|[v0 c0] [|[v1 c1] [|]]]; try discriminate.
    walk; intros F; congruence. }
  destruct (b_trinomial x c) as [r|] eqn:Et.
  { exfalso. subst r. revert Et. unfold b_trinomial.
    destruct (_ && _); [|discriminate].
    destruct (with_coef c 1) as [|? [|? [|]]]; destruct (with_coef c (-(2))) as [|? [|]];
      destruct (with_coef c (-(1))) as [|? [|? [|]]]; destruct (with_coef c 2) as [|? [|]];
      intros F; try discriminate; injection F as <- <-; simpl in T; intuition discriminate. }
  destruct (b_set c) as [r|] eqn:Es.
  { exfalso. subst r. revert Es. unfold b_set. walk; intros F; try discriminate. }
  destruct (b_flow x c) as [r|] eqn:Ef.
  { exfalso. subst r. revert Ef. unfold b_flow. cbv zeta.
    destruct (_ && _); [|discriminate].
    destruct (forallb _ _).
    - lists; walk; lists; walk; intros F; try discriminate;
        injection F as <- <-; simpl in T; intuition discriminate.
    - walk; intros F; discriminate. }
  destruct (b_minmax x c) as [r|] eqn:Em.
  { subst r. apply (minmax_keyed x c t key Em). revert Em. unfold b_minmax. destruct (ct_is_integer c); [|discriminate]. cbv zeta.
    lists; walk; intros F; try discriminate;
      injection F as <- <-; simpl in T; intuition discriminate. }
  destruct (b_knapsack x c) as [r|] eqn:Ek.
  { exfalso. subst r. revert Ek. unfold b_knapsack. cbv zeta. walk; intros F; discriminate. }
  destruct (b_gf2 x c) as [r|] eqn:Eg; [|discriminate].
  exfalso. subst r. revert Eg. unfold b_gf2.
  destruct ((qe _ _ || _) && _ && _); [|discriminate].
  destruct (filter _ _) as [|[k a] [|]]; try discriminate. cbv zeta. 
  destruct (if ltq 0 a then _ else _) as [lo hi]. walk; intros F; try discriminate.
  injection F as <- <-. simpl in T. intuition discriminate.
Qed.

(** ** The picked constraints *)
Lemma in_numbered cs i c : In (i, c) (numbered cs) -> nth_error cs i = Some c.
Proof.
  unfold numbered. intros H. assert (G : forall l s, In (i, c) (combine (seq s (length l)) l) -> (s <= i)%nat /\ nth_error l (i - s) = Some c).
  { induction l as [|d l IH]; intros s I; [contradiction|]. cbn [length seq combine] in I. destruct I as [I|I].
    - injection I as <- <-. split; [lia|]. rewrite Nat.sub_diag. reflexivity.
    - destruct (IH (S s) I) as [L E]. split; [lia|]. replace (i - s)%nat with (S (i - S s)) by lia. exact E. }
  destruct (G cs 0%nat H) as [_ E]. rewrite Nat.sub_0_r in E. exact E.
Qed.
Lemma numbered_in cs i c : nth_error cs i = Some c -> In (i, c) (numbered cs).
Proof.
  unfold numbered. assert (G : forall l s j, nth_error l j = Some c -> In ((s + j)%nat, c) (combine (seq s (length l)) l)).
  { induction l as [|d l IH]; intros s [|j] E; try discriminate; cbn [length seq combine].
    - injection E as ->. left. f_equal. lia.
    - right. replace (s + S j)%nat with (S s + j)%nat by lia. apply IH, E. }
  intros E. exact (G cs 0%nat i E).
Qed.

Lemma candidate_facts opt x cs c : In c (candidates opt x cs) ->
  nth_error cs (ca_index c) = Some (ca_con c) /\ exists t, opt t = true /\ In t dependent_types /\ classify x (ca_con c) = (t, Some (ca_key c)).
Proof.
  unfold candidates. intros H. apply in_flat_map in H. destruct H as (t & T & H).
  destruct (opt t) eqn:Ot; [|contradiction]. unfold of_type in H. apply in_flat_map in H. destruct H as ([i d] & I & H).
  destruct (classify x d) as [t' [key|]] eqn:Ec; [|contradiction]. destruct (ctype_eq_dec t' t) as [->|]; [|contradiction].
  assert (c = mkCand i d key).
  { destruct t; simpl in H; try (destruct H as [H|[]]; congruence);
      destruct (existsb _ _); simpl in H; try contradiction; destruct H as [H|[]]; congruence. }
  subst c. cbn [ca_index ca_con ca_key]. split; [apply in_numbered, I|]. exists t. auto.
Qed.
Lemma flagged_facts l c : In c (flagged l) -> In c l /\ ct_enabled (ca_con c) = true.
Proof.
  unfold flagged. assert (G : forall l acc, In c (fold_left (fun acc c => if ct_enabled (ca_con c) && forallb (fun a => negb (adj a c && adj c a)) acc
    then acc ++ [c] else acc) l acc) -> In c acc \/ In c l /\ ct_enabled (ca_con c) = true).
  { induction l0 as [|d l0 IH]; intros acc I; [left; exact I|]. cbn [fold_left] in I. apply IH in I.
    destruct I as [I|[I E]]; [|right; split; [right; exact I|exact E]].
    destruct (ct_enabled (ca_con d)) eqn:E; [|left; exact I]. cbn [andb] in I.
    destruct (forallb _ acc); [|left; exact I]. apply in_app_iff in I. destruct I as [I|[<-|[]]]; [left; exact I|].
    right. split; [left; reflexivity|exact E]. }
  intros H. destruct (G l [] H) as [[]|H']. exact H'.
Qed.
Lemma pick_facts opt names s c : In c (picks opt names s) ->
  nth_error (ds_cons s) (ca_index c) = Some (ca_con c) /\ ct_enabled (ca_con c) = true /\
  keyed_by (context names (ds_vars s)) (ca_con c) (ca_key c) /\
  exists t, opt t = true /\ In t dependent_types /\ classify (context names (ds_vars s)) (ca_con c) = (t, Some (ca_key c)).
Proof.
  unfold picks. intros H. apply filter_In in H. destruct H as [H _]. apply flagged_facts in H. destruct H as [H E].
  apply candidate_facts in H. destruct H as (A & t & O & T & C). split; [exact A|]. split; [exact E|].
  split; [eapply classify_keyed; eauto|]. exists t. auto.
Qed.

Lemma counts_spec l v : key_counts l v =
  match count_occ Nat.eq_dec (map ca_key l) v with O => None | 1%nat => Some 1%nat | _ => Some 0%nat end.
Proof.
  unfold key_counts. induction l as [|c l IH] using rev_ind; [reflexivity|].
  rewrite fold_left_app. cbn [fold_left]. rewrite map_app, count_occ_app. cbn [map count_occ].
  rewrite IH. clear IH. destruct (Nat.eqb_spec v (ca_key c)) as [E|E].
  - subst v. destruct (Nat.eq_dec (ca_key c) (ca_key c)); [|contradiction].
    destruct (count_occ Nat.eq_dec (map ca_key l) (ca_key c)) as [|[|k]]; cbn [plus]; try reflexivity.
  - destruct (Nat.eq_dec (ca_key c) v); [congruence|]. rewrite Nat.add_0_r. reflexivity.
Qed.
Lemma count_filter (f : cand -> bool) l v : (count_occ Nat.eq_dec (map ca_key (filter f l)) v <= count_occ Nat.eq_dec (map ca_key l) v)%nat.
Proof.
  induction l as [|c l IH]; [reflexivity|]. cbn [filter map count_occ]. destruct (f c); cbn [map count_occ];
    destruct (Nat.eq_dec (ca_key c) v); lia.
Qed.
Lemma picks_nodup opt names s : NoDup (map ca_key (picks opt names s)).
Proof.
  unfold picks. set (fl := flagged _). apply (NoDup_count_occ Nat.eq_dec). intros v.
  set (f := fun c => match key_counts fl (ca_key c) with Some 1%nat => true | _ => false end).
  destruct (in_dec Nat.eq_dec v (map ca_key (filter f fl))) as [I|I].
  - etransitivity; [apply count_filter|]. apply in_map_iff in I. destruct I as (c & <- & I). apply filter_In in I. destruct I as [_ F].
    unfold f in F. rewrite counts_spec in F. destruct (count_occ Nat.eq_dec (map ca_key fl) (ca_key c)) as [|[|k]]; try discriminate; lia.
  - apply (count_occ_not_In Nat.eq_dec) in I. lia.
Qed.
