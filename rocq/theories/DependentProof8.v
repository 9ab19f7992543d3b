(** Proofs for C64: which equations are turned into definitions. *)
From Coq Require Import List ZArith QArith Bool Lia.
From Verif Require Import ExprModel ExprSpec ExprProof ConstraintModel ConstraintSpec VariableModel TypeModel TypeSpec PresolveModel
  DependentModel DependentSpec DependentProof DependentProof2 DependentProof3 DependentProof4.
Import ListNotations.
Local Open Scope Q_scope.

Lemma occurs_key v e : In v (keys e) -> occurs v e = true.
Proof.
  unfold occurs, keys. induction (ex_sens e) as [|[w a] l IH]; cbn; [intros []|]. destruct (Nat.eqb_spec w v); [reflexivity|]. intros [H|H]; [congruence|auto].
Qed.
Lemma candidate_free opt x cs c : In c (candidates opt x cs) ->
  In (fst (classify x (ca_con c))) [ExclusiveOR; ExclusiveNOR] ->
  forall d v, In d cs -> fst (classify x d) = SetPartitioning -> In v (keys (ct_expr d)) -> ~ In v (keys (ct_expr (ca_con c))).
Proof.
  unfold candidates. rewrite in_flat_map. intros (t & _ & I) T d v Hd Td Vd Vc. destruct (opt t); [|destruct I].
  unfold of_type in I. apply in_flat_map in I. destruct I as ([i c0] & _ & I). destruct (classify x c0) as [t' [key|]] eqn:E; [|destruct I].
  destruct (ctype_eq_dec t' t) as [->|]; [|destruct I].
  assert (Ec : ca_con c = c0) by (destruct t; try destruct (existsb _ _); first [destruct I as [<-|[]]; reflexivity|destruct I]). rewrite Ec, E in *. cbn [fst] in T.
  assert (P : existsb (fun p => partitioned x cs (fst p)) (ex_sens (ct_expr c0)) = true).
  { apply existsb_exists. unfold keys in Vc. apply in_map_iff in Vc. destruct Vc as (p & Ep & Ip). exists p. split; [exact Ip|]. rewrite Ep.
    unfold partitioned. apply existsb_exists. exists d. split; [exact Hd|]. rewrite Td, occurs_key by exact Vd. destruct (ctype_eq_dec SetPartitioning SetPartitioning); [reflexivity|contradiction]. }
  destruct T as [<-|[<-|[]]]; rewrite P in I; destruct I.
Qed.
Lemma chosen_stmt opt names s k s' i c c' : extract opt names s = Some (k, s') ->
  nth_error (ds_cons s) i = Some c -> nth_error (ds_cons s') i = Some c' ->
  c' = c \/
  c' = disable c /\ ct_enabled c = true /\ ct_sense c = Equal /\
    (exists t, opt t = true /\ fst (classify (context names (ds_vars s)) c) = t /\ In t dependent_types) /\
    (In (fst (classify (context names (ds_vars s)) c)) [ExclusiveOR; ExclusiveNOR] ->
     forall d v, In d (ds_cons s) -> fst (classify (context names (ds_vars s)) d) = SetPartitioning -> In v (keys (ct_expr d)) -> ~ In v (keys (ct_expr c))).
Proof.
  intros Ex N N'. destruct (extract_shape opt names s k s' Ex) as (es & _ & _ & _ & _ & _ & _ & _ & Ec).
  assert (Li : (i < length (ds_cons s))%nat) by (apply nth_error_Some; congruence).
  rewrite Ec, nth_error_app1 in N' by (rewrite map_length; unfold numbered; rewrite combine_length, seq_length; lia).
  assert (Nn : nth_error (numbered (ds_cons s)) i = Some (i, c)).
  { unfold numbered. clear - N. assert (G : forall l a i, nth_error l i = Some c -> nth_error (combine (seq a (length l)) l) i = Some ((a + i)%nat, c)).
    { induction l as [|d l IH]; intros a [|j] H; cbn in *; try discriminate; [f_equal; f_equal; [lia|congruence]|]. rewrite (IH (S a) j H). f_equal. f_equal. lia. }
    rewrite (G _ O i N). reflexivity. }
  rewrite nth_error_map, Nn in N'. cbn [option_map fst snd] in N'.
  destruct (existsb (fun c0 => Nat.eqb (ca_index c0) i) (picks opt names s)) eqn:P; [|left; congruence]. right.
  apply existsb_exists in P. destruct P as (p & Ip & Ei). apply Nat.eqb_eq in Ei. destruct (pick_facts opt names s p Ip) as (A & En & (Eq & _) & t & O & T & C).
  rewrite Ei in A. assert (ca_con p = c) by congruence. subst c. split; [congruence|]. split; [exact En|]. split; [exact Eq|]. split.
  - exists t. rewrite C. auto.
  - unfold picks in Ip. apply filter_In in Ip. destruct Ip as [Ip _]. apply flagged_facts in Ip. destruct Ip as [Ip _]. apply (candidate_free _ _ _ _ Ip).
Qed.
