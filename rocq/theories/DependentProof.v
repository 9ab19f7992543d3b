(** Proofs for C64: elimination always ends and leaves no defined variable. *)
From Coq Require Import List ZArith QArith Bool Arith Lia Lqa.
From Verif Require Import ExprModel ExprSpec ExprProof ConstraintModel VariableModel TypeModel PresolveModel DependentModel DependentSpec.
Import ListNotations.
Local Open Scope Q_scope.

Lemma occurs_in v e : occurs v e = true <-> In v (keys e).
Proof.
  unfold occurs, keys. destruct (sens_find (ex_sens e) v) as [c|] eqn:E.
  - split; [|reflexivity]. intros _. apply find_in in E. apply in_map_iff. exists (v, c). auto.
  - apply find_none in E. split; [discriminate|contradiction].
Qed.
Lemma occurs_not v e : occurs v e = false <-> ~ In v (keys e).
Proof. rewrite <- occurs_in. destruct (occurs v e); split; intros; congruence. Qed.

Lemma in_fold_add t w : forall s, In w (map fst (fold_left (fun s p => sens_add s (fst p) (snd p)) t s)) <->
  In w (map fst s) \/ In w (map fst t).
Proof.
  induction t as [|p t IH]; intros s; simpl; [tauto|].
  rewrite IH, in_sens_add. intuition.
Qed.
Lemma wf_substitute e v f : wf e -> wf (e_substitute e v f).
Proof.
  intros W. unfold wf, keys, e_substitute. cbn [ex_sens].
  apply nodup_erase. unfold e_add. cbn [ex_sens]. apply nodup_fold_add.
  destruct (sens_find (ex_sens e) v) as [c|] eqn:E; [exact W|].
  rewrite map_app. apply find_none in E. simpl.
  apply NoDup_rev in W. rewrite <- (rev_involutive (map fst (ex_sens e) ++ [v])). apply NoDup_rev.
  rewrite rev_app_distr. simpl. constructor; [|exact W]. rewrite <- in_rev. exact E.
Qed.
Lemma keys_substitute e v f w : wf e -> In w (keys (e_substitute e v f)) -> w <> v /\ (In w (keys e) \/ In w (keys f)).
Proof.
  intros W H. pose proof (wf_substitute e v f W) as W'.
  assert (N : w <> v).
  { intros ->. revert H. unfold keys, e_substitute. cbn [ex_sens]. apply notin_erase.
    unfold e_add. cbn [ex_sens]. apply nodup_fold_add.
    destruct (sens_find (ex_sens e) v) as [c|] eqn:E; [exact W|].
    rewrite map_app. apply find_none in E. simpl.
    apply NoDup_rev in W. rewrite <- (rev_involutive (map fst (ex_sens e) ++ [v])). apply NoDup_rev.
    rewrite rev_app_distr. simpl. constructor; [|exact W]. rewrite <- in_rev. exact E. }
  split; [exact N|]. revert H. unfold keys, e_substitute. cbn [ex_sens]. intros H. apply in_erase in H.
  unfold e_add in H. cbn [ex_sens] in H. apply in_fold_add in H. destruct H as [H|H].
  - destruct (sens_find (ex_sens e) v); [left; exact H|].
    rewrite map_app in H. apply in_app_iff in H. destruct H as [H|H]; [left; exact H|].
    simpl in H. destruct H as [H|[]]. congruence.
  - right. unfold e_mul in H. cbn [ex_sens] in H. rewrite keys_map in H. exact H.
Qed.

(** ** A chain of substitutions in one expression *)
Definition chain (test : nat -> expr -> bool) (def : nat -> expr) (l : list nat) (r : expr * nat) : expr * nat :=
  fold_left (fun r v => put (test v (fst r)) (def v) v r) l r.

Lemma chain_wf test def l : forall r, wf (fst r) -> wf (fst (chain test def l r)).
Proof.
  induction l as [|v l IH]; intros r W; [exact W|]. cbn [chain fold_left]. apply IH.
  unfold put. destruct (test v (fst r)); [|exact W]. apply wf_substitute, W.
Qed.
Lemma chain_count test def l : forall r, (snd r <= snd (chain test def l r))%nat.
Proof.
  induction l as [|v l IH]; intros r; [reflexivity|]. cbn [chain fold_left]. etransitivity; [|apply IH].
  unfold put. destruct (test v (fst r)); simpl; lia.
Qed.
Lemma chain_zero test def l : forall r, snd (chain test def l r) = snd r ->
  fst (chain test def l r) = fst r /\ forall v, In v l -> test v (fst r) = false.
Proof.
  induction l as [|v l IH]; intros r H; [split; [reflexivity|intros ? []]|].
  cbn [chain fold_left] in *. fold (chain test def l (put (test v (fst r)) (def v) v r)) in *.
  unfold put in *. destruct (test v (fst r)) eqn:T.
  - pose proof (chain_count test def l (e_substitute (fst r) v (def v), S (snd r))) as C. simpl in C. lia.
  - destruct (IH r H) as [A B]. split; [exact A|]. intros w [<-|I]; [exact T|apply B, I].
Qed.
Lemma chain_none test def l : forall r, (forall v, In v l -> test v (fst r) = false) -> chain test def l r = r.
Proof.
  induction l as [|v l IH]; intros r H; [reflexivity|].
  cbn [chain fold_left]. unfold put at 1. rewrite (H v (or_introl eq_refl)).
  apply IH. intros w I. apply H. right. exact I.
Qed.
(** Definitions free of the listed variables: those that were looked for are gone. *)
Lemma chain_avoid test def l w : ~ (exists v, In v l /\ In w (keys (def v))) -> forall r, wf (fst r) -> ~ In w (keys (fst r)) ->
  ~ In w (keys (fst (chain test def l r))).
Proof.
  induction l as [|v l IH]; intros D r W H; [exact H|]. cbn [chain fold_left].
  apply IH.
  - intros (u & I & K). apply D. exists u. split; [right; exact I|exact K].
  - unfold put. destruct (test v (fst r)); [|exact W]. apply wf_substitute, W.
  - unfold put. destruct (test v (fst r)); [|exact H]. cbn [fst]. intros K.
    destruct (keys_substitute _ _ _ _ W K) as [_ [A|A]]; [contradiction|].
    apply D. exists v. split; [left; reflexivity|exact A].
Qed.
Lemma chain_gone test def l w : (forall v, In v l -> ~ In w (keys (def v))) -> In w l ->
  forall r, wf (fst r) -> (forall e', In w (keys e') -> In w (keys (fst r)) -> test w e' = true) ->
  ~ In w (keys (fst (chain test def l r))).
Proof.
  intros D. induction l as [|v l IH]; intros I r W T; [contradiction|].
  cbn [chain fold_left]. destruct (Nat.eq_dec v w) as [->|N].
  - apply chain_avoid.
    + intros (u & J & K). apply (D u (or_intror J) K).
    + unfold put. destruct (test w (fst r)); [|exact W]. apply wf_substitute, W.
    + unfold put. destruct (test w (fst r)) eqn:E.
      * cbn [fst]. intros K. destruct (keys_substitute _ _ _ _ W K). congruence.
      * intros K. rewrite (T _ K K) in E. discriminate.
  - destruct I as [I|I]; [congruence|]. apply IH.
    + intros u J. apply D. right. exact J.
    + exact I.
    + unfold put. destruct (test v (fst r)); [|exact W]. apply wf_substitute, W.
    + intros r' K K'. apply T; [exact K|]. revert K'. unfold put. destruct (test v (fst r)); [|auto].
      cbn [fst]. intros K'. destruct (keys_substitute _ _ _ _ W K') as [_ [A|A]]; [exact A|].
      exfalso. exact (D v (or_introl eq_refl) A).
Qed.

(** ** The expressions *)
Lemma set_nth_length {A} k (a : A) l : length (set_nth k a l) = length l.
Proof. revert k. induction l as [|b l IH]; intros [|k]; simpl; auto. Qed.
Lemma nth_set_nth {A} k (a : A) l d j : (k < length l)%nat -> nth j (set_nth k a l) d = if Nat.eqb j k then a else nth j l d.
Proof.
  revert k j. induction l as [|b l IH]; intros [|k] [|j] H; simpl in *; try lia; auto.
  apply IH. lia.
Qed.
Lemma in_set_nth {A} k (a : A) l b : In b (set_nth k a l) -> b = a \/ In b l.
Proof.
  revert k. induction l as [|c l IH]; intros [|k] H; simpl in *; auto.
  - destruct H; auto.
  - destruct H as [H|H]; auto. destruct (IH k H); auto.
Qed.
Definition all_wf (es : list expr) : Prop := forall e, In e es -> wf e.
Definition free (w : nat) (es : list expr) : Prop := forall e, In e es -> ~ In w (keys e).
Lemma nth_free w es j : free w es -> ~ In w (keys (nth j es no_expr)).
Proof.
  intros F. destruct (Nat.lt_ge_cases j (length es)) as [L|L].
  - apply F, nth_In, L.
  - rewrite nth_overflow by exact L. simpl. auto.
Qed.
Lemma nth_wf es j : all_wf es -> wf (nth j es no_expr).
Proof.
  intros F. destruct (Nat.lt_ge_cases j (length es)) as [L|L].
  - apply F, nth_In, L.
  - rewrite nth_overflow by exact L. constructor.
Qed.
Lemma definition_free w dep es v : free w es -> ~ In w (keys (definition dep es v)).
Proof. intros F. unfold definition. destruct (dep v); [apply nth_free, F|simpl; auto]. Qed.

Section PutAt.
Variable dep : nat -> option nat.
Variable v : nat.
Lemma put_at_length r j : length (fst (put_at dep v r j)) = length (fst r).
Proof. unfold put_at. destruct (occurs v (nth j (fst r) no_expr)); [|reflexivity]. apply set_nth_length. Qed.
Lemma puts_length l : forall r, length (fst (fold_left (put_at dep v) l r)) = length (fst r).
Proof. induction l as [|j l IH]; intros r; [reflexivity|]. cbn [fold_left]. rewrite IH. apply put_at_length. Qed.
Lemma put_at_wf r j : all_wf (fst r) -> all_wf (fst (put_at dep v r j)).
Proof.
  intros W. unfold put_at. destruct (occurs v (nth j (fst r) no_expr)); [|exact W].
  intros e I. apply in_set_nth in I. destruct I as [->|I]; [|apply W, I]. apply wf_substitute, nth_wf, W.
Qed.
Lemma puts_wf l : forall r, all_wf (fst r) -> all_wf (fst (fold_left (put_at dep v) l r)).
Proof. induction l as [|j l IH]; intros r W; [exact W|]. cbn [fold_left]. apply IH, put_at_wf, W. Qed.
Lemma put_at_free r j w : all_wf (fst r) -> free w (fst r) -> free w (fst (put_at dep v r j)).
Proof.
  intros W F. unfold put_at. destruct (occurs v (nth j (fst r) no_expr)); [|exact F].
  intros e I. apply in_set_nth in I. destruct I as [->|I]; [|apply F, I]. intros K.
  destruct (keys_substitute _ _ _ _ (nth_wf _ _ W) K) as [_ [A|A]].
  - exact (nth_free _ _ _ F A).
  - exact (definition_free _ _ _ _ F A).
Qed.
Lemma puts_free l w : forall r, all_wf (fst r) -> free w (fst r) -> free w (fst (fold_left (put_at dep v) l r)).
Proof.
  induction l as [|j l IH]; intros r W F; [exact F|]. cbn [fold_left].
  apply IH; [apply put_at_wf, W|apply put_at_free; assumption].
Qed.
Lemma put_at_self r j i : all_wf (fst r) -> (j < length (fst r))%nat ->
  (i = j \/ ~ In v (keys (nth i (fst r) no_expr))) -> ~ In v (keys (nth i (fst (put_at dep v r j)) no_expr)).
Proof.
  intros W L H. unfold put_at. destruct (occurs v (nth j (fst r) no_expr)) eqn:O.
  - cbn [fst]. rewrite nth_set_nth by exact L. destruct (Nat.eqb_spec i j) as [E|E].
    + intros K. destruct (keys_substitute _ _ _ _ (nth_wf _ _ W) K). congruence.
    + destruct H as [H|H]; [contradiction|exact H].
  - destruct H as [->|H]; [|exact H]. apply occurs_not, O.
Qed.
Lemma puts_self l : forall r i, all_wf (fst r) -> (forall j, In j l -> (j < length (fst r))%nat) ->
  (In i l \/ ~ In v (keys (nth i (fst r) no_expr))) -> ~ In v (keys (nth i (fst (fold_left (put_at dep v) l r)) no_expr)).
Proof.
  induction l as [|j l IH]; intros r i W L H; [destruct H as [[]|H]; exact H|]. cbn [fold_left]. apply IH.
  - apply put_at_wf, W.
  - intros k I. rewrite put_at_length. apply L. right. exact I.
  - destruct (in_dec Nat.eq_dec i l) as [I|I]; [left; exact I|right].
    apply put_at_self; [exact W|apply L; left; reflexivity|].
    destruct H as [[H|H]|H]; [left; congruence|contradiction|right; exact H].
Qed.
Lemma puts_count l : forall r, (snd r <= snd (fold_left (put_at dep v) l r))%nat.
Proof.
  induction l as [|j l IH]; intros r; [reflexivity|]. cbn [fold_left]. etransitivity; [|apply IH].
  unfold put_at. destruct (occurs v (nth j (fst r) no_expr)); simpl; lia.
Qed.
Lemma puts_zero l : forall r, snd (fold_left (put_at dep v) l r) = snd r ->
  fold_left (put_at dep v) l r = r /\ forall j, In j l -> occurs v (nth j (fst r) no_expr) = false.
Proof.
  induction l as [|j l IH]; intros r H; [split; [reflexivity|intros ? []]|].
  cbn [fold_left] in *. unfold put_at at 2 in H. unfold put_at at 2.
  destruct (occurs v (nth j (fst r) no_expr)) eqn:O.
  - match type of H with snd (fold_left _ l ?r') = _ => pose proof (puts_count l r') as C end. simpl in C. lia.
  - destruct (IH r H) as [A B]. split; [exact A|]. intros k [<-|I]; [exact O|apply B, I].
Qed.
Lemma puts_none l : forall r, (forall j, In j l -> occurs v (nth j (fst r) no_expr) = false) -> fold_left (put_at dep v) l r = r.
Proof.
  induction l as [|j l IH]; intros r H; [reflexivity|]. cbn [fold_left]. unfold put_at at 2.
  rewrite (H j (or_introl eq_refl)). apply IH. intros k I. apply H. right. exact I.
Qed.
End PutAt.

Section Vars.
Variable dep : nat -> option nat.
Lemma var_wf r v : all_wf (fst r) -> all_wf (fst (eliminate_var dep r v)). Proof. apply puts_wf. Qed.
Lemma var_free r v w : all_wf (fst r) -> free w (fst r) -> free w (fst (eliminate_var dep r v)). Proof. apply puts_free. Qed.
Lemma var_self r v : all_wf (fst r) -> free v (fst (eliminate_var dep r v)).
Proof.
  intros W e I. destruct (In_nth _ _ no_expr I) as (i & L & <-). unfold eliminate_var in *. rewrite puts_length in L.
  apply puts_self; [exact W|intros j J; apply in_seq in J; lia|left; apply in_seq; lia].
Qed.
Lemma vars_length l : forall r, length (fst (fold_left (eliminate_var dep) l r)) = length (fst r).
Proof. induction l as [|v l IH]; intros r; [reflexivity|]. cbn [fold_left]. rewrite IH. apply puts_length. Qed.
Lemma vars_wf l : forall r, all_wf (fst r) -> all_wf (fst (fold_left (eliminate_var dep) l r)).
Proof. induction l as [|v l IH]; intros r W; [exact W|]. cbn [fold_left]. apply IH, var_wf, W. Qed.
Lemma vars_free l w : forall r, all_wf (fst r) -> free w (fst r) \/ In w l -> free w (fst (fold_left (eliminate_var dep) l r)).
Proof.
  induction l as [|v l IH]; intros r W H; [destruct H as [H|[]]; exact H|]. cbn [fold_left].
  apply IH; [apply var_wf, W|]. destruct (Nat.eq_dec v w) as [->|N].
  - left. apply var_self, W.
  - destruct H as [H|[H|H]]; [left; apply var_free; assumption|contradiction|right; exact H].
Qed.
Lemma vars_count l : forall r, (snd r <= snd (fold_left (eliminate_var dep) l r))%nat.
Proof. induction l as [|v l IH]; intros r; [reflexivity|]. cbn [fold_left]. etransitivity; [|apply IH]. apply puts_count. Qed.
Lemma vars_zero l : forall r, snd (fold_left (eliminate_var dep) l r) = snd r ->
  fold_left (eliminate_var dep) l r = r /\ forall v, In v l -> free v (fst r).
Proof.
  induction l as [|v l IH]; intros r H; [split; [reflexivity|intros ? []]|]. cbn [fold_left] in *.
  pose proof (vars_count l (eliminate_var dep r v)) as C.
  assert (Z : snd (eliminate_var dep r v) = snd r).
  { pose proof (puts_count dep v (seq 0 (length (fst r))) r) as C'. unfold eliminate_var in *. lia. }
  destruct (puts_zero dep v _ r Z) as [A B]. fold (eliminate_var dep r v) in A. rewrite A in *.
  destruct (IH r H) as [A' B']. split; [exact A'|]. intros w [<-|I]; [|apply B', I].
  intros e J. destruct (In_nth _ _ no_expr J) as (i & L & <-). apply occurs_not, B, in_seq. lia.
Qed.
Lemma vars_none l : forall r, (forall v, In v l -> free v (fst r)) -> fold_left (eliminate_var dep) l r = r.
Proof.
  induction l as [|v l IH]; intros r H; [reflexivity|]. cbn [fold_left].
  replace (eliminate_var dep r v) with r; [apply IH; intros w I; apply H; right; exact I|].
  symmetry. apply puts_none. intros j I. apply occurs_not, nth_free, H. left. reflexivity.
Qed.
End Vars.

(** ** The passes *)
Lemma in_dependents s v : In v (dependents s) <-> (v < ds_number s)%nat /\ is_dependent (ds_vars s v).
Proof.
  unfold dependents, is_dependent. rewrite in_app_iff, !filter_In, in_seq.
  destruct (va_sense (ds_vars s v)); intuition (try discriminate; try lia).
Qed.

Record tidy (s : dstate) : Prop := mkTidy {
  td_obj : wf (ds_obj s); td_cons : forall c, In c (ds_cons s) -> wf (ct_expr c); td_exprs : all_wf (ds_exprs s) }.
Lemma con_chain s c : ct_enabled c = true -> eliminate_con s c =
  (with_expr c (fst (chain (fun v _ => occurs v (ct_expr c)) (definition (ds_dep s) (ds_exprs s)) (dependents s) (ct_expr c, O))),
   snd (chain (fun v _ => occurs v (ct_expr c)) (definition (ds_dep s) (ds_exprs s)) (dependents s) (ct_expr c, O))).
Proof. intros E. unfold eliminate_con. rewrite E. reflexivity. Qed.
Lemma con_off s c : ct_enabled c = false -> eliminate_con s c = (c, O).
Proof. intros E. unfold eliminate_con. rewrite E. reflexivity. Qed.
Lemma con_enabled s c : ct_enabled (fst (eliminate_con s c)) = ct_enabled c.
Proof. unfold eliminate_con. destruct (ct_enabled c) eqn:E; [|exact E]. simpl. exact E. Qed.

Lemma eliminate_tidy s : tidy s -> tidy (fst (eliminate s)).
Proof.
  intros [A B C]. constructor; cbn [eliminate fst ds_obj ds_cons ds_exprs].
  - apply (chain_wf (fun v e => occurs v e)). exact A.
  - intros c I. rewrite map_map in I. apply in_map_iff in I. destruct I as (d & <- & I).
    destruct (ct_enabled d) eqn:E; [rewrite con_chain by exact E|rewrite con_off by exact E; apply B, I].
    cbn [fst ct_expr with_expr]. apply chain_wf. apply B, I.
  - apply vars_wf. exact C.
Qed.
Lemma eliminate_dependents s : dependents (fst (eliminate s)) = dependents s.
Proof. reflexivity. Qed.
Lemma pass_exprs s v : tidy s -> In v (dependents s) -> free v (ds_exprs (fst (eliminate s))).
Proof. intros T I. cbn [eliminate fst ds_exprs]. apply vars_free; [apply T|right; exact I]. Qed.
Lemma pass_clean s : tidy s -> (forall v, In v (dependents s) -> free v (ds_exprs s)) -> clean (fst (eliminate s)).
Proof.
  intros T F. assert (D : forall w v, In w (dependents s) -> ~ In w (keys (definition (ds_dep s) (ds_exprs s) v))).
  { intros w v I. apply definition_free, F, I. }
  constructor; cbn [eliminate fst ds_obj ds_cons ds_exprs ds_number ds_vars].
  - intros v L H. assert (I : In v (dependents s)) by (apply in_dependents; auto).
    apply (chain_gone (fun v e => occurs v e)); [intros u _; apply D, I|exact I|apply T|].
    intros r' K _. apply occurs_in, K.
  - intros v c L H J E. assert (I : In v (dependents s)) by (apply in_dependents; auto).
    rewrite map_map in J. apply in_map_iff in J. destruct J as (d & <- & J). rewrite con_enabled in E.
    rewrite con_chain by exact E. cbn [fst ct_expr with_expr].
    apply chain_gone; [intros u _; apply D, I|exact I|apply T, J|].
    intros r' _ K. apply occurs_in, K.
  - intros v e L H J. assert (I : In v (dependents s)) by (apply in_dependents; auto).
    exact (pass_exprs s v T I e J).
Qed.
Lemma zero_unchanged s : snd (eliminate s) = O -> clean s /\ ds_obj (fst (eliminate s)) = ds_obj s /\
  ds_exprs (fst (eliminate s)) = ds_exprs s /\ ds_cons (fst (eliminate s)) = ds_cons s.
Proof.
  intros H. unfold eliminate in H. cbn [snd] in H.
  assert (Ho : snd (eliminate_obj s) = O) by lia.
  assert (Hc : list_sum (map snd (map (eliminate_con s) (ds_cons s))) = O) by lia.
  assert (He : snd (eliminate_exprs s) = O) by lia. clear H.
  destruct (chain_zero (fun v e => occurs v e) (definition (ds_dep s) (ds_exprs s)) (dependents s) (ds_obj s, O) Ho) as [Oe On].
  destruct (vars_zero (ds_dep s) (dependents s) (ds_exprs s, O) He) as [Ee En].
  assert (Cz : forall c, In c (ds_cons s) -> snd (eliminate_con s c) = O).
  { revert Hc. generalize (ds_cons s) as l. induction l as [|d l IH]; intros Hc c I; [contradiction|].
    cbn [map list_sum fold_right] in Hc. destruct I as [<-|I]; [lia|]. apply IH; [|exact I].
    unfold list_sum. lia. }
  assert (Ce : forall c, In c (ds_cons s) -> fst (eliminate_con s c) = c /\
               (ct_enabled c = true -> forall v, In v (dependents s) -> ~ In v (keys (ct_expr c)))).
  { intros c I. destruct (ct_enabled c) eqn:E.
    - pose proof (Cz c I) as Z. rewrite con_chain in Z |- * by exact E. cbn [fst snd] in *.
      apply (chain_zero _ _ _ (ct_expr c, O)) in Z. destruct Z as [A B]. rewrite A. split.
      + destruct c; reflexivity.
      + intros _ v J. apply occurs_not. exact (B v J).
    - rewrite con_off by exact E. split; [reflexivity|discriminate]. }
  split; [constructor|split; [exact Oe|split; [cbn [eliminate fst ds_exprs]; unfold eliminate_exprs; rewrite Ee; reflexivity|]]].
  - intros v L D. apply occurs_not. apply (On v). apply in_dependents. auto.
  - intros v c L D I E. apply (proj2 (Ce c I) E). apply in_dependents. auto.
  - intros v e L D I. apply (En v); [apply in_dependents; auto|exact I].
  - cbn [eliminate fst ds_cons]. rewrite map_map. rewrite <- (map_id (ds_cons s)) at 2. apply map_ext_in. intros c I. apply Ce, I.
Qed.
Lemma clean_zero s : clean s -> snd (eliminate s) = O.
Proof.
  intros [A B C]. unfold eliminate. cbn [snd].
  assert (Ho : eliminate_obj s = (ds_obj s, O)).
  { apply (chain_none (fun v e => occurs v e)). intros v I. apply in_dependents in I. apply occurs_not. apply A; apply I. }
  assert (He : eliminate_exprs s = (ds_exprs s, O)).
  { apply vars_none. intros v I e J. apply in_dependents in I. apply C; [apply I|apply I|exact J]. }
  rewrite Ho, He. cbn [snd].
  assert (Hc : forall l, incl l (ds_cons s) -> list_sum (map snd (map (eliminate_con s) l)) = O).
  { induction l as [|c l IH]; intros S; [reflexivity|]. cbn [map list_sum fold_right].
    assert (Z : snd (eliminate_con s c) = O).
    { destruct (ct_enabled c) eqn:E; [|rewrite con_off by exact E; reflexivity].
      rewrite con_chain by exact E. cbn [snd]. rewrite chain_none; [reflexivity|].
      intros v I. apply in_dependents in I. apply occurs_not. apply B; try apply I; [apply S; left; reflexivity|exact E]. }
    rewrite Z. unfold list_sum in IH. rewrite IH; [reflexivity|]. intros d I. apply S. right. exact I. }
  rewrite Hc by apply incl_refl. reflexivity.
Qed.
Lemma clean_same s t : clean s -> ds_number t = ds_number s -> ds_vars t = ds_vars s -> ds_obj t = ds_obj s -> ds_exprs t = ds_exprs s ->
  ds_cons t = ds_cons s -> clean t.
Proof. intros [A B C] E1 E2 E3 E4 E5. constructor; rewrite ?E1, ?E2, ?E3, ?E4, ?E5; assumption. Qed.

Lemma loop_ends s fuel : tidy s -> (3 <= fuel)%nat -> exists s', eliminate_loop fuel s = Some s' /\ clean s'.
Proof.
  intros T L. destruct fuel as [|[|[|f]]]; try lia. clear L.
  assert (Fin : forall s f, snd (eliminate s) = O -> exists s', eliminate_loop (S f) s = Some s' /\ clean s').
  { intros t g Z. cbn [eliminate_loop]. rewrite Z. cbn [Nat.eqb]. exists (fst (eliminate t)). split; [reflexivity|].
    destruct (zero_unchanged t Z) as (A & B & C & D). eapply clean_same; eauto. }
  destruct (Nat.eq_dec (snd (eliminate s)) 0) as [Z|Z]; [apply Fin, Z|].
  assert (Step : forall t g, snd (eliminate t) <> O -> eliminate_loop (S g) t = eliminate_loop g (fst (eliminate t))).
  { intros t g N. cbn [eliminate_loop]. destruct (Nat.eqb_spec (snd (eliminate t)) 0); [contradiction|reflexivity]. }
  rewrite Step by exact Z. set (s1 := fst (eliminate s)).
  assert (T1 : tidy s1) by apply eliminate_tidy, T.
  destruct (Nat.eq_dec (snd (eliminate s1)) 0) as [Z1|Z1]; [apply Fin, Z1|].
  rewrite Step by exact Z1. apply Fin. apply clean_zero. apply pass_clean; [exact T1|].
  intros v I. apply pass_exprs; [exact T|exact I].
Qed.
