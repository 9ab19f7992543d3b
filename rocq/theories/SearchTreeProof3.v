From Coq Require Import List ZArith QArith Bool Sorted Permutation Lia Lqa.
From Verif Require Import PresolveModel SolutionModel UnionFindModel UnionFindSpec MstProof SearchTreeModel SearchTreeSpec SearchTreeProof SearchTreeProof2.
Import ListNotations.

(** * The archive *)
Lemma vars_eqb_eq a : forall b, vars_eqb a b = true -> a = b.
Proof.
  induction a as [|(i, x) a IH]; intros [|(j, y) b] H; cbn in H; try discriminate; [reflexivity|].
  apply andb_true_iff in H. destruct H as (H & H3). apply andb_true_iff in H. destruct H as (H1 & H2).
  apply Nat.eqb_eq in H1. apply Z.eqb_eq in H2. subst. f_equal. apply IH. exact H3.
Qed.

Lemma distinct_id l : NoDup (map ts_vars l) -> distinct l = l.
Proof.
  intros N. destruct l as [|s l]; [reflexivity|]. cbn [distinct]. f_equal.
  revert s N. induction l as [|t l IH]; intros s N; [reflexivity|]. cbn [distinct_after].
  destruct (vars_eqb (ts_vars s) (ts_vars t)) eqn:E.
  - apply vars_eqb_eq in E. cbn [map] in N. inversion N as [|? ? N1 N2]; subst. exfalso. apply N1. left. congruence.
  - f_equal. apply IH. inversion N; subst. assumption.
Qed.

Lemma nodup_app_l {A} (l k : list A) : NoDup (l ++ k) -> NoDup l.
Proof.
  induction l as [|a l IH]; cbn [app]; intros N; [constructor|]. inversion N as [|? ? N1 N2]; subst.
  constructor; [intros I; apply N1; apply in_or_app; left; exact I|apply IH; exact N2].
Qed.

Definition any_feasible (bs : list (list tsol)) : bool := existsb (existsb ts_feasible) bs.

Lemma retained_snoc bs b : forall acc, retained acc (bs ++ [b]) =
  if any_feasible bs then retained acc bs ++ b
  else if existsb ts_feasible b then filter ts_feasible (retained acc bs ++ b) else retained acc bs ++ b.
Proof.
  induction bs as [|c bs IH]; intros acc; cbn [app retained any_feasible existsb].
  - destruct (existsb ts_feasible b); [cbn [concat]; rewrite app_nil_r; reflexivity|reflexivity].
  - destruct (existsb ts_feasible c); cbn [orb].
    + rewrite concat_app. cbn [concat]. rewrite app_nil_r, app_assoc. reflexivity.
    + apply IH.
Qed.

Lemma nodup_filter_app {A} (f : tsol -> A) p l k : NoDup (map f (l ++ k)) -> NoDup (map f (filter p l ++ k)).
Proof.
  induction l as [|a l IH]; cbn [app filter map]; [auto|]. intros N. inversion N as [|? ? N1 N2]; subst.
  destruct (p a); [|auto]. cbn [app map]. constructor; [|auto]. intros I. apply N1.
  apply in_map_iff in I. destruct I as (x & E & I). apply in_map_iff. exists x. split; [exact E|].
  apply in_app_iff in I. apply in_app_iff. destruct I as [I|I]; [left; apply filter_In in I; apply I|right; exact I].
Qed.

Lemma retained_nodup bs b : forall acc, NoDup (map ts_vars (acc ++ concat bs ++ b)) -> NoDup (map ts_vars (retained acc bs ++ b)).
Proof.
  induction bs as [|c bs IH]; intros acc N; cbn [concat retained] in *; [exact N|].
  rewrite <- app_assoc in N. destruct (existsb ts_feasible c).
  - rewrite <- app_assoc. apply nodup_filter_app. rewrite <- app_assoc. exact N.
  - apply IH. rewrite <- app_assoc. exact N.
Qed.

Lemma retained_in bs s : forall acc, In s (retained acc bs) -> In s acc \/ In s (concat bs).
Proof.
  induction bs as [|c bs IH]; intros acc H; cbn [concat retained] in *; [left; exact H|].
  rewrite in_app_iff. destruct (existsb ts_feasible c).
  - apply in_app_iff in H. destruct H as [H|H]; [|tauto]. apply filter_In in H. destruct H as (H & _). apply in_app_iff in H. tauto.
  - apply IH in H. destruct H as [H|H]; [apply in_app_iff in H|]; tauto.
Qed.

Lemma any_snoc bs b : any_feasible (bs ++ [b]) = any_feasible bs || existsb ts_feasible b.
Proof. unfold any_feasible. rewrite existsb_app. cbn [existsb]. rewrite orb_false_r. reflexivity. Qed.

Lemma complete_nil : complete [] [].
Proof. split; [constructor|]. split; [contradiction|]. cbn. intros; lia. Qed.

Definition grown (g : gstate) (arch : list tsol) : Prop :=
  exists l r, arch = l ++ r /\ well (length l) (tr_graph (gs_tree g)) /\ complete l (g_edges (tr_graph (gs_tree g))).

Lemma gs_run_app h1 : forall g h2, gs_run g (h1 ++ h2) = bind (gs_run g h1) (fun g => gs_run g h2).
Proof.
  induction h1 as [|(s, i) h1 IH]; intros g h2; [reflexivity|]. cbn [app gs_run].
  destruct (gs_update g s i); cbn [bind]; [apply IH|reflexivity|reflexivity].
Qed.

Lemma history init hist :
  NoDup (map ts_vars (init :: concat (map fst hist))) -> all_sparse (init :: concat (map fst hist)) ->
  (forall sols inc, In (sols, inc) hist -> sparse (ts_vars inc)) ->
  exists g, gs_run (gs_start init) hist = Ok g /\ gs_archive g = retained [init] (map fst hist) /\
    gs_found g = any_feasible (map fst hist) /\ grown g (gs_archive g) /\
    forall h sols inc, hist = h ++ [(sols, inc)] -> sols <> [] -> shown (gs_archive g) inc (gs_tree g).
Proof.
  induction hist as [|(sols, inc) hist IH] using rev_ind; intros N SP SI.
  - exists (gs_start init). split; [reflexivity|]. split; [reflexivity|]. split; [reflexivity|]. split.
    + exists [], [init]. split; [reflexivity|]. split; [apply well_init|apply complete_nil].
    + intros h s i E. destruct h; discriminate.
  - rewrite map_app, concat_app in N, SP. cbn [map concat fst] in N, SP. rewrite app_nil_r in N, SP.
    destruct IH as (g & R & A & F & (l & r & E & W & C) & _).
    { change (NoDup (map ts_vars ((init :: concat (map fst hist)) ++ sols))) in N.
      rewrite map_app in N. apply nodup_app_l in N. exact N. }
    { intros s Hs. apply SP. rewrite app_comm_cons. apply in_or_app. left. exact Hs. }
    { intros s i Hi. apply (SI s i). apply in_or_app. left. exact Hi. }
    assert (SI' : sparse (ts_vars inc)) by (apply (SI sols inc); apply in_or_app; right; left; reflexivity).
    assert (ND : NoDup (map ts_vars (gs_archive g ++ sols))) by (rewrite A; apply retained_nodup; exact N).
    assert (SA : all_sparse (gs_archive g ++ sols)).
    { intros s Hs. apply SP. apply in_app_iff in Hs. cbn [In]. rewrite in_app_iff. destruct Hs as [Hs|Hs]; [|tauto].
      rewrite A in Hs. apply retained_in in Hs. cbn [In] in Hs. tauto. }
    rewrite gs_run_app, R. cbn [bind gs_run].
    rewrite map_app. cbn [map fst]. rewrite retained_snoc, any_snoc, <- A, <- F.
    destruct sols as [|s0 sols0] eqn:SE.
    + cbn [gs_update bind existsb]. exists g. split; [reflexivity|]. rewrite orb_false_r, app_nil_r.
      split; [destruct (gs_found g); reflexivity|]. split; [reflexivity|].
      split; [exists l, r; split; [exact E|]; split; assumption|].
      intros h s i X Y. apply app_inj_tail in X. destruct X as (_ & X). injection X as <- <-. contradiction.
    + rewrite <- SE in *. clear SE s0 sols0.
      assert (NE : sols <> [] \/ sols = []) by (destruct sols; [right; reflexivity|left; discriminate]).
      unfold gs_update. rewrite (distinct_id _ ND).
      destruct (negb (gs_found g) && existsb ts_feasible sols) eqn:FI.
      * apply andb_true_iff in FI. destruct FI as (F1 & F2). apply negb_true_iff in F1. rewrite F1, F2.
        destruct sols as [|s0 sols0] eqn:SE; [discriminate|]. rewrite <- SE in *.
        destruct (tree_update_ok [] (filter ts_feasible (gs_archive g ++ sols)) inc tree_init well_init complete_nil) as (t & T1 & T2 & T3 & T4).
        { intros s Hs. apply SA. cbn [app] in Hs. apply filter_In in Hs. apply Hs. } { exact SI'. }
        cbn [app] in *. rewrite T1. cbn [bind]. eexists. split; [reflexivity|]. cbn [gs_archive gs_found gs_tree orb].
        split; [reflexivity|]. split; [reflexivity|]. split.
        -- exists (filter ts_feasible (gs_archive g ++ sols)), []. rewrite app_nil_r. split; [reflexivity|]. split; assumption.
        -- intros h s i X Y. apply app_inj_tail in X. destruct X as (_ & X). injection X as <- <-. exact T4.
      * assert (RE : (if gs_found g then gs_archive g ++ sols else if existsb ts_feasible sols then filter ts_feasible (gs_archive g ++ sols) else gs_archive g ++ sols) = gs_archive g ++ sols).
        { destruct (gs_found g); [reflexivity|]. cbn in FI. rewrite FI. reflexivity. }
        rewrite RE. assert (FE : gs_found g || false = gs_found g || existsb ts_feasible sols).
        { destruct (gs_found g); [reflexivity|]. cbn in FI. rewrite FI. reflexivity. }
        destruct sols as [|s0 sols0] eqn:SE.
        { exists g. rewrite app_nil_r, orb_false_r. split; [reflexivity|]. split; [reflexivity|]. split; [reflexivity|].
          split; [exists l, r; split; [exact E|]; split; assumption|].
          intros h s i X Y. apply app_inj_tail in X. destruct X as (_ & X). injection X as <- <-. contradiction. }
        rewrite <- SE in *.
        destruct (tree_update_ok l (r ++ sols) inc (gs_tree g) W C) as (t & T1 & T2 & T3 & T4).
        { rewrite app_assoc, <- E. exact SA. } { exact SI'. }
        rewrite app_assoc, <- E in T1, T2, T3, T4. rewrite T1. cbn [bind]. eexists. split; [reflexivity|]. cbn [gs_archive gs_found gs_tree].
        split; [reflexivity|]. split; [exact FE|]. split.
        -- exists (gs_archive g ++ sols), []. rewrite app_nil_r. split; [reflexivity|]. split; assumption.
        -- intros h s i X Y. apply app_inj_tail in X. destruct X as (_ & X). injection X as <- <-. exact T4.
Qed.

(** * Consequences *)
Lemma best_local sols inc T l s i : listed sols inc (no_better sols T) l -> nth_error sols i = Some s ->
  (forall t, In t sols -> (ts_aug s <= ts_aug t)%Q) -> exists d, In (s, d) l.
Proof.
  intros (is_ & _ & M & F) Hi H.
  assert (I : In i is_).
  { apply M. split; [apply nth_error_Some; congruence|]. intros k a b _ A B. rewrite Hi in A. injection A as <-. apply H. eapply nth_error_In; exact B. }
  revert I. clear M. induction F as [|j (s', d) is_ l (X & Y) F IH]; intros I; [contradiction|].
  destruct I as [->|I].
  - cbn in X. rewrite Hi in X. injection X as <-. exists d. left. reflexivity.
  - destruct (IH I) as (d' & J). exists d'. right. exact J.
Qed.

Lemma conn_isolated T i : (forall e, In e T -> at_node i e = false) -> forall x y, conn (ends T) x y -> (x = i <-> y = i).
Proof.
  intros H x y C. induction C as [x|x y I|x y C IH|x y z C1 IH1 C2 IH2]; [tauto| |tauto|tauto].
  apply in_ends_inv in I. destruct I as (e & I & <- & <-). specialize (H e I). unfold at_node in H.
  apply orb_false_iff in H. rewrite !Nat.eqb_neq in H. tauto.
Qed.

Lemma complete_conn sols es i j : complete sols es -> (i < length sols)%nat -> (j < length sols)%nat -> conn (ends es) i j.
Proof.
  intros (_ & _ & C) Hi Hj. destruct (Nat.lt_trichotomy i j) as [L|[->|L]]; [|apply conn_refl|].
  - destruct (C i j ltac:(lia)) as (e & I & <- & <-). apply conn_pair, in_ends, I.
  - destruct (C j i ltac:(lia)) as (e & I & <- & <-). apply conn_sym, conn_pair, in_ends, I.
Qed.

(** Handshake: the degrees of the nodes sum to twice the number of edges. *)
Definition total (l : list nat) : nat := fold_right plus 0%nat l.
Lemma total_ext (f g : nat -> nat) l : (forall i, In i l -> f i = g i) -> total (map f l) = total (map g l).
Proof. intros H. unfold total. induction l as [|a l IH]; [reflexivity|]. cbn [map fold_right]. rewrite IH, (H a); [reflexivity|left; reflexivity|]. intros i I. apply H. right. exact I. Qed.
Lemma total_plus (f g : nat -> nat) l : total (map (fun i => f i + g i)%nat l) = (total (map f l) + total (map g l))%nat.
Proof. unfold total. induction l as [|a l IH]; cbn [map fold_right]; [reflexivity|rewrite IH; lia]. Qed.
Lemma total_one l a : NoDup l -> In a l -> total (map (fun i => if Nat.eqb a i then 1%nat else 0%nat) l) = 1%nat.
Proof.
  intros N. induction N as [|b l A N IH]; intros I; [contradiction|]. cbn [map]. unfold total. cbn [fold_right].
  fold (total (map (fun i => if Nat.eqb a i then 1%nat else 0%nat) l)).
  destruct (Nat.eqb_spec a b) as [->|E].
  - rewrite (total_ext _ (fun _ => 0%nat)).
    + clear. cbn. f_equal. unfold total. induction l; cbn; auto.
    + intros i J. destruct (Nat.eqb_spec b i) as [->|]; [contradiction|reflexivity].
  - destruct I as [<-|I]; [contradiction|]. rewrite IH by exact I. reflexivity.
Qed.

Lemma handshake T n : (forall e, In e T -> (e_fst e < e_snd e)%nat /\ (e_snd e < n)%nat) ->
  total (map (degree T) (seq 0 n)) = (2 * length T)%nat.
Proof.
  induction T as [|e T IH]; intros H.
  - unfold degree. cbn. generalize (seq 0 n) as l. induction l; cbn; auto.
  - destruct (H e (or_introl eq_refl)) as (L1 & L2).
    rewrite (total_ext _ (fun i => ((if Nat.eqb (e_fst e) i then 1 else 0) + (if Nat.eqb (e_snd e) i then 1 else 0)) + degree T i)%nat).
    + rewrite total_plus, total_plus, !total_one; try apply seq_NoDup; try (apply in_seq; lia).
      rewrite IH by (intros f F; apply H; right; exact F). cbn [length]. lia.
    + intros i _. unfold degree. cbn [filter]. unfold at_node at 1.
      destruct (Nat.eqb_spec (e_fst e) i); destruct (Nat.eqb_spec (e_snd e) i); cbn [orb length]; lia.
Qed.

Lemma count_leaves (f : nat -> nat) l : (forall i, In i l -> (1 <= f i)%nat) ->
  (2 * length l <= total (map f l) + length (filter (fun i => Nat.eqb (f i) 1) l))%nat.
Proof.
  induction l as [|a l IH]; intros H; [cbn; lia|]. cbn [map filter length]. unfold total. cbn [fold_right].
  fold (total (map f l)). specialize (IH (fun i I => H i (or_intror I))). pose proof (H a (or_introl eq_refl)).
  destruct (Nat.eqb_spec (f a) 1); cbn [length]; lia.
Qed.

Lemma sorted_same_length l k : StronglySorted lt l -> StronglySorted lt k -> (forall i, In i l <-> In i k) -> length l = length k.
Proof.
  intros A B C. apply Permutation_length. apply NoDup_Permutation; [apply lt_sorted_nodup, A|apply lt_sorted_nodup, B|exact C].
Qed.

Lemma forall2_len {A B} (R : A -> B -> Prop) l k : Forall2 R l k -> length l = length k.
Proof. induction 1; cbn; congruence. Qed.

Lemma two_leaves sols inc es T l : complete sols es -> minimum_tree T es -> listed sols inc (leaf T) l ->
  (2 <= length sols)%nat -> (2 <= length l)%nat.
Proof.
  intros C ((SUB & AC & CN) & _) (is_ & SO & M & F) H2.
  rewrite <- (forall2_len _ _ _ F).
  set (n := length sols) in *.
  assert (TE : incl T es).
  { intros e I. destruct SUB as (rest & P). eapply Permutation_in; [exact P|]. apply in_or_app. left. exact I. }
  assert (RT : forall e, In e T -> (e_fst e < e_snd e)%nat /\ (e_snd e < n)%nat).
  { intros e I. apply TE in I. split; [apply C; exact I|]. apply (complete_range _ _ e C I). }
  assert (CT : forall i j, (i < n)%nat -> (j < n)%nat -> conn (ends T) i j) by (intros i j Hi Hj; apply CN; apply (complete_conn sols); assumption).
  assert (LT : (length T + 1 = n)%nat).
  { pose proof (ncomp_indep (seq 0 n) (ends T) (seq_NoDup n 0)) as X.
    rewrite ends_length, seq_length in X. rewrite <- X.
    - assert (Y : ncomp (seq 0 n) (ends T) = 1%nat); [|lia]. unfold ncomp.
      assert (Z : forall x, In x (nodup Nat.eq_dec (map (labs (ends T)) (seq 0 n))) <-> In x [labs (ends T) 0%nat]).
      { intros x. rewrite nodup_In, in_map_iff. cbn [In]. split.
        - intros (i & <- & I). left. apply in_seq in I. apply labs_conn. apply CT; lia.
        - intros [<-|[]]. exists 0%nat. split; [reflexivity|]. apply in_seq. lia. }
      apply (Permutation_length (l' := [labs (ends T) 0%nat])). apply NoDup_Permutation; [apply NoDup_nodup|repeat constructor; cbn; tauto|exact Z].
    - intros a b I. apply in_ends_inv in I. destruct I as (e & I & <- & <-). specialize (RT e I). rewrite !in_seq. lia.
    - apply acyclic_indep, AC. }
  assert (D1 : forall i, In i (seq 0 n) -> (1 <= degree T i)%nat).
  { intros i I. apply in_seq in I. unfold degree. destruct (filter (at_node i) T) as [|e k] eqn:E; [|cbn; lia]. exfalso.
    assert (Z : forall e, In e T -> at_node i e = false).
    { intros e J. destruct (at_node i e) eqn:X; [|reflexivity]. assert (In e (filter (at_node i) T)) by (apply filter_In; auto). rewrite E in H. contradiction. }
    assert (J : exists j, (j < n)%nat /\ j <> i) by (destruct i; [exists 1%nat|exists 0%nat]; lia).
    destruct J as (j & J1 & J2). pose proof (conn_isolated T i Z i j (CT i j ltac:(lia) J1)). tauto. }
  pose proof (handshake T n RT) as HS. pose proof (count_leaves (degree T) (seq 0 n) D1) as CL. rewrite seq_length, HS in CL.
  rewrite (sorted_same_length is_ (filter (fun i => Nat.eqb (degree T i) 1) (seq 0 n))); [lia|exact SO|apply sorted_filter, sorted_seq|].
  intros i. rewrite M, filter_In, in_seq, Nat.eqb_eq. unfold leaf. split; intros (X & Y); (split; [lia|exact Y]).
Qed.

Lemma export_sparse values obj viol penalty feasible : StronglySorted lt (map fst values) ->
  let s := export_solution values obj viol penalty feasible in
  sparse (ts_vars s) /\ (forall k, value (ts_vars s) k = value values k) /\ ts_aug s = (obj + penalty * viol)%Q.
Proof.
  intros SO. cbv zeta. unfold export_solution. cbn [ts_vars ts_aug].
  set (p := fun kv : nat * Z => negb (snd kv =? 0)%Z).
  assert (A : StronglySorted lt (map fst (filter p values)) /\ (forall x, Forall (lt x) (map fst values) -> Forall (lt x) (map fst (filter p values)))).
  { clear obj viol penalty feasible. induction values as [|kv values IH]; cbn [filter map]; [split; [constructor|auto]|].
    cbn [map] in SO. inversion SO as [|? ? S1 S2]; subst. destruct (IH S1) as (B & C). destruct (p kv); cbn [map].
    - split; [constructor; [exact B|apply C; exact S2]|]. intros x F. inversion F; subst. constructor; [assumption|apply C; assumption].
    - split; [exact B|]. intros x F. inversion F; subst. apply C. assumption. }
  split; [split; [apply A|]|split; [|reflexivity]].
  - intros k v I. apply filter_In in I. destruct I as (_ & I). unfold p in I. cbn [snd] in I. apply negb_true_iff, Z.eqb_neq in I. exact I.
  - intros k. rewrite !lookup_value. apply lt_sorted_nodup in SO.
    destruct (lookup k (filter p values)) as [v|] eqn:E.
    + apply lookup_some in E. apply filter_In in E. destruct E as (E & _). rewrite (lookup_in values k v SO E). reflexivity.
    + destruct (lookup k values) as [v|] eqn:E'; [|reflexivity]. apply lookup_some in E'.
      destruct (Z.eq_dec v 0) as [->|Z0]; [reflexivity|]. exfalso. apply lookup_none in E. apply E.
      apply in_map_iff. exists (k, v). split; [reflexivity|]. apply filter_In. split; [exact E'|]. unfold p. cbn [snd].
      apply negb_true_iff, Z.eqb_neq. exact Z0.
Qed.
