(** Proofs for C39, C40 and C41. *)
From Coq Require Import List ZArith NArith QArith Qabs Lia Lqa Bool.
From Verif Require Import ExprModel ExprSpec ExprProof ConstraintModel ConstraintSpec ConstraintProof
  EvalModel EvalSpec EvalSpec2 EvalProof EvalProof2 EvalProof3 VariableModel PresolveModel MoveModel MoveSpec ScreenModel ScreenSpec.
Import ListNotations.
Local Open Scope Q_scope.

Lemma qpos_iff q : qpos q = true <-> 0 < q.
Proof. unfold qpos. destruct (Qlt_le_dec 0 q); split; intros; try reflexivity; try discriminate; lra. Qed.
Lemma qpos_false q : qpos q = false <-> q <= 0.
Proof. unfold qpos. destruct (Qlt_le_dec 0 q); split; intros; try reflexivity; try discriminate; lra. Qed.
Lemma qneg_iff q : qneg q = true <-> q < 0.
Proof. unfold qneg. destruct (Qlt_le_dec q 0); split; intros; try reflexivity; try discriminate; lra. Qed.

(** ** Flags *)
Lemma set_flags_spec g l : forall f v,
  fold_left (fun f w => set_flag f w (g w)) l f v = if existsb (Nat.eqb v) l then g v else f v.
Proof.
  induction l as [|w l IH]; intros f v; cbn [fold_left existsb]; [reflexivity|].
  rewrite IH. destruct (Nat.eq_dec v w) as [->|D].
  - rewrite Nat.eqb_refl. cbn [orb]. destruct (existsb (Nat.eqb w) l); [reflexivity|]. unfold set_flag. now rewrite Nat.eqb_refl.
  - apply Nat.eqb_neq in D. rewrite D. cbn [orb]. unfold set_flag. now rewrite D.
Qed.
Lemma existsb_in v l : existsb (Nat.eqb v) l = true <-> In v l.
Proof.
  rewrite existsb_exists. split.
  - intros (w & H & E). apply Nat.eqb_eq in E. now subst.
  - intros H. exists v. split; [exact H|apply Nat.eqb_refl].
Qed.
Lemma raise_spec margin l : forall f v, raise_flags margin l f v = true <-> f v = true \/ (In v l /\ margin v = true).
Proof.
  unfold raise_flags. induction l as [|w l IH]; intros f v; cbn [fold_left In].
  - intuition.
  - rewrite IH. unfold set_flag. destruct (Nat.eq_dec v w) as [->|D].
    + rewrite Nat.eqb_refl, orb_true_iff. intuition.
    + apply Nat.eqb_neq in D as D'. rewrite D'. intuition congruence.
Qed.

(** What one constraint asks of one variable. *)
Definition wants (s : sstate) (c : constr) (v : nat) : Prop :=
  c_is_feasible c = false /\ ct_enabled c = true /\
  exists a, In (v, a) (ex_sens (ct_expr c)) /\ ms_fixed (ss_ms s) v = false /\
  if qpos (ct_value c)
  then (0 < a /\ lower_margin s v = true) \/ (a <= 0 /\ upper_margin s v = true)
  else (a <= 0 /\ lower_margin s v = true) \/ (0 < a /\ upper_margin s v = true).
Definition fresh (s : sstate) (v : nat) : Prop := exists c, In c (md_cons (ms_model (ss_ms s))) /\ wants s c v.

Lemma positive_iff s c v : In v (positive_vars s c) <-> exists a, In (v, a) (ex_sens (ct_expr c)) /\ ms_fixed (ss_ms s) v = false /\ 0 < a.
Proof.
  unfold positive_vars. rewrite in_map_iff. split.
  - intros ([w a] & E & H). cbn in E. subst w. apply filter_In in H as [H1 H2]. cbn [fst snd] in H2.
    apply andb_true_iff in H2 as [H2 H3]. apply qpos_iff in H3. exists a. split; [exact H1|]. split; [|exact H3].
    destruct (ms_fixed (ss_ms s) v); [discriminate|reflexivity].
  - intros (a & H1 & H2 & H3). exists (v, a). split; [reflexivity|]. apply filter_In. split; [exact H1|]. cbn [fst snd].
    rewrite H2. apply qpos_iff in H3. now rewrite H3.
Qed.
Lemma negative_iff s c v : In v (negative_vars s c) <-> exists a, In (v, a) (ex_sens (ct_expr c)) /\ ms_fixed (ss_ms s) v = false /\ a <= 0.
Proof.
  unfold negative_vars. rewrite in_map_iff. split.
  - intros ([w a] & E & H). cbn in E. subst w. apply filter_In in H as [H1 H2]. cbn [fst snd] in H2.
    apply andb_true_iff in H2 as [H2 H3]. apply negb_true_iff, qpos_false in H3. exists a. split; [exact H1|]. split; [|exact H3].
    destruct (ms_fixed (ss_ms s) v); [discriminate|reflexivity].
  - intros (a & H1 & H2 & H3). exists (v, a). split; [reflexivity|]. apply filter_In. split; [exact H1|]. cbn [fst snd].
    rewrite H2. apply qpos_false in H3. now rewrite H3.
Qed.

Lemma step_flags s f c v : update_feasibility_step s f c v = true <-> f v = true \/ wants s c v.
Proof.
  unfold update_feasibility_step, wants. destruct (c_is_feasible c); [intuition discriminate|].
  destruct (ct_enabled c); cbn [negb]; [|intuition discriminate].
  destruct (qpos (ct_value c)); rewrite !raise_spec, positive_iff, negative_iff; split.
  - intros [[H|[(a & H1 & H2 & H3) H4]]|[(a & H1 & H2 & H3) H4]]; [now left| |]; right; (split; [reflexivity|]; split; [reflexivity|]); exists a; tauto.
  - intros [H|(_ & _ & a & H1 & H2 & [[H3 H4]|[H3 H4]])]; [tauto| |].
    + left. right. split; [|exact H4]. exists a. tauto.
    + right. split; [|exact H4]. exists a. tauto.
  - intros [[H|[(a & H1 & H2 & H3) H4]]|[(a & H1 & H2 & H3) H4]]; [now left| |]; right; (split; [reflexivity|]; split; [reflexivity|]); exists a; tauto.
  - intros [H|(_ & _ & a & H1 & H2 & [[H3 H4]|[H3 H4]])]; [tauto| |].
    + left. right. split; [|exact H4]. exists a. tauto.
    + right. split; [|exact H4]. exists a. tauto.
Qed.
Lemma flags_fold s v l : forall f, fold_left (update_feasibility_step s) l f v = true <-> f v = true \/ exists c, In c l /\ wants s c v.
Proof.
  induction l as [|c l IH]; intros f; cbn [fold_left In].
  - split; [now left|]. intros [H|(c & [] & _)]. exact H.
  - rewrite IH, step_flags. split.
    + intros [[H|H]|(d & H1 & H2)]; [now left|right; exists c; tauto|right; exists d; tauto].
    + intros [H|(d & [<-|H1] & H2)]; [tauto|tauto|right; exists d; tauto].
Qed.
Lemma in_pick s l c : In c (pick s l) <-> exists i, In i l /\ nth_error (md_cons (ms_model (ss_ms s))) i = Some c.
Proof.
  unfold pick. rewrite in_flat_map. split.
  - intros (i & H1 & H2). exists i. split; [exact H1|]. destruct (nth_error _ i); [|destruct H2]. destruct H2 as [->|[]]. reflexivity.
  - intros (i & H1 & H2). exists i. split; [exact H1|]. rewrite H2. now left.
Qed.
Lemma in_indices (p : constr -> bool) (l : list constr) i :
  In i (map fst (filter (fun ic => p (snd ic)) (combine (seq 0 (length l)) l))) <-> exists c, nth_error l i = Some c /\ p c = true.
Proof.
  assert (K : forall k, In i (map fst (filter (fun ic => p (snd ic)) (combine (seq k (length l)) l))) <->
     exists c, (k <= i)%nat /\ nth_error l (i - k) = Some c /\ p c = true).
  { induction l as [|c l IH]; intros k; cbn [length seq combine filter map].
    - split; [intros []|]. intros (c & _ & H & _). destruct (i - k)%nat; discriminate.
    - cbn [snd]. assert (T : In i (map fst (filter (fun ic => p (snd ic)) (combine (seq (S k) (length l)) l))) <->
         exists d, (k < i)%nat /\ nth_error (c :: l) (i - k) = Some d /\ p d = true).
      { rewrite IH. split; intros (d & H1 & H2 & H3); exists d; (split; [lia|]); (split; [|exact H3]).
        - replace (i - k)%nat with (S (i - S k)) by lia. exact H2.
        - replace (i - k)%nat with (S (i - S k)) in H2 by lia. exact H2. }
      destruct (p c) eqn:Ep.
      + cbn [map fst In]. rewrite T. split.
        * intros [<-|(d & H1 & H2)]; [exists c; split; [lia|]; rewrite Nat.sub_diag; auto|exists d; split; [lia|exact H2]].
        * intros (d & H1 & H2). destruct (Nat.eq_dec k i) as [->|D]; [now left|]. right. exists d. split; [lia|exact H2].
      + rewrite T. split; intros (d & H1 & H2 & H3).
        * exists d. split; [lia|auto].
        * destruct (Nat.eq_dec k i) as [->|D].
          -- rewrite Nat.sub_diag in H2. cbn in H2. congruence.
          -- exists d. split; [lia|auto]. }
  rewrite K. rewrite Nat.sub_0_r. split; intros (c & H); exists c; [tauto|split; [lia|tauto]].
Qed.
Lemma pick_violative s v : ms_violative (ss_ms s) = violative (md_cons (ms_model (ss_ms s))) ->
  ((exists c, In c (pick s (ms_violative (ss_ms s))) /\ wants s c v) <-> fresh s v).
Proof.
  intros E. rewrite E. unfold fresh. split; intros (c & H1 & H2); exists c; (split; [|exact H2]).
  - apply in_pick in H1 as (i & _ & H1). eapply nth_error_In; eassumption.
  - apply In_nth_error in H1 as (i & H1). apply in_pick. exists i. split; [|exact H1].
    apply (in_indices (fun c => ct_enabled c && negb (c_is_feasible c))). exists c. split; [exact H1|].
    destruct H2 as (Hf & He & _). now rewrite Hf, He.
Qed.
Lemma pick_enabled s v : (exists c, In c (pick s (enabled_indices s)) /\ wants s c v) <-> fresh s v.
Proof.
  unfold fresh. split; intros (c & H1 & H2); exists c; (split; [|exact H2]).
  - apply in_pick in H1 as (i & _ & H1). eapply nth_error_In; eassumption.
  - apply In_nth_error in H1 as (i & H1). apply in_pick. exists i. split; [|exact H1].
    apply (in_indices ct_enabled). exists c. split; [exact H1|]. apply H2.
Qed.

Lemma reset_spec s l v : ss_feas (reset_feasibility s l) v = true <->
  ss_feas s v = true /\ forall c, In c (pick s l) -> ct_enabled c = true -> ~ In v (keys (ct_expr c)).
Proof.
  unfold reset_feasibility. cbn [with_feas ss_feas]. generalize (pick s l) as cs. generalize (ss_feas s) as f.
  intros f cs. revert f. induction cs as [|c cs IH]; intros f; cbn [fold_left In].
  - intuition.
  - rewrite IH. clear IH.
    assert (K : forall g (q : sens), fold_left (fun f p => set_flag f (fst p) false) q g v = true <-> g v = true /\ ~ In v (map fst q)).
    { intros g q. revert g. induction q as [|[w a] q IHq]; intros g; cbn [fold_left map fst In]; [intuition|].
      rewrite IHq. unfold set_flag. destruct (Nat.eq_dec v w) as [->|D].
      - rewrite Nat.eqb_refl. split; [intros [H _]; discriminate|]. intros [_ H]. exfalso. apply H. now left.
      - apply Nat.eqb_neq in D as D'. rewrite D'. intuition. }
    destruct (ct_enabled c) eqn:Ee.
    + rewrite K. split.
      * intros [[H1 H2] H3]. split; [exact H1|]. intros d [<-|Hd] Hen; [exact H2|now apply H3].
      * intros [H1 H2]. split; [split; [exact H1|apply (H2 c); auto]|]. intros d Hd. apply H2. now right.
    + split.
      * intros [H1 H3]. split; [exact H1|]. intros d [<-|Hd] Hen; [congruence|now apply H3].
      * intros [H1 H2]. split; [exact H1|]. intros d Hd. apply H2. now right.
Qed.

(** ** The invariant *)
Definition exact_mode (md : mode) : Prop := md = Soft \/ md = Aggressive \/ md = Local.
Definition sinv (md : mode) (mutables : list nat) (s : sstate) : Prop :=
  good (ss_ms s) /\
  (md <> ScreenOff -> forall v, In v mutables -> ss_obj s v = objective_improvable s v) /\
  (exact_mode md -> ms_feasible (ss_ms s) = false -> forall v, ss_feas s v = true <-> fresh s v).

Lemma screen_ms md mutables last s : ss_ms (fst (screen md mutables last s)) = ss_ms s /\
  ss_lo (fst (screen md mutables last s)) = ss_lo s /\ ss_hi (fst (screen md mutables last s)) = ss_hi s.
Proof.
  unfold screen. destruct md; [repeat split| | | |]; destruct (ms_feasible (ss_ms s)); try destruct last as [ml|]; try destruct (ss_prev s); repeat split.
Qed.
Lemma improvable_ext s t v : ss_ms s = ss_ms t -> ss_lo s = ss_lo t -> ss_hi s = ss_hi t -> objective_improvable s v = objective_improvable t v.
Proof. intros E1 E2 E3. unfold objective_improvable, objective_sensitivity, lower_margin, upper_margin. now rewrite E1, E2, E3. Qed.
Lemma fresh_ext s t v : ss_ms s = ss_ms t -> ss_lo s = ss_lo t -> ss_hi s = ss_hi t -> fresh s v <-> fresh t v.
Proof. intros E1 E2 E3. unfold fresh, wants, lower_margin, upper_margin. now rewrite E1, E2, E3. Qed.

Lemma screen_obj md mutables last s v : md <> ScreenOff ->
  ss_obj (fst (screen md mutables last s)) v =
  if existsb (Nat.eqb v) (match last with None => mutables | Some ml => map fst (fst ml) end) then objective_improvable s v else ss_obj s v.
Proof.
  intros H. rewrite <- (set_flags_spec (objective_improvable s)). unfold screen.
  destruct md; [congruence| | | |]; destruct (ms_feasible (ss_ms s)); try destruct last as [ml|]; try destruct (ss_prev s); reflexivity.
Qed.

Lemma all_fresh s v : (exists c, In c (pick s (ms_violative (ss_ms s))) /\ wants s c v) <-> fresh s v ->
  ss_feas (update_feasibility_flags (reset_all_feasibility s) (ms_violative (ss_ms s))) v = true <-> fresh s v.
Proof.
  intros H. unfold update_feasibility_flags. cbn [with_feas ss_feas reset_all_feasibility]. rewrite flags_fold.
  rewrite <- H. split; [intros [K|K]; [discriminate|exact K]|now right].
Qed.

Lemma screen_start md mutables s : good (ss_ms s) -> sinv md mutables (fst (screen md mutables None s)).
Proof.
  intros G. destruct (screen_ms md mutables None s) as (E1 & E2 & E3). split; [now rewrite E1|]. split.
  - intros Hm v Hv. rewrite (screen_obj _ _ _ _ _ Hm). apply existsb_in in Hv. rewrite Hv. now apply improvable_ext.
  - intros Hm Hf v. rewrite (fresh_ext _ s v E1 E2 E3). rewrite E1 in Hf.
    assert (V : ms_violative (ss_ms s) = violative (md_cons (ms_model (ss_ms s)))) by apply G.
    pose proof (pick_violative s v V) as PV. pose proof (pick_enabled s v) as PE.
    unfold screen. destruct Hm as [-> | [-> | ->]]; rewrite Hf; cbn [fst]; unfold update_feasibility_flags;
      cbn [with_feas ss_feas reset_all_feasibility]; rewrite flags_fold.
    + rewrite <- PV. split; [intros [K|K]; [discriminate|exact K]|intros K; right; exact K].
    + rewrite <- PV. split; [intros [K|K]; [discriminate|exact K]|intros K; right; exact K].
    + rewrite <- PE. split; [intros [K|K]; [discriminate|exact K]|intros K; right; exact K].
Qed.

Lemma apply_other m : forall x v, ~ In v (map fst m) -> apply_move x m v = x v.
Proof.
  unfold apply_move. induction m as [|[w n] m IH]; intros x v H; cbn [fold_left fst snd]; [reflexivity|].
  cbn [map fst In] in H. rewrite IH by tauto. unfold set_val. destruct (Nat.eq_dec v w) as [->|D]; [tauto|].
  apply Nat.eqb_neq in D. now rewrite D.
Qed.

Lemma advance_margin s ml v : model_wf (ss_ms s) -> search_move (ss_ms s) ml -> good (ss_ms s) -> ~ In v (map fst (fst ml)) ->
  lower_margin (advance s ml) v = lower_margin s v /\ upper_margin (advance s ml) v = upper_margin s v.
Proof.
  intros W [M _] G H. destruct (step_good _ _ W M G) as [_ X]. unfold lower_margin, upper_margin.
  cbn [advance ss_ms ss_lo ss_hi]. rewrite X, apply_other by exact H. split; reflexivity.
Qed.

Lemma search_move_static s t ml : same_static s t -> search_move t ml -> search_move s ml.
Proof.
  intros E [M C]. split; [now apply (move_ok_static _ _ _ E)|].
  destruct E as (E1 & _). intros i c v Hn He Hv Hi. destruct (map_skel_nth _ _ E1 i c Hn) as (c' & H' & Es). unfold skel in Es.
  assert (ct_expr c = ct_expr c') by congruence. assert (ct_enabled c = ct_enabled c') by congruence.
  eapply C; [exact H'|congruence|exact Hv|congruence].
Qed.

(** The value of an enabled constraint that does not contain an altered variable
    does not change, nor does its feasibility or the sign of its value. *)
Lemma advance_untouched s ml i c' : model_wf (ss_ms s) -> search_move (ss_ms s) ml -> good (ss_ms s) ->
  nth_error (md_cons (ms_model (ss_ms (advance s ml)))) i = Some c' -> ct_enabled c' = true ->
  ~ In i (snd ml) ->
  exists c, nth_error (md_cons (ms_model (ss_ms s))) i = Some c /\ ct_enabled c = true /\ ct_expr c = ct_expr c' /\
    c_is_feasible c = c_is_feasible c' /\ qpos (ct_value c) = qpos (ct_value c') /\
    (forall v, In v (map fst (fst ml)) -> ~ In v (keys (ct_expr c))).
Proof.
  intros W [M C] G Hn He Hi.
  destruct (map_skel_nth _ _ (proj1 (step_static (ss_ms s) ml)) i c' Hn) as (c & Hc & Es). unfold skel in Es.
  assert (E1 : ct_expr c' = ct_expr c) by congruence. assert (E2 : ct_sense c' = ct_sense c) by congruence.
  assert (E3 : ct_enabled c' = ct_enabled c) by congruence.
  assert (Hno : forall v, In v (map fst (fst ml)) -> ~ In v (keys (ct_expr c))).
  { intros v Hv K. apply Hi. eapply C; [exact Hc|congruence|exact Hv|exact K]. }
  exists c. split; [exact Hc|]. split; [congruence|]. split; [auto|].
  destruct (step_good _ _ W M G) as [G' X].
  assert (Ex : e_eval (ct_expr c) (apply_move (ms_x (ss_ms s)) (fst ml)) == e_eval (ct_expr c) (ms_x (ss_ms s))).
  { apply unchanged; [apply W; eapply nth_error_In; eassumption|apply M|exact Hno]. }
  assert (Hen : ct_enabled c = true) by congruence.
  destruct (proj1 G c (nth_error_In _ _ Hc) Hen) as [(A1 & A2 & A3 & A4 & A5) _].
  destruct (proj1 G' c' (nth_error_In _ _ Hn) He) as [(B1 & B2 & B3 & B4 & B5) _].
  rewrite X in B2, B5. rewrite E1 in B2, B5.
  split; [|split; [|exact Hno]].
  - unfold c_is_feasible. apply ltb_comp. rewrite E2 in B5. apply (distance_unique _ _ _ _ _ A5). apply (distance_comp _ _ _ _ Ex B5).
  - assert (Ev : ct_value c == ct_value c') by now rewrite A2, B2, Ex.
    unfold qpos. destruct (Qlt_le_dec 0 (ct_value c)), (Qlt_le_dec 0 (ct_value c')); try reflexivity; lra.
Qed.

Lemma advance_sens s ml v : objective_sensitivity (advance s ml) v = objective_sensitivity s v.
Proof. reflexivity. Qed.

Lemma screen_step md mutables s ml : model_wf (ss_ms s) -> search_move (ss_ms s) ml -> sinv md mutables s ->
  sinv md mutables (fst (screen md mutables (Some ml) (advance s ml))).
Proof.
  intros W M (G & O & F). set (t := advance s ml).
  destruct (step_good _ _ W (proj1 M) G) as [G' X].
  destruct (screen_ms md mutables (Some ml) t) as (E1 & E2 & E3). split; [rewrite E1; exact G'|]. split.
  - intros Hm v Hv. rewrite (screen_obj _ _ _ _ _ Hm). rewrite (improvable_ext _ t v E1 E2 E3).
    destruct (existsb (Nat.eqb v) (map fst (fst ml))) eqn:Ex; [reflexivity|].
    assert (Hn : ~ In v (map fst (fst ml))) by (intros K; apply existsb_in in K; congruence).
    unfold t. cbn [advance ss_obj]. rewrite (O Hm v Hv). unfold objective_improvable.
    destruct (advance_margin s ml v W M G Hn) as [-> ->]. reflexivity.
  - intros Hm Hf v. rewrite (fresh_ext _ t v E1 E2 E3). rewrite E1 in Hf.
    assert (V : ms_violative (ss_ms t) = violative (md_cons (ms_model (ss_ms t)))) by apply G'.
    pose proof (pick_violative t v V) as PV. pose proof (pick_enabled t v) as PE.
    unfold screen. destruct Hm as [-> | [-> | ->]]; rewrite Hf; cbn [fst].
    + unfold update_feasibility_flags. cbn [with_feas ss_feas reset_all_feasibility]. rewrite flags_fold.
      rewrite <- PV. split; [intros [K|K]; [discriminate|exact K]|intros K; right; exact K].
    + destruct (ss_prev t) eqn:Ep.
      * unfold update_feasibility_flags. cbn [with_feas ss_feas reset_all_feasibility]. rewrite flags_fold.
        rewrite <- PV. split; [intros [K|K]; [discriminate|exact K]|intros K; right; exact K].
      * set (s1 := update_objective_flags t (map fst (fst ml))).
        unfold update_feasibility_flags. cbn [with_feas ss_feas]. rewrite flags_fold. rewrite reset_spec.
        split.
        -- intros [[K1 K2]|K].
           ++ (* an old flag that survives the reset *)
              change (ss_feas s1 v) with (ss_feas s v) in K1.
              assert (Hfs : ms_feasible (ss_ms s) = false) by exact Ep.
              apply (F (or_intror (or_introl eq_refl)) Hfs) in K1.
              destruct K1 as (c & Hc & Wf & We & a & Wa & Wx & Wm).
              apply In_nth_error in Hc as (i & Hi).
              destruct (map_skel_nth _ _ (eq_sym (proj1 (step_static (ss_ms s) ml))) i c Hi) as (c' & Hc' & Es). unfold skel in Es.
              assert (X1 : ct_expr c' = ct_expr c) by congruence. assert (X2 : ct_enabled c' = true) by congruence.
              assert (Hk : In v (keys (ct_expr c))) by (apply in_map_iff; exists (v, a); auto).
              assert (Hni : ~ In i (snd ml)).
              { intros K. apply (K2 c'); [apply in_pick; exists i; split; [exact K|exact Hc']|exact X2|rewrite X1; exact Hk]. }
              destruct (advance_untouched s ml i c' W M G Hc' X2 Hni) as (c2 & N1 & N2 & N3 & N4 & N5 & N6).
              assert (c2 = c) by congruence. subst c2.
              assert (Hnv : ~ In v (map fst (fst ml))) by (intros K; exact (N6 v K Hk)).
              destruct (advance_margin s ml v W M G Hnv) as [L1 L2].
              exists c'. split; [exact (nth_error_In _ _ Hc')|]. split; [congruence|]. split; [exact X2|].
              exists a. split; [congruence|]. split; [exact Wx|]. fold t in L1, L2. rewrite L1, L2, <- N5. exact Wm.
           ++ rewrite <- PV. exact K.
        -- intros K. right. apply PV. exact K.
    + unfold update_feasibility_flags. cbn [with_feas ss_feas reset_all_feasibility]. rewrite flags_fold.
      rewrite <- PE. split; [intros [K|K]; [discriminate|exact K]|intros K; right; exact K].
Qed.

Lemma search_inv md mutables s0 ms : forall r, sinv md mutables (fst r) -> model_wf s0 -> same_static (ss_ms (fst r)) s0 ->
  Forall (search_move s0) ms ->
  let q := fold_left (fun r ml => screen md mutables (Some ml) (advance (fst r) ml)) ms r in
  sinv md mutables (fst q) /\ same_static (ss_ms (fst q)) s0.
Proof.
  induction ms as [|ml ms IH]; intros r I0 W S F; cbn [fold_left].
  - split; assumption.
  - inversion F as [|? ? F1 F2]; subst. apply IH; [|exact W| |exact F2].
    + apply screen_step; [apply (wf_static _ _ S W)|apply (search_move_static _ _ _ S F1)|exact I0].
    + destruct (screen_ms md mutables (Some ml) (advance (fst r) ml)) as (-> & _). cbn [advance ss_ms].
      eapply static_trans; [apply step_static|exact S].
Qed.
Lemma search_sinv md mutables s0 lo hi ms : start_ok mutables s0 -> Forall (search_move s0) ms ->
  let s := fst (search md mutables (preprocess s0 lo hi) ms) in
  sinv md mutables s /\ same_static (ss_ms s) s0 /\ model_wf (ss_ms s).
Proof.
  intros (W & D & _) F. unfold search.
  assert (G : good (ss_ms (preprocess s0 lo hi))) by (cbn [preprocess ss_ms]; now apply ms_update_good).
  destruct (search_inv md mutables s0 ms (screen md mutables None (preprocess s0 lo hi))) as [I1 S1].
  - now apply screen_start.
  - exact W.
  - destruct (screen_ms md mutables None (preprocess s0 lo hi)) as (-> & _). apply ms_update_static.
  - exact F.
  - split; [exact I1|]. split; [exact S1|]. apply (wf_static _ _ S1 W).
Qed.
