(** Proofs for C91, continued: what the controllers hand over. *)
From Coq Require Import List ZArith QArith Qabs Permutation Lia Lqa Bool.
From Verif Require Import ContainerModel ExprModel ExprSpec ExprProof ConstraintModel ConstraintSpec ConstraintProof EvalModel EvalSpec EvalSpec2
  EvalProof EvalProof2 EvalProof3 SolutionModel SolutionSpec SolutionProof VariableModel PresolveModel SelectionModel SelectionSpec SelectionProof3
  TabuModel TabuSpec TabuProof LoopModel LoopSpec LoopProof LoopProof2 LoopProof3 LocalModel LocalSpec LocalProof LocalProof2
  LagrangeModel LagrangeSpec LagrangeProof LagrangeProof2 LagrangeProof3 ControllerModel ControllerSpec ControllerProof ControllerProof2 ControllerProof3
  OfferModel SolverModel SolverSpec SolverProof SolverProof2 SolverProof3 OfferProof2 ArchiveModel ArchiveProof.
Import ListNotations.
Local Open Scope Q_scope.

(** ** One search *)
Lemma l_collected is01 s0 n o s h m mods es q : resolved s0 -> loop_start is01 s -> same_core s s0 -> clean s0 s -> counted_all m ->
  (0 <= lo_initial_tenure o)%Z -> (0 <= lo_nmut o)%Z ->
  (forall t, In t (map fst mods) -> trial_ok is01 s t) -> (forall e t, In e es -> In t (en_moves e) -> trial_ok is01 s t) ->
  In q (l_collect n o s h m mods es) -> kept_right s0 n (lp_visited (fst (l_search o s h m mods es))) q.
Proof.
  intros R L Co Cl Mc T1 T2 K1 K2 H. unfold l_collect in H. destruct (l_modify o mods (l_setup o s h m)) as [l1|] eqn:Em; [|destruct H].
  destruct (collect_in (l_iterate o) (fun l => length (lp_feasible l)) lp_ms n lp_visited (fun e l a => l_grow o e l a) es l1 q H) as (es1 & l' & l0 & e & Ic & E1 & E2 & Kp & -> & V).
  rewrite !l_runs in *. assert (Es : forall es', l_search o s h m mods es' = l_run o es' l1) by (intros es'; unfold l_search; rewrite Em; reflexivity).
  rewrite Es. rewrite E2 in Kp. apply l_kept in Kp. rewrite <- E2 in Kp. rewrite <- (Es es1) in E1.
  pose proof (search_facts is01 o s h m mods es1 L T1 T2 K1 (fun e' t He => K2 e' t (Ic e' He))) as ((Mi & Ts & _) & _). cbv zeta in *. rewrite <- E1 in *.
  pose proof (l_search_clean s0 R o s h m mods es1 Cl Mc) as (Gc & Gs & _). rewrite <- E1 in *.
  exact (exported is01 s0 s n (lp_ms l') (lp_visited l') _ (lp_score l') R L Co Gc Mi Ts Gs Kp V).
Qed.
Lemma s_collected is01 s0 n o s h m es q : resolved s0 -> loop_start is01 s -> same_core s s0 -> clean s0 s -> counted_all m ->
  (forall e t, In e es -> In t (se_moves e) -> trial_ok is01 s t /\ anchored (ms_model s) t) ->
  In q (s_collect n o s h m es) -> kept_right s0 n (sl_visited (fst (s_search o s h m es))) q.
Proof.
  intros R L Co Cl Mc K H. unfold s_collect in H.
  destruct (collect_in (s_iterate o) (fun l => length (sl_feasible l)) sl_ms n sl_visited (fun e l a => s_grow o e l a) es _ q H) as (es1 & l' & l0 & e & Ic & E1 & E2 & Kp & -> & V).
  rewrite !s_runs in *. rewrite E2 in Kp. apply s_kept in Kp. rewrite <- E2 in Kp.
  destruct (setup_sinv is01 s h m L) as [Si _].
  destruct (LocalProof2.run_facts is01 s h o L es1 _ Si (fun e' t He => K e' t (Ic e' He))) as ((Mi & Ts & _) & _). rewrite <- E1 in *.
  pose proof (s_search_clean s0 R o s h m es1 Cl Mc) as (Gc & Gs & _). unfold s_search in Gc, Gs. rewrite <- E1 in *.
  exact (exported is01 s0 s n (sl_ms l') (sl_visited l') _ (sl_score l') R L Co Gc Mi Ts Gs Kp V).
Qed.
Lemma g_collected is01 s0 n o mi vars lo hi s h clock q : resolved s0 -> loop_start is01 s -> same_core s s0 -> clean s0 s -> ms_deps s = [] -> (1 <= go_queue o)%Z ->
  (forall v, is01 v = true -> (0 <= lo v <= 1)%Z /\ (0 <= hi v <= 1)%Z) ->
  In q (g_collect n o mi vars lo hi s h clock) -> kept_right s0 n (gl_visited (fst (g_search o mi vars lo hi s h clock))) q.
Proof.
  intros R L Co Cl Dp Hq B H. unfold g_collect in H.
  destruct (collect_in (g_iterate o mi vars lo hi) (fun l => length (gl_feasible l)) gl_ms n gl_visited (fun e l a => g_grow o mi vars lo hi e l a) clock _ q H) as (es1 & l' & l0 & e & Ic & E1 & E2 & Kp & -> & V).
  rewrite !g_runs in *. rewrite E2 in Kp. apply g_kept in Kp. rewrite <- E2 in Kp.
  assert (Q0 : qinv o (g_setup o (length vars) s h)).
  { unfold g_setup. destruct (l_offer _ _ _) as [[s1 h1] st]. split; [reflexivity|]. cbn. lia. }
  destruct (run_ginv is01 o mi vars lo hi s h L Dp Hq B es1 _ (setup_ginv is01 _ (length vars) s h L) Q0) as ((Mi & Ts & _) & _). rewrite <- E1 in *.
  pose proof (g_search_clean s0 R o mi vars lo hi s h es1 Cl) as [Gc Gs]. unfold g_search in Gc, Gs. rewrite <- E1 in *.
  exact (exported is01 s0 s n (gl_ms l') (gl_visited l') _ (gl_score l') R L Co Gc Mi Ts Gs Kp V).
Qed.

(** ** The phases *)
Definition right_stored (good : (nat -> Z) -> Prop) (s0 : mstate) (n : nat) (q : ssol) : Prop :=
  exists y, good y /\ sound s0 y /\ satisfies (ms_model s0) y /\ tells n (ms_model s0) q y.
Lemma kept_stored p s0 naive cap steady good r n vs q : rinv p s0 naive cap steady good r -> kept_right s0 n vs q -> (forall a, In a vs -> In a (offered (rn_events r))) -> right_stored good s0 n q.
Proof.
  intros I (y & sc & H & F & T) Iv. apply Iv in H. pose proof (rinv_good p s0 naive cap steady good r I y (in_visited r y sc H)) as G. destruct I as (_ & _ & _ & _ & V & _).
  destruct (V y sc H) as ((_ & _ & S) & So). exists y. split; [exact G|]. split; [exact So|]. split; [now apply S|exact T].
Qed.
Lemma offered_since es vs ds : (forall e, In e ds -> exists b, e = OfferDual b) -> forall a : (nat -> Z) * score, In a vs -> In a (offered (es ++ [ResetLocal] ++ offers vs ++ ds)).
Proof. intros _ a H. rewrite offered_app. apply in_app_iff. right. cbn [app offered]. rewrite offered_app, offered_offers. apply in_app_iff. now left. Qed.

Section Phases.
Variables (is01 : nat -> bool) (p : problem) (s0 : mstate) (m0 : memory) (naive cap : Q) (steady : Prop) (good : (nat -> Z) -> Prop) (nb : neighborhood).
Hypothesis PREP : prepared is01 p s0 m0.
Hypothesis GE : forall x y, (forall v, x v = y v) -> good x -> good y.
Notation rinv := (rinv p s0 naive cap steady good).
Lemma lagrange_stored_ok g r l q : rinv r ->
  (forall a, g = Some a -> gg_applicable a = true -> ms_deps s0 = [] /\ (1 <= go_queue (gg_options a))%Z /\
     forall v, is01 v = true -> (0 <= gg_lo a v <= 1)%Z /\ (0 <= gg_hi a v <= 1)%Z) ->
  (forall a s h, g = Some a -> gg_applicable a = true -> same_core s s0 -> good (ms_x s) ->
     forall q, In q (gl_visited (fst (g_search (gg_options a) (pb_minimize p) (gg_vars a) (gg_lo a) (gg_hi a) s h (gg_clock a)))) -> good (fst q)) ->
  In l (lagrange_stored p g r) -> In q l -> right_stored good s0 (pb_n p) q.
Proof.
  intros I H HG Il Iq. pose proof (lagrange_ok is01 p s0 m0 naive cap steady good PREP GE g r I H HG) as Ok. destruct g as [a|]; [|destruct Il]. cbn [lagrange_stored v_lagrange] in *.
  destruct (gg_applicable a) eqn:Ea; cbn [negb orb] in *; [|destruct Il].
  destruct (gg_late a || target_reached (go_target (gg_options a)) (rn_holder r)); [destruct Il|].
  destruct (H a eq_refl eq_refl) as (H1 & H2 & H3) || destruct (H a eq_refl Ea) as (H1 & H2 & H3). assert (Cv : In (rn_current r) (visited r)) by (eapply rinv_current; exact I).
  pose proof (import_spec is01 p s0 m0 naive cap steady good PREP r _ I (visited_sound p s0 naive cap steady good r _ I Cv)) as Im.
  destruct (import_sparse p (rn_ms r) (rn_current r)) as [s|]; [|destruct Il]. destruct Il as [<-|[]]. destruct Im as (_ & L & Co & Cl).
  assert (Dp : ms_deps s = []) by (destruct Co as (_ & _ & _ & (_ & _ & _ & _ & _ & _ & ->)); exact H1). pose proof PREP as (_ & _ & R & _).
  destruct Ok as [Ok _]. eapply kept_stored; [exact Ok|exact (g_collected is01 s0 (pb_n p) _ _ _ _ _ s _ _ q R L Co Cl Dp H2 H3 Iq)|].
  intros b Hb. cbn [with_current rn_events]. apply (offered_since _ _ (match gl_lagrangian _ with Some q => [OfferDual q] | None => [] end)); [|exact Hb].
  intros e He. destruct (gl_lagrangian _) as [d|]; [|destruct He]. destruct He as [<-|[]]. now exists d.
Qed.
Lemma local_stored_ok g r l q : rinv r ->
  (forall o late ds s h m, g = Some (o, late, ds) -> loop_start is01 s -> same_core s s0 -> good (ms_x s) -> let es := n_senvs nb o ds (s_setup s h m) in
     (forall e t, In e es -> In t (se_moves e) -> trial_ok is01 s0 t /\ anchored (ms_model s0) t) /\ forall q, In q (sl_visited (fst (s_search o s h m es))) -> good (fst q)) ->
  In l (local_stored nb p g r) -> In q l -> right_stored good s0 (pb_n p) q.
Proof.
  intros I H Il Iq. pose proof (n_local_ok is01 p s0 m0 naive cap steady good nb PREP GE g r I H) as Ok. destruct g as [[[o late] ds]|]; [|destruct Il]. cbn [local_stored n_local] in *.
  destruct (late || target_reached (so_target o) (rn_holder r)); [destruct Il|].
  assert (Cv : In (rn_current r) (visited r)) by (eapply rinv_current; exact I).
  pose proof (import_spec is01 p s0 m0 naive cap steady good PREP r _ I (visited_sound p s0 naive cap steady good r _ I Cv)) as Im.
  destruct (import_sparse p (rn_ms r) (rn_current r)) as [s|]; [|destruct Il]. destruct Il as [<-|[]]. destruct Im as ((x & Ex & Exy) & L & Co & Cl).
  assert (Gs0 : good (ms_x s)) by (subst s; cbn [with_x ms_x]; apply (GE (rn_current r)); [intros v; symmetry; apply Exy|now apply (rinv_good p s0 naive cap steady good r)]).
  destruct (H o late ds s (rn_holder r) (rn_mem r) eq_refl L Co Gs0) as [H1 _]. pose proof PREP as (_ & _ & R & _).
  assert (Mc : counted_all (rn_mem r)) by (eapply rinv_counts; exact I).
  destruct Ok as [Ok _]. eapply kept_stored; [exact Ok| |].
  - apply (s_collected is01 s0 (pb_n p) o s _ _ _ q R L Co Cl Mc) in Iq; [exact Iq|].
    intros e t He Ht. destruct (H1 e t He Ht) as [A B]. split; [now apply (core_trial is01 s0)|now apply (core_anchored s0)].
  - intros b Hb. cbn [with_current rn_events]. rewrite <- (app_nil_r (map _ (sl_visited _))). apply (offered_since _ _ []); [intros e []|exact Hb].
Qed.
End Phases.

Section Rounds.
Variables (is01 : nat -> bool) (p : problem) (s0 : mstate) (m0 : memory) (naive : Q) (o : copt) (lg : Z -> Q) (root : Q -> Q) (good : (nat -> Z) -> Prop) (nb : neighborhood).
Hypothesis PREP : prepared is01 p s0 m0.
Hypothesis TEN : (0 <= co_tenure o)%Z.
Hypothesis GE : forall x y, (forall v, x v = y v) -> good x -> good y.
Notation inv := (rinv p s0 naive (co_initial o) (well_priced lg root o s0) good).
Notation held_incumbents := (held_incumbents p s0 naive o lg root good).
Lemma rounds_stored_ok limit target ds :
  (forall g k s h m, In g ds -> same_core s s0 -> good (ms_x s) -> let d := realise nb k s h m g in
     (0 <= lo_nmut (gd_options g))%Z /\ (forall t, In t (map fst (td_mods d)) -> trial_ok is01 s0 t) /\ (forall e t, In e (td_envs d) -> In t (en_moves e) -> trial_ok is01 s0 t) /\
     forall q, In q (lp_visited (fst (l_search (governed k (gd_options g)) s h m (td_mods d) (td_envs d)))) -> good (fst q)) ->
  forall i last k r, inv r -> In (k_current k) (visited r) -> (0 <= k_tenure k)%Z -> ((well_priced lg root o s0) -> co_relax_min o <= k_rate k <= co_relax_max o) ->
  forall l q, In l (rounds_stored nb o lg root p limit target ds i last k r) -> In q l -> right_stored good s0 (pb_n p) q.
Proof.
  induction ds as [|g ds IH]; intros H i last k r I Ck Tk Rk l0 q0 Il Iq; cbn [rounds_stored] in Il; [destruct Il|].
  destruct (gd_time_over g); [destruct Il|]. destruct (Z.leb_spec limit i) as [Hl|Hl]; [destruct Il|].
  destruct (target_reached target (rn_holder r)); [destruct Il|].
  destruct ((0 <? i)%Z && match last with Some Optimal => true | _ => false end); [destruct Il|].
  pose proof (import_spec is01 p s0 m0 naive (co_initial o) (well_priced lg root o s0) good PREP r (k_current k) I (visited_sound p s0 naive (co_initial o) (well_priced lg root o s0) good r _ I Ck)) as Im.
  destruct (import_sparse p (rn_ms r) (k_current k)) as [s|]; [|destruct Il].
  destruct Im as ((x & Ex & Exy) & L & Co & Cl).
  assert (Gs0 : good (ms_x s)) by (subst s; cbn [with_x ms_x]; apply (GE (k_current k)); [intros v; symmetry; apply Exy|eapply rinv_good; [exact I|exact Ck]]).
  pose proof PREP as (_ & _ & R & _). cbv zeta in Il. destruct (H g k s (rn_holder r) (rn_mem r) (or_introl eq_refl) Co Gs0) as (D1 & D2 & D3 & Gq).
  set (d := realise nb k s (rn_holder r) (rn_mem r) g) in *. clearbody d.
  assert (Mc : counted_all (rn_mem r)) by (eapply rinv_counts; exact I).
  pose proof (l_search_clean s0 R (governed k (gd_options g)) s (rn_holder r) (rn_mem r) (td_mods d) (td_envs d) Cl Mc) as (Gc & Gs & Gm & Gn).
  destruct (search_facts is01 (governed k (gd_options g)) s (rn_holder r) (rn_mem r) (td_mods d) (td_envs d) L Tk D1
     (fun t Ht => core_trial is01 s0 s t Co (D2 t Ht)) (fun e t He Ht => core_trial is01 s0 s t Co (D3 e t He Ht))) as ((Mi & _ & V & _ & Hh & _) & _).
  pose proof (l_collected is01 s0 (pb_n p) (governed k (gd_options g)) s (rn_holder r) (rn_mem r) (td_mods d) (td_envs d) q0 R L Co Cl Mc Tk D1
     (fun t Ht => core_trial is01 s0 s t Co (D2 t Ht)) (fun e t He Ht => core_trial is01 s0 s t Co (D3 e t He Ht))) as Kc.
  destruct (l_search (governed k (gd_options g)) s (rn_holder r) (rn_mem r) (td_mods d) (td_envs d)) as [l st]. cbn [fst] in *.
  fold (offers (lp_visited l)) in Il.
  set (r' := mkRun (lp_ms l) (lp_holder l) (lp_mem l) (rn_current r) (rn_events r ++ [ResetLocal] ++ offers (lp_visited l)) (rn_starts r ++ [k_current k]) (rn_rounds r + 1)).
  assert (I' : inv r').
  { apply (search_rinv is01 p s0 naive (co_initial o) (well_priced lg root o s0) good r s); try assumption; [subst s; eapply rinv_prices; exact I|apply Mi|eapply rinv_current; exact I|].
    intros y Hy. apply in_app_iff in Hy as [Hy|[<-|[]]]; [eapply rinv_starts; eassumption|exact Ck]. }
  assert (Vv : forall y, In y (visited r) -> In y (visited r')).
  { intros y Hy. unfold visited in *. cbn [r' rn_events]. rewrite offered_app, map_app. apply in_app_iff. now left. }
  destruct (held_incumbents r' (lp_visited l) I' Gn (ex_intro _ (rn_events r) eq_refl)) as (qg & yg & ql & yl & feasible & INC & Yg & Yl & Nf).
  cbn [r' rn_holder] in INC. assert (Core : same_core (lp_ms l) s0) by apply I'.
  destruct Il as [<-|Il].
  { eapply kept_stored; [exact I'|exact (Kc Iq)|]. intros b Hb. cbn [r' rn_events]. rewrite <- (app_nil_r (offers (lp_visited l))). apply (offered_since _ _ []); [intros e []|exact Hb]. }
  revert Il. match goal with |- context [k_update o lg root ?rs ?h ?m ?n ?dr ?md k] => set (res := rs); destruct (k_update o lg root res h m n dr md k) as [[k' cs']|] eqn:U end; intros Il.
  - destruct (update_repriced o lg root res (lp_holder l) (lp_mem l) _ _ _ k qg yg ql yl feasible k' cs' INC U) as [Rp Tk'].
    assert (Sp : (well_priced lg root o s0) -> Forall (priced_within (co_initial o)) cs' /\ co_relax_min o <= k_rate k' <= co_relax_max o).
    { intros St. pose proof St as (S1 & S2 & S3 & S4 & _). assert (Cn : counted (mm_vcount (lp_mem l)) (md_cons (ms_model (lp_ms l)))) by (intros j c _; apply Gm).
      assert (S4' : 0 <= md_gpen (ms_model (lp_ms l)) <= co_initial o) by (destruct Core as (_ & _ & -> & _); exact S4).
      destruct (update_pens o lg root res (lp_holder l) (lp_mem l) _ _ _ k qg yg ql yl feasible INC k' cs' S1 S2 S3 Cn S4' (Rk St) (rinv_prices p s0 naive (co_initial o) (well_priced lg root o s0) good r' I' St) U) as (_ & P2 & P3 & _).
      split; [exact P2|exact P3]. }
    refine (IH (fun g' k1 s1 h1 m1 Hd => H g' k1 s1 h1 m1 (or_intror Hd)) (i + 1)%Z st k' (mkRun (with_constraints (rn_ms r') cs') (rn_holder r') (rn_mem r') (rn_current r') (rn_events r') (rn_starts r') (rn_rounds r')) _ _ _ _ l0 q0 Il Iq).
    + destruct I' as (A & B & C & E & F & G & J & _ & K). split; [|split; [exact B|split; [exact C|split; [exact E|split; [exact F|split; [exact G|split; [exact J|split; [|exact K]]]]]]]].
      * destruct A as (A1 & A2 & A3 & (_ & A4)). apply repriced_core in Rp. assert (Ec : map core cs' = map core (md_cons (ms_model s0))) by (rewrite Rp; exact A1).
        split; [exact Ec|]. split; [exact A2|]. split; [exact A3|]. split; [exact (core_skel _ _ Ec)|exact A4].
      * intros St. exact (proj1 (Sp St)).
    + destruct (update_start o lg root res (lp_holder l) (lp_mem l) _ _ _ k qg yg ql yl feasible INC k' cs' U) as [->|[->| ->]]; [exact Yg|exact Yl|exact (Vv _ Ck)].
    + apply Tk'; assumption.
    + intros St. exact (proj2 (Sp St)).
  - destruct Il.
Qed.
End Rounds.
