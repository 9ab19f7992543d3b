(** Proofs for C80, continued: solve. *)
From Coq Require Import List ZArith QArith Qabs Permutation Lia Lqa Bool.
From Verif Require Import ContainerModel ExprModel ExprSpec ExprProof ConstraintModel ConstraintSpec ConstraintProof EvalModel EvalSpec EvalSpec2
  EvalProof EvalProof2 EvalProof3 SolutionModel SolutionSpec SolutionProof VariableModel PresolveModel SelectionModel SelectionSpec SelectionProof3
  TabuModel TabuSpec TabuProof LoopModel LoopSpec LoopProof LoopProof2 LoopProof3 LocalModel LocalSpec LocalProof LocalProof2
  LagrangeModel LagrangeSpec LagrangeProof LagrangeProof2 LagrangeProof3 ControllerModel ControllerSpec ControllerProof ControllerProof2 ControllerProof3
  SolverModel SolverSpec SolverProof SolverProof2 SolverProof3 TruthSpec TruthProof.
Import ListNotations.
Local Open Scope Q_scope.

Section Truth.
(** The initial values [ms_x s0] may be anything. *)
Variables (is01 : nat -> bool) (p : problem) (s0 : mstate) (x0 : nat -> Z) (m0 : memory) (naive : Q).
Hypothesis PREP : prepared is01 p (with_x s0 x0) m0.
Lemma prep : loop_start is01 (with_x s0 x0) /\ (forall d, In d (map fst (ms_deps s0)) -> is01 d = false /\ ms_fixed s0 d = false) /\ resolved s0 /\
  selections_ready (pb_vars p) (pb_sels p) /\ sane_bounds (pb_n p) (pb_vars p) /\ zero_one p is01 /\ (forall i, (0 <= mm_vcount m0 i)%Z).
Proof. exact PREP. Qed.

Definition tinv (r : run) : Prop :=
  same_core (rn_ms r) s0 /\ kept s0 (ms_x (rn_ms r)) /\ counted_all (rn_mem r) /\
  rn_holder r = fold_left (h_step (pb_minimize p)) (rn_events r) (h_start naive) /\
  (forall y, In y (visited r) -> sound s0 y) /\ In (rn_current r) (visited r) /\ (forall y, In y (rn_starts r) -> In y (visited r)).

Lemma t_import r y : tinv r -> sound s0 y ->
  match import_sparse p (rn_ms r) y with
  | Some s => same_core s s0 /\ clean s0 s
  | None => ~ valid_start (pb_n p) (placed p y) (pb_sels p)
  end.
Proof.
  intros I [K _]. destruct prep as (L & D & R & Sel & B & Z1 & _). destruct I as (Co & Kr & _). unfold import_sparse.
  assert (F : forallb (fun v => negb (ms_fixed (rn_ms r) v) || (y v =? ms_x (rn_ms r) v)%Z) (seq 0 (pb_n p)) = true).
  { apply forallb_forall. intros v _. destruct (ms_fixed (rn_ms r) v) eqn:Ef; [|reflexivity]. cbn [negb orb]. apply Z.eqb_eq.
    assert (Ef0 : ms_fixed s0 v = true) by (destruct Co as (_ & _ & _ & (_ & _ & _ & _ & E & _)); now rewrite <- E).
    assert (Nd : ~ In v (map fst (ms_deps s0))) by (intros Hd; destruct (D v Hd); congruence). now rewrite (K v Ef0 Nd), (Kr v Ef0 Nd). }
  rewrite F. clear F.
  assert (Rd : selections_ready (placed p y) (pb_sels p)) by exact Sel. assert (Sb : sane_bounds (pb_n p) (placed p y)) by exact B.
  destruct (verify false (pb_n p) (md_cons (ms_model (rn_ms r))) (pb_sens p) (placed p y) (pb_sels p)) as [[vs ss]|] eqn:E.
  - destruct (verify_spec _ _ _ _ _ _ _ _ Rd Sb E) as (_ & _ & _ & S4). specialize (S4 eq_refl).
    assert (Ev : forall v, va_value (vs v) = y v) by (intros v; rewrite S4; reflexivity).
    assert (Cw : same_core (with_x (rn_ms r) (fun v => va_value (vs v))) s0) by exact Co.
    split; [exact Cw|]. split; [apply Cw|]. intros v Hf Hd. cbn [with_x ms_x]. rewrite Ev. now apply K.
  - intros V. destruct (verify_valid false (pb_n p) (md_cons (ms_model (rn_ms r))) (pb_sens p) (placed p y) (pb_sels p) Rd V) as (vs & ss & E' & _). congruence.
Qed.

Lemma t_search r s s1 h1 m1 vs cur starts n : tinv r -> same_core s s0 -> same_frame s1 s -> clean s0 s1 -> counted_all m1 -> all_sound s0 vs ->
  h1 = fold_left (h_step true) (offers vs) (reset_local (rn_holder r)) ->
  In cur (visited r) -> (forall y, In y starts -> In y (visited r)) ->
  tinv (mkRun s1 h1 m1 cur (rn_events r ++ [ResetLocal] ++ offers vs) starts n).
Proof.
  intros (_ & _ & _ & H & V & _ & _) Co F [_ K] M Sd Hh Hc Hs.
  assert (Ov : forall y, In y (visited r) -> In y (visited (mkRun s1 h1 m1 cur (rn_events r ++ [ResetLocal] ++ offers vs) starts n))).
  { intros y Hy. unfold visited in *. cbn [rn_events]. rewrite offered_app, map_app. apply in_app_iff. now left. }
  split; [eapply core_trans; [apply core_of_frame; exact F|exact Co]|]. split; [exact K|]. split; [exact M|]. split; [|split; [|split; [apply Ov, Hc|intros y Hy; apply Ov, Hs, Hy]]]; cbn [rn_ms rn_holder rn_events].
  - rewrite Hh, H, (fold_offers (pb_minimize p)), fold_left_app. reflexivity.
  - intros y Hy. unfold visited in Hy. cbn [rn_events] in Hy. rewrite offered_app, map_app in Hy. apply in_app_iff in Hy as [Hy|Hy]; [now apply V|]. cbn [app offered] in Hy. rewrite offered_offers in Hy.
    apply in_map_iff in Hy as ([z sc] & <- & Hq). now apply (Sd z sc).
Qed.
Lemma t_h r : tinv r -> h_inv (rn_events r) (rn_holder r).
Proof. intros (_ & _ & _ & H & _). rewrite H. apply h_start_run. Qed.
Lemma t_current r : tinv r -> tinv (with_current r).
Proof.
  intros I. assert (G : In (global_solution r) (visited r)).
  { pose proof (t_h r I) as (_ & _ & [[E1 _]|(y & sc & H1 & _ & H3 & _)] & _).
    - destruct I as (_ & _ & _ & _ & _ & C & _). unfold visited in C. rewrite E1 in C. destruct C.
    - unfold global_solution. rewrite H3. exact (in_visited r y sc H1). }
  destruct I as (A & B & C & D & E & _ & F). unfold tinv. cbn [with_current rn_ms rn_holder rn_mem rn_current rn_events rn_starts].
  split; [exact A|]. split; [exact B|]. split; [exact C|]. split; [exact D|]. split; [exact E|]. split; [exact G|exact F].
Qed.
Lemma t_preprocess : tinv (v_preprocess naive s0 m0).
Proof.
  destruct prep as (L & D & R & _ & _ & _ & M). unfold v_preprocess.
  assert (C0 : clean s0 s0) by (split; [apply static_same|intros v _ _; reflexivity]). assert (Cu := update_clean s0 s0 C0).
  split; [apply core_of_frame; eapply frame_trans; [apply export_frame|apply update_frame]|]. split; [apply (export_clean s0 _ Cu)|]. split; [exact M|]. split; [reflexivity|].
  split; [|split; [left; reflexivity|intros y []]]. intros y [<-|[]]. exact (clean_sound s0 R _ Cu).
Qed.
Lemma t_dual r s h q : tinv r -> h = h_step (pb_minimize p) (rn_holder r) (OfferDual q) -> s = rn_ms r ->
  tinv (mkRun s h (rn_mem r) (rn_current r) (rn_events r ++ [OfferDual q]) (rn_starts r) (rn_rounds r)).
Proof.
  intros (A & B & C & D & E & F & G) -> ->. unfold tinv, visited in *. cbn [rn_ms rn_holder rn_mem rn_current rn_events rn_starts].
  assert (Eo : offered (rn_events r ++ [OfferDual q]) = offered (rn_events r)) by (rewrite offered_app; cbn [offered]; apply app_nil_r).
  rewrite Eo. split; [exact A|]. split; [exact B|]. split; [exact C|]. split; [|split; [exact E|split; [exact F|exact G]]]. rewrite D, fold_left_app. reflexivity.
Qed.
Lemma t_pdlp b r : tinv r -> tinv (v_pdlp p b r).
Proof. intros I. destruct b as [q|]; [|exact I]. cbn [v_pdlp]. now apply t_dual. Qed.

Definition t_phase (n m : Z) (o : outcome run) : Prop :=
  match o with
  | Done r | NotANumber r => tinv r /\ (n <= rn_rounds r <= n + m)%Z
  | Rejected r y => (tinv r /\ (n <= rn_rounds r <= n + m)%Z) /\ In y (visited r) /\ ~ valid_start (pb_n p) (placed p y) (pb_sels p)
  end.
Lemma t_starts r cur y : tinv r -> In cur (visited r) -> In y (rn_starts r ++ [cur]) -> In y (visited r).
Proof. intros I C H. apply in_app_iff in H as [H|[<-|[]]]; [|exact C]. destruct I as (_ & _ & _ & _ & _ & _ & S). now apply S. Qed.
Lemma t_lagrange g r : tinv r -> t_phase (rn_rounds r) 0 (v_lagrange p g r).
Proof.
  intros I. destruct g as [a|]; [|split; [exact I|lia]]. cbn [v_lagrange].
  destruct (negb (gg_applicable a) || gg_late a || target_reached (go_target (gg_options a)) (rn_holder r)); [split; [now apply t_current|cbn [with_current rn_rounds]; lia]|].
  assert (Cv : In (rn_current r) (visited r)) by (destruct I as (_ & _ & _ & _ & _ & C & _); exact C). assert (So : sound s0 (rn_current r)) by (destruct I as (_ & _ & _ & _ & V & _); apply V; assumption). pose proof (t_import r _ I So) as Im.
  destruct (import_sparse p (rn_ms r) (rn_current r)) as [s|]; [|split; [split; [exact I|lia]|split; [exact Cv|exact Im]]]. destruct Im as (Co & Cl). destruct prep as (_ & _ & R & _).
  pose proof (g_search_clean s0 R (gg_options a) (pb_minimize p) (gg_vars a) (gg_lo a) (gg_hi a) s (rn_holder r) (gg_clock a) Cl) as [Gc Gs].
  pose proof (g_search_follows s (rn_holder r) (gg_options a) (pb_minimize p) (gg_vars a) (gg_lo a) (gg_hi a) (gg_clock a)) as [Fr Hh].
  set (l := fst (g_search (gg_options a) (pb_minimize p) (gg_vars a) (gg_lo a) (gg_hi a) s (rn_holder r) (gg_clock a))) in *.
  assert (Mc : counted_all (rn_mem r)) by (destruct I as (_ & _ & C & _); exact C).
  pose proof (t_search r s (gl_ms l) (gl_holder l) (rn_mem r) (gl_visited l) (rn_current r) (rn_starts r ++ [rn_current r]) (rn_rounds r) I Co Fr Gc Mc Gs Hh Cv (fun y => t_starts r _ y I Cv)) as I1.
  split; [|cbn [with_current rn_rounds]; lia]. apply t_current. fold (offers (gl_visited l)). unfold g_dual_bound.
  destruct (gl_lagrangian l) as [q|]; [|rewrite app_nil_r; exact I1].
  rewrite (app_assoc [ResetLocal] (offers (gl_visited l)) [OfferDual q]), app_assoc.
  exact (t_dual _ (gl_ms l) _ q I1 eq_refl eq_refl).
Qed.
Lemma t_local g r : tinv r -> t_phase (rn_rounds r) 0 (v_local p g r).
Proof.
  intros I. destruct g as [a|]; [|split; [exact I|lia]]. cbn [v_local].
  destruct (gc_late a || target_reached (so_target (gc_options a)) (rn_holder r)); [split; [now apply t_current|cbn [with_current rn_rounds]; lia]|].
  assert (Cv : In (rn_current r) (visited r)) by (destruct I as (_ & _ & _ & _ & _ & C & _); exact C). assert (So : sound s0 (rn_current r)) by (destruct I as (_ & _ & _ & _ & V & _); apply V; assumption). pose proof (t_import r _ I So) as Im.
  destruct (import_sparse p (rn_ms r) (rn_current r)) as [s|]; [|split; [split; [exact I|lia]|split; [exact Cv|exact Im]]]. destruct Im as (Co & Cl). destruct prep as (_ & _ & R & _).
  assert (Mc : counted_all (rn_mem r)) by (destruct I as (_ & _ & C & _); exact C).
  pose proof (s_search_clean s0 R (gc_options a) s (rn_holder r) (rn_mem r) (gc_envs a) Cl Mc) as (Gc & Gs & Gm).
  pose proof (s_search_follows s (rn_holder r) (gc_options a) (rn_mem r) (gc_envs a)) as [Fr Hh].
  set (l := fst (s_search (gc_options a) s (rn_holder r) (rn_mem r) (gc_envs a))) in *.
  split; [|cbn [with_current rn_rounds]; lia]. apply t_current.
  exact (t_search r s (sl_ms l) (sl_holder l) (sl_mem l) (sl_visited l) (rn_current r) (rn_starts r ++ [rn_current r]) (rn_rounds r) I Co Fr Gc Gm Gs Hh Cv (fun y => t_starts r _ y I Cv)).
Qed.

Lemma t_incumbents r vs : tinv r -> vs <> [] -> (exists es, rn_events r = es ++ [ResetLocal] ++ offers vs) ->
  exists qg yg ql yl feasible, incumbents (rn_holder r) qg yg ql yl feasible /\ In yg (visited r) /\ In yl (visited r).
Proof.
  intros I Nv (es & Ee). pose proof (t_h r I) as (_ & _ & Hg & Hl).
  rewrite Ee in Hl at 1. cbn [app] in Hl. rewrite since_offers in Hl.
  destruct Hg as [[E1 _]|(yg & sg & G1 & G2 & G3 & _)].
  { destruct I as (_ & _ & _ & _ & _ & C & _). unfold visited in C. rewrite E1 in C. destruct C. }
  destruct Hl as [[E1 _]|(yl & sl & L1 & L2 & L3 & _)]; [contradiction|].
  assert (Lv : In (yl, sl) (offered (rn_events r))).
  { rewrite Ee, offered_app. apply in_app_iff. right. cbn [app offered]. rewrite offered_offers. exact L1. }
  exists (sc_global_aug sg), yg, (sc_local_aug sl), yl, (sc_feasible sl). split; [|split].
  - exists sg, sl. destruct (ho_global (rn_holder r)) as [a b]. destruct (ho_local (rn_holder r)) as [c d]. cbn [sl_obj sl_stored] in *. subst. auto.
  - exact (in_visited r yg sg G1).
  - exact (in_visited r yl sl Lv).
Qed.
Lemma t_weaken out n n' m m' : (n <= n')%Z -> (n' + m' <= n + m)%Z -> t_phase n' m' out -> t_phase n m out.
Proof.
  intros A B. destruct out as [r|r y|r]; cbn [t_phase]; intros H.
  - destruct H as (I & H). split; [exact I|lia].
  - destruct H as ((I & H) & K). split; [|exact K]. split; [exact I|lia].
  - destruct H as (I & H). split; [exact I|lia].
Qed.
Lemma t_rounds o lg root limit target ds : forall i last k r, tinv r -> In (k_current k) (visited r) ->
  t_phase (rn_rounds r) (Z.max 0 (limit - i)) (v_rounds o lg root p limit target ds i last k r).
Proof.
  induction ds as [|d ds IH]; intros i last k r I Ck; cbn [v_rounds]; [split; [exact I|lia]|].
  destruct (td_time_over d); [split; [exact I|lia]|]. destruct (Z.leb_spec limit i) as [Hl|Hl]; [split; [exact I|lia]|].
  destruct (target_reached target (rn_holder r)); [split; [exact I|lia]|].
  destruct ((0 <? i)%Z && match last with Some Optimal => true | _ => false end); [split; [exact I|lia]|].
  assert (So : sound s0 (k_current k)) by (destruct I as (_ & _ & _ & _ & V & _); apply V; assumption). pose proof (t_import r _ I So) as Im.
  destruct (import_sparse p (rn_ms r) (k_current k)) as [s|]; [|split; [split; [exact I|lia]|split; [exact Ck|exact Im]]].
  destruct Im as (Co & Cl). pose proof prep as (_ & _ & R & _).
  assert (Mc : counted_all (rn_mem r)) by (destruct I as (_ & _ & C & _); exact C).
  pose proof (l_search_clean s0 R (governed k (td_options d)) s (rn_holder r) (rn_mem r) (td_mods d) (td_envs d) Cl Mc) as (Gc & Gs & Gm & Gn).
  pose proof (l_search_follows s (rn_holder r) (governed k (td_options d)) (rn_mem r) (td_mods d) (td_envs d)) as [Fr Hh].
  destruct (l_search (governed k (td_options d)) s (rn_holder r) (rn_mem r) (td_mods d) (td_envs d)) as [l st]. cbn [fst] in *.
  fold (offers (lp_visited l)).
  set (r' := mkRun (lp_ms l) (lp_holder l) (lp_mem l) (rn_current r) (rn_events r ++ [ResetLocal] ++ offers (lp_visited l)) (rn_starts r ++ [k_current k]) (rn_rounds r + 1)).
  assert (Cv : In (rn_current r) (visited r)) by (destruct I as (_ & _ & _ & _ & _ & C & _); exact C).
  assert (I' : tinv r') by exact (t_search r s (lp_ms l) (lp_holder l) (lp_mem l) (lp_visited l) (rn_current r) (rn_starts r ++ [k_current k]) (rn_rounds r + 1) I Co Fr Gc Gm Gs Hh Cv (fun y => t_starts r _ y I Ck)).
  assert (Vv : forall y, In y (visited r) -> In y (visited r')).
  { intros y Hy. unfold visited in *. cbn [r' rn_events]. rewrite offered_app, map_app. apply in_app_iff. now left. }
  destruct (t_incumbents r' (lp_visited l) I' Gn (ex_intro _ (rn_events r) eq_refl)) as (qg & yg & ql & yl & feasible & INC & Yg & Yl).
  cbn [r' rn_holder] in INC. assert (Core : same_core (lp_ms l) s0) by apply I'.
  match goal with |- context [k_update o lg root ?rs ?h ?m ?n ?dr ?md k] => set (res := rs); destruct (k_update o lg root res h m n dr md k) as [[k' cs']|] eqn:U end.
  - destruct (update_repriced o lg root res (lp_holder l) (lp_mem l) _ _ _ k qg yg ql yl feasible k' cs' INC U) as [Rp _].
    eapply (t_weaken _ (rn_rounds r) (rn_rounds r + 1) _ (Z.max 0 (limit - (i + 1)))); [lia|lia|].
    apply (IH (i + 1)%Z st k' (mkRun (with_constraints (rn_ms r') cs') (rn_holder r') (rn_mem r') (rn_current r') (rn_events r') (rn_starts r') (rn_rounds r'))).
    + destruct I' as (A & B & C). split; [|split; [exact B|exact C]].
      destruct A as (A1 & A2 & A3 & (_ & A4)). apply repriced_core in Rp. assert (Ec : map core cs' = map core (md_cons (ms_model s0))) by (rewrite Rp; exact A1).
      split; [exact Ec|]. split; [exact A2|]. split; [exact A3|]. split; [exact (core_skel _ _ Ec)|exact A4].
    + destruct (update_start o lg root res (lp_holder l) (lp_mem l) _ _ _ k qg yg ql yl feasible INC k' cs' U) as [->|[->| ->]]; [exact Yg|exact Yl|exact (Vv _ Ck)].
  - split; [exact I'|cbn [r' rn_rounds]; lia].
Qed.

Lemma t_postprocess r : tinv r ->
  match v_postprocess p r with
  | Done (a, r') => r' = r /\ truthful p s0 r a
  | Rejected r' y => r' = r /\ In y (visited r) /\ ~ valid_start (pb_n p) (placed p y) (pb_sels p)
  | NotANumber _ => False
  end.
Proof.
  intros I. unfold v_postprocess. pose proof (t_h r I) as (Hf & Hb & Hg & _).
  assert (St : exists y sc, sl_stored (if ho_found (rn_holder r) then ho_feasible (rn_holder r) else ho_global (rn_holder r)) = Some (y, sc) /\ In (y, sc) (offered (rn_events r))).
  { destruct (ho_found (rn_holder r)) eqn:Ef.
    - destruct (proj1 Hf eq_refl) as (z & sz & Z1 & Z2). destruct Hb as [[E1 _]|(y & sc & B1 & _ & B3 & B4)].
      + exfalso. assert (K : In (z, sz) (filter (fun q : (nat -> Z) * score => sc_feasible (snd q)) (offered (rn_events r)))) by (apply filter_In; split; assumption). rewrite E1 in K. destruct K.
      + apply filter_In in B1 as [B1 B2]. exists y, sc. split; [exact B3|exact B1].
    - destruct Hg as [[E1 _]|(y & sc & B1 & _ & B3 & B4)].
      + exfalso. destruct I as (_ & _ & _ & _ & _ & C & _). unfold visited in C. rewrite E1 in C. destruct C.
      + exists y, sc. split; [exact B3|exact B1]. }
  destruct St as (y & sc & -> & Yo). pose proof (in_visited r y sc Yo) as Yv.
  destruct I as (Co & Kr & _ & _ & V & _). destruct (V y Yv) as [Ky Sy]. destruct prep as (L & D & R & Sel & B & Z1 & _).
  unfold import_kept. set (z := fun v => if ms_fixed (rn_ms r) v then ms_x (rn_ms r) v else y v).
  assert (Ez : forall v, z v = y v).
  { intros v. unfold z. destruct (ms_fixed (rn_ms r) v) eqn:Ef; [|reflexivity].
    assert (Ef0 : ms_fixed s0 v = true) by (destruct Co as (_ & _ & _ & (_ & _ & _ & _ & E & _)); now rewrite <- E).
    assert (Nd : ~ In v (map fst (ms_deps s0))) by (intros Hd; destruct (D v Hd); congruence). now rewrite (Ky v Ef0 Nd), (Kr v Ef0 Nd). }
  clearbody z.
  assert (Rd : selections_ready (placed p z) (pb_sels p)) by exact Sel. assert (Sb : sane_bounds (pb_n p) (placed p z)) by exact B.
  destruct (verify false (pb_n p) (md_cons (ms_model (rn_ms r))) (pb_sens p) (placed p z) (pb_sels p)) as [[vs ss]|] eqn:E.
  2: { split; [reflexivity|]. split; [exact Yv|]. intros W. apply (valid_ext p y z (fun v => eq_sym (Ez v))) in W.
       destruct (verify_valid false (pb_n p) (md_cons (ms_model (rn_ms r))) (pb_sens p) (placed p z) (pb_sels p) Rd W) as (vs & ss & E' & _). congruence. }
  split; [reflexivity|]. destruct (verify_spec _ _ _ _ _ _ _ _ Rd Sb E) as (S1 & S2 & _ & S4). specialize (S4 eq_refl).
  assert (Ev : forall v, va_value (vs v) = y v) by (intros v; rewrite S4; cbn [placed v_with_value va_value]; apply Ez).
  set (s := with_x (rn_ms r) (fun v => va_value (vs v))). assert (Cs : same_core s s0) by exact Co.
  assert (Ls : loop_start is01 s).
  { apply (core_start is01 (with_x s0 x0)); [exact L|exact Cs|]. intros v Hv. unfold s. cbn [with_x ms_x]. destruct (Z1 v Hv) as (Hn & Hs). destruct S2 as [V1 V2]. destruct (V2 v Hn) as [P1 P2].
    destruct (S1 v) as (L1 & L2 & _ & L4 & _). rewrite L4 in P1, P2. rewrite L1, L2 in P2. cbn [placed v_with_value va_sense va_lower va_upper] in P1, P2.
    destruct Hs as [Hs|[(Hs & Hb1 & Hc)|(sl & H1 & H2)]]; [destruct (P1 Hs); lia|specialize (P2 Hs); lia|].
    destruct (V1 sl H1) as (w & W1 & W2 & W3). destruct (Nat.eq_dec v w) as [->|Dw]; [lia|rewrite (W3 v H2 Dw); lia]. }
  assert (Ex : forall v, ms_x (ms_update s) v = y v).
  { intros v. rewrite update_settle, (settle_static s s0 _ (proj2 (proj2 (proj2 Cs)))). rewrite <- (Sy v). apply settle_agree; [exact R|]. intros w _. unfold s. cbn [with_x ms_x]. apply Ev. }
  pose proof (start_update is01 s Ls) as Mi. pose proof (minv_feasible is01 s _ Ls Mi) as Mf. rewrite (core_satisfies s0 s _ Cs) in Mf.
  assert (Cu : same_core (ms_update s) s0) by (eapply core_trans; [apply core_of_frame; apply Mi|exact Cs]).
  assert (Ext : forall e, e_eval e (ms_x (ms_update s)) == e_eval e y) by (intros e; apply eval_ext; intros v _; apply Ex).
  split; [|split; [|split]]; cbn [an_x].
  - apply (valid_ext p z); [intros v; rewrite Ex; apply Ez|]. destruct S2 as [V1 V2]. split.
    + intros sl Hs. destruct (V1 sl Hs) as (w & W1 & W2 & W3). exists w. split; [exact W1|]. rewrite S4 in W2. split; [exact W2|]. intros u Hu Du. rewrite <- S4. now apply W3.
    + intros v Hv. destruct (V2 v Hv) as [P1 P2]. destruct (S1 v) as (L1 & L2 & _ & L4 & _). rewrite L4, L1, L2, S4 in *. split; assumption.
  - intros v Hv. rewrite Ex. apply Ky; [exact Hv|]. intros Hd. destruct (D v Hd). congruence.
  - intros d i q Hd Hq Nd. rewrite Ex, <- (Sy d). rewrite (settle_dep s0 y d i q Nd Hd Hq). apply qtrunc_comp. symmetry. apply Ext.
  - split; [exists y; split; [exact Yv|exact Ex]|]. cbn [an_x an_objective an_violation an_feasible]. split; [|split; [|exact Mf]].
    + intros Df. destruct Cu as (_ & _ & _ & (_ & _ & E3 & E4 & _)). rewrite <- E3. apply Mi. congruence.
    + rewrite update_violation. apply total_core. apply Cu.
Qed.
Lemma t_orderly r n : tinv r -> (0 <= rn_rounds r <= Z.max 0 n)%Z -> orderly n r.
Proof. intros (_ & _ & _ & _ & _ & _ & S) H. split; [exact S|exact H]. Qed.
End Truth.

(** ** The whole of solve *)
Lemma solve_truth lg root p a s0 x0 m0 is01 : prepared is01 p (with_x s0 x0) m0 ->
  match solve lg root p a s0 m0 with
  | Done (an, r) => orderly (in_limit a) r /\ truthful p s0 r an
  | Rejected r y => orderly (in_limit a) r /\ In y (visited r) /\ ~ valid_start (pb_n p) (placed p y) (pb_sels p)
  | NotANumber r => orderly (in_limit a) r
  end.
Proof.
  intros PREP. unfold solve. cbv zeta. set (r0 := v_pdlp p (in_pdlp a) (v_preprocess (in_naive a) s0 m0)).
  assert (I0 : tinv p s0 (in_naive a) r0) by exact (t_pdlp p s0 (in_naive a) (in_pdlp a) _ (t_preprocess is01 p s0 x0 m0 (in_naive a) PREP)).
  assert (N0 : rn_rounds r0 = 0%Z) by (unfold r0; destruct (in_pdlp a); reflexivity).
  pose proof (t_lagrange is01 p s0 x0 m0 (in_naive a) PREP (in_lagrange a) r0 I0) as H1. rewrite N0 in H1.
  destruct (v_lagrange p (in_lagrange a) r0) as [r1|r1 y|r1]; cbn [bind t_phase] in *.
  2:{ destruct H1 as ((I & N) & K). split; [apply (t_orderly p s0 (in_naive a)); [exact I|lia]|exact K]. }
  2:{ destruct H1 as (I & N). apply (t_orderly p s0 (in_naive a)); [exact I|lia]. }
  destruct H1 as (I1 & N1). pose proof (t_local is01 p s0 x0 m0 (in_naive a) PREP (in_local a) r1 I1) as H2.
  destruct (v_local p (in_local a) r1) as [r2|r2 y|r2]; cbn [bind t_phase] in *.
  2:{ destruct H2 as ((I & N) & K). split; [apply (t_orderly p s0 (in_naive a)); [exact I|lia]|exact K]. }
  2:{ destruct H2 as (I & N). apply (t_orderly p s0 (in_naive a)); [exact I|lia]. }
  destruct H2 as (I2 & N2). unfold v_tabu.
  pose proof (t_rounds is01 p s0 x0 m0 (in_naive a) PREP (in_control a) lg root (in_limit a) (in_target a) (in_rounds a) 0%Z None (k_setup (in_control a) (rn_mem r2) (rn_current r2)) r2 I2
    ltac:(destruct I2 as (_ & _ & _ & _ & _ & C & _); exact C)) as H3.
  destruct (v_rounds (in_control a) lg root p (in_limit a) (in_target a) (in_rounds a) 0 None (k_setup (in_control a) (rn_mem r2) (rn_current r2)) r2) as [r3|r3 y|r3]; cbn [bind t_phase] in *.
  2:{ destruct H3 as ((I & N) & K). split; [apply (t_orderly p s0 (in_naive a)); [exact I|lia]|exact K]. }
  2:{ destruct H3 as (I & N). apply (t_orderly p s0 (in_naive a)); [exact I|lia]. }
  destruct H3 as (I3 & N3). apply t_current in I3. pose proof (t_postprocess is01 p s0 x0 m0 (in_naive a) PREP (with_current r3) I3) as H4.
  assert (O : orderly (in_limit a) (with_current r3)) by (apply (t_orderly p s0 (in_naive a)); [exact I3|cbn [with_current rn_rounds]; lia]).
  destruct (v_postprocess p (with_current r3)) as [[an r4]|r4 y|r4]; [| |contradiction]; destruct H4 as (-> & H4); (split; [exact O|exact H4]).
Qed.
