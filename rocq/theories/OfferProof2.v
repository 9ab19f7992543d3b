(** Proofs for C77, continued: solve with drivers, as SolverProof2 and SolverProof3. *)
From Coq Require Import List ZArith QArith Qabs Permutation Lia Lqa Bool.
From Verif Require Import ContainerModel ExprModel ExprSpec ExprProof ConstraintModel ConstraintSpec ConstraintProof EvalModel EvalSpec EvalSpec2
  EvalProof EvalProof2 EvalProof3 SolutionModel SolutionSpec SolutionProof VariableModel PresolveModel SelectionModel SelectionSpec SelectionProof3
  TabuModel TabuSpec TabuProof LoopModel LoopSpec LoopProof LoopProof2 LoopProof3 LocalModel LocalSpec LocalProof LocalProof2
  LagrangeModel LagrangeSpec LagrangeProof LagrangeProof2 LagrangeProof3 ControllerModel ControllerSpec ControllerProof ControllerProof2 ControllerProof3
  OfferModel SolverModel SolverSpec SolverProof SolverProof2 SolverProof3.
Import ListNotations.
Local Open Scope Q_scope.

Section Local.
Variables (is01 : nat -> bool) (p : problem) (s0 : mstate) (m0 : memory) (naive cap : Q) (steady : Prop) (good : (nat -> Z) -> Prop) (nb : neighborhood).
Hypothesis PREP : prepared is01 p s0 m0.
Hypothesis GE : forall x y, (forall v, x v = y v) -> good x -> good y.
Notation rinv := (rinv p s0 naive cap steady good).
Notation current_rinv := (current_rinv p s0 naive cap steady good).
Notation rinv_current := (rinv_current p s0 naive cap steady good).
Notation rinv_starts := (rinv_starts p s0 naive cap steady good).
Notation rinv_counts := (rinv_counts p s0 naive cap steady good).
Notation rinv_good := (rinv_good p s0 naive cap steady good).
Notation rinv_prices := (rinv_prices p s0 naive cap steady good).
Notation visited_sound := (visited_sound p s0 naive cap steady good).
Notation import_spec := (import_spec is01 p s0 m0 naive cap steady good PREP).
Notation search_rinv := (search_rinv is01 p s0 naive cap steady good).
Notation phase_ok := (phase_ok p s0 naive cap steady good).
Lemma n_local_ok g r : rinv r ->
  (forall o late ds s h m, g = Some (o, late, ds) -> loop_start is01 s -> same_core s s0 -> good (ms_x s) -> let es := n_senvs nb o ds (s_setup s h m) in
     (forall e t, In e es -> In t (se_moves e) -> trial_ok is01 s0 t /\ anchored (ms_model s0) t) /\ forall q, In q (sl_visited (fst (s_search o s h m es))) -> good (fst q)) ->
  phase_ok (n_local nb p g r) (rn_rounds r).
Proof.
  intros I H. destruct g as [[[o late] ds]|]; [|split; [exact I|reflexivity]]. cbn [n_local].
  destruct (late || target_reached (so_target o) (rn_holder r)); [split; [now apply current_rinv|reflexivity]|].
  assert (Cv : In (rn_current r) (visited r)) by now apply rinv_current. pose proof (import_spec r _ I (visited_sound r _ I Cv)) as Im.
  destruct (import_sparse p (rn_ms r) (rn_current r)) as [s|]; [|split; [exact I|split; [reflexivity|split; [exact Cv|exact Im]]]].
  destruct Im as ((x & Ex & Exy) & L & Co & Cl). assert (Gs0 : good (ms_x s)) by (subst s; cbn [with_x ms_x]; apply (GE (rn_current r)); [intros v; symmetry; apply Exy|now apply (rinv_good r)]). pose proof PREP as (_ & _ & R & _).
  destruct (H o late ds s (rn_holder r) (rn_mem r) eq_refl L Co Gs0) as [H1 HG]. clear H. cbv zeta in *. set (es := n_senvs nb o ds (s_setup s (rn_holder r) (rn_mem r))) in *. clearbody es.
  assert (Mc : counted_all (rn_mem r)) by now apply rinv_counts.
  pose proof (s_search_clean s0 R o s (rn_holder r) (rn_mem r) es Cl Mc) as (Gc & Gs & Gm).
  destruct (setup_sinv is01 s (rn_holder r) (rn_mem r) L) as [Si _].
  destruct (run_facts is01 s (rn_holder r) o L es _ Si (fun e t He Ht => conj (core_trial is01 s0 s t Co (proj1 (H1 e t He Ht))) (core_anchored s0 s t Co (proj2 (H1 e t He Ht))))) as ((Mi & _ & V & _ & Hh) & _).
  fold (s_search o s (rn_holder r) (rn_mem r) es) in *.
  set (l := fst (s_search o s (rn_holder r) (rn_mem r) es)) in *.
  split; [|reflexivity]. apply current_rinv. fold (offers (sl_visited l)).
  apply (search_rinv r s); try assumption; [subst s; exact (rinv_prices r I)|apply Mi| ].
  intros y Hy. apply in_app_iff in Hy as [Hy|[<-|[]]]; [now apply rinv_starts|exact Cv].
Qed.
End Local.

Section Rounds.
Variables (is01 : nat -> bool) (p : problem) (s0 : mstate) (m0 : memory) (naive : Q) (o : copt) (lg : Z -> Q) (root : Q -> Q) (good : (nat -> Z) -> Prop) (nb : neighborhood).
Hypothesis PREP : prepared is01 p s0 m0.
Hypothesis TEN : (0 <= co_tenure o)%Z.
Hypothesis GE : forall x y, (forall v, x v = y v) -> good x -> good y.
Notation inv := (rinv p s0 naive (co_initial o) (well_priced lg root o s0) good).
Notation rounds_ok := (rounds_ok p s0 naive o lg root good).
Notation rounds_weaken := (rounds_weaken p s0 naive o lg root good).
Notation held_incumbents := (held_incumbents p s0 naive o lg root good).
Lemma n_rounds_ok limit target ds :
  (forall g k s h m, In g ds -> same_core s s0 -> good (ms_x s) -> let d := realise nb k s h m g in
     (0 <= lo_nmut (gd_options g))%Z /\ (forall t, In t (map fst (td_mods d)) -> trial_ok is01 s0 t) /\ (forall e t, In e (td_envs d) -> In t (en_moves e) -> trial_ok is01 s0 t) /\
     forall q, In q (lp_visited (fst (l_search (governed k (gd_options g)) s h m (td_mods d) (td_envs d)))) -> good (fst q)) ->
  forall i last k r, inv r -> In (k_current k) (visited r) -> (0 <= k_tenure k)%Z -> ((well_priced lg root o s0) -> co_relax_min o <= k_rate k <= co_relax_max o) ->
  rounds_ok (n_rounds nb o lg root p limit target ds i last k r) (rn_rounds r) (Z.max 0 (limit - i)).
Proof.
  induction ds as [|g ds IH]; intros H i last k r I Ck Tk Rk; cbn [n_rounds]; [split; [exact I|lia]|].
  destruct (gd_time_over g); [split; [exact I|lia]|]. destruct (Z.leb_spec limit i) as [Hl|Hl]; [split; [exact I|lia]|].
  destruct (target_reached target (rn_holder r)); [split; [exact I|lia]|].
  destruct ((0 <? i)%Z && match last with Some Optimal => true | _ => false end); [split; [exact I|lia]|].
  pose proof (import_spec is01 p s0 m0 naive (co_initial o) (well_priced lg root o s0) good PREP r (k_current k) I (visited_sound p s0 naive (co_initial o) (well_priced lg root o s0) good r _ I Ck)) as Im.
  destruct (import_sparse p (rn_ms r) (k_current k)) as [s|]; [|split; [split; [exact I|lia]|split; [exact Ck|exact Im]]].
  destruct Im as ((x & Ex & Exy) & L & Co & Cl).
  assert (Gs0 : good (ms_x s)) by (subst s; cbn [with_x ms_x]; apply (GE (k_current k)); [intros v; symmetry; apply Exy|eapply rinv_good; [exact I|exact Ck]]).
  pose proof PREP as (_ & _ & R & _). cbv zeta. destruct (H g k s (rn_holder r) (rn_mem r) (or_introl eq_refl) Co Gs0) as (D1 & D2 & D3 & Gq).
  set (d := realise nb k s (rn_holder r) (rn_mem r) g) in *. clearbody d.
  assert (Mc : counted_all (rn_mem r)) by (eapply rinv_counts; exact I).
  pose proof (l_search_clean s0 R (governed k (gd_options g)) s (rn_holder r) (rn_mem r) (td_mods d) (td_envs d) Cl Mc) as (Gc & Gs & Gm & Gn).
  destruct (search_facts is01 (governed k (gd_options g)) s (rn_holder r) (rn_mem r) (td_mods d) (td_envs d) L Tk D1
     (fun t Ht => core_trial is01 s0 s t Co (D2 t Ht)) (fun e t He Ht => core_trial is01 s0 s t Co (D3 e t He Ht))) as ((Mi & _ & V & _ & Hh & _) & _).
  destruct (l_search (governed k (gd_options g)) s (rn_holder r) (rn_mem r) (td_mods d) (td_envs d)) as [l st]. cbn [fst] in *.
  fold (offers (lp_visited l)).
  set (r' := mkRun (lp_ms l) (lp_holder l) (lp_mem l) (rn_current r) (rn_events r ++ [ResetLocal] ++ offers (lp_visited l)) (rn_starts r ++ [k_current k]) (rn_rounds r + 1)).
  assert (I' : inv r').
  { apply (search_rinv is01 p s0 naive (co_initial o) (well_priced lg root o s0) good r s); try assumption; [subst s; eapply rinv_prices; exact I|apply Mi|eapply rinv_current; exact I|].
    intros y Hy. apply in_app_iff in Hy as [Hy|[<-|[]]]; [eapply rinv_starts; eassumption|exact Ck]. }
  assert (Vv : forall y, In y (visited r) -> In y (visited r')).
  { intros y Hy. unfold visited in *. cbn [r' rn_events]. rewrite offered_app, map_app. apply in_app_iff. now left. }
  destruct (held_incumbents r' (lp_visited l) I' Gn (ex_intro _ (rn_events r) eq_refl)) as (qg & yg & ql & yl & feasible & INC & Yg & Yl & Nf).
  cbn [r' rn_holder] in INC. assert (Core : same_core (lp_ms l) s0) by apply I'.
  match goal with |- context [k_update o lg root ?rs ?h ?m ?n ?dr ?md k] => set (res := rs); destruct (k_update o lg root res h m n dr md k) as [[k' cs']|] eqn:U end.
  - destruct (update_repriced o lg root res (lp_holder l) (lp_mem l) _ _ _ k qg yg ql yl feasible k' cs' INC U) as [Rp Tk'].
    assert (Sp : (well_priced lg root o s0) -> Forall (priced_within (co_initial o)) cs' /\ co_relax_min o <= k_rate k' <= co_relax_max o).
    { intros St. pose proof St as (S1 & S2 & S3 & S4 & _). assert (Cn : counted (mm_vcount (lp_mem l)) (md_cons (ms_model (lp_ms l)))) by (intros j c _; apply Gm).
      assert (S4' : 0 <= md_gpen (ms_model (lp_ms l)) <= co_initial o) by (destruct Core as (_ & _ & -> & _); exact S4).
      destruct (update_pens o lg root res (lp_holder l) (lp_mem l) _ _ _ k qg yg ql yl feasible INC k' cs' S1 S2 S3 Cn S4' (Rk St) (rinv_prices p s0 naive (co_initial o) (well_priced lg root o s0) good r' I' St) U) as (_ & P2 & P3 & _).
      split; [exact P2|exact P3]. }
    eapply (rounds_weaken _ (rn_rounds r) (rn_rounds r + 1) _ (Z.max 0 (limit - (i + 1)))); [lia|lia|].
    apply (IH (fun g' k1 s1 h1 m1 Hd => H g' k1 s1 h1 m1 (or_intror Hd)) (i + 1)%Z st k' (mkRun (with_constraints (rn_ms r') cs') (rn_holder r') (rn_mem r') (rn_current r') (rn_events r') (rn_starts r') (rn_rounds r'))).
    + destruct I' as (A & B & C & E & F & G & J & _ & K). split; [|split; [exact B|split; [exact C|split; [exact E|split; [exact F|split; [exact G|split; [exact J|split; [|exact K]]]]]]]].
      * destruct A as (A1 & A2 & A3 & (_ & A4)). apply repriced_core in Rp. assert (Ec : map core cs' = map core (md_cons (ms_model s0))) by (rewrite Rp; exact A1).
        split; [exact Ec|]. split; [exact A2|]. split; [exact A3|]. split; [exact (core_skel _ _ Ec)|exact A4].
      * intros St. exact (proj1 (Sp St)).
    + destruct (update_start o lg root res (lp_holder l) (lp_mem l) _ _ _ k qg yg ql yl feasible INC k' cs' U) as [->|[->| ->]]; [exact Yg|exact Yl|exact (Vv _ Ck)].
    + apply Tk'; assumption.
    + intros St. exact (proj2 (Sp St)).
  - split; [split; [exact I'|cbn [r' rn_rounds]; lia]|]. intros Lg.
    assert (Cn : counted (mm_vcount (lp_mem l)) (md_cons (ms_model (lp_ms l)))) by (intros j c _; apply Gm).
    destruct (update_none o lg root res (lp_holder l) (lp_mem l) _ _ _ k qg yg ql yl feasible INC Lg Cn U) as (N1 & (c & N2 & N3) & N4).
    exists yl. split; [exact Yl|]. split; [now apply Nf|]. split.
    + destruct (core_in _ _ c (proj1 Core) N2) as (c' & A & B). exists c'. split; [exact A|]. now rewrite <- (viol_core yl c c' B).
    + intros j c' Hj Hv. destruct (core_nth _ _ j c' (proj1 (core_sym _ _ Core)) Hj) as (c2 & A & B). apply (N4 j c2 A). now rewrite <- (viol_core yl c' c2 B).
Qed.

End Rounds.

Lemma n_solve_ok nb lg root p naive b gl a s0 m0 is01 (good : (nat -> Z) -> Prop) : prepared is01 p s0 m0 ->
  (forall g, gl = Some g -> gg_applicable g = true -> ms_deps s0 = [] /\ (1 <= go_queue (gg_options g))%Z /\
     forall v, is01 v = true -> (0 <= gg_lo g v <= 1)%Z /\ (0 <= gg_hi g v <= 1)%Z) ->
  (0 <= co_tenure (ni_control a))%Z ->
  (forall x y, (forall v, x v = y v) -> good x -> good y) -> good (ms_x (ms_export (ms_update s0))) ->
  (forall g s h, gl = Some g -> gg_applicable g = true -> same_core s s0 -> good (ms_x s) ->
     forall q, In q (gl_visited (fst (g_search (gg_options g) (pb_minimize p) (gg_vars g) (gg_lo g) (gg_hi g) s h (gg_clock g)))) -> good (fst q)) ->
  (forall o late ds s h m, ni_local a = Some (o, late, ds) -> loop_start is01 s -> same_core s s0 -> good (ms_x s) -> let es := n_senvs nb o ds (s_setup s h m) in
     (forall e t, In e es -> In t (se_moves e) -> trial_ok is01 s0 t /\ anchored (ms_model s0) t) /\ forall q, In q (sl_visited (fst (s_search o s h m es))) -> good (fst q)) ->
  (forall g k s h m, In g (ni_rounds a) -> same_core s s0 -> good (ms_x s) -> let d := realise nb k s h m g in
     (0 <= lo_nmut (gd_options g))%Z /\ (forall t, In t (map fst (td_mods d)) -> trial_ok is01 s0 t) /\ (forall e t, In e (td_envs d) -> In t (en_moves e) -> trial_ok is01 s0 t) /\
     forall q, In q (lp_visited (fst (l_search (governed k (gd_options g)) s h m (td_mods d) (td_envs d)))) -> good (fst q)) ->
  let ok r := orderly (ni_limit a) r /\ (forall y, In y (visited r) -> good y) /\
    (well_priced lg root (ni_control a) s0 -> Forall (priced_within (co_initial (ni_control a))) (md_cons (ms_model (rn_ms r)))) in
  match n_solve nb lg root p naive b gl a s0 m0 with
  | Done (an, r) => ok r /\ right_answer p s0 r an
  | Rejected r y => ok r /\ In y (visited r) /\ ~ valid_start (pb_n p) (placed p y) (pb_sels p)
  | NotANumber r => ok r /\ (log_like lg -> unpriceable s0 r)
  end.
Proof.
  intros PREP A1 A3 GE G0 G1 G2 G3 ok. unfold n_solve. set (o := ni_control a) in *.
  pose proof (preprocess_rinv is01 p s0 m0 naive (co_initial o) (well_priced lg root o s0) good PREP (fun W => proj2 (proj2 (proj2 (proj2 W)))) G0) as I0.
  apply (pdlp_rinv p s0 naive (co_initial o) (well_priced lg root o s0) good b) in I0.
  assert (N0 : rn_rounds (v_pdlp p b (v_preprocess naive s0 m0)) = 0%Z) by (destruct b; reflexivity).
  set (r0 := v_pdlp p b (v_preprocess naive s0 m0)) in *. clearbody r0.
  assert (OK : forall r n, rinv p s0 naive (co_initial o) (well_priced lg root o s0) good r -> (0 <= n <= Z.max 0 (ni_limit a))%Z -> rn_rounds r = n -> ok r).
  { intros r n I Hn E. split; [split; [eapply rinv_starts; exact I|lia]|]. split; [eapply rinv_good; exact I|eapply rinv_prices; exact I]. }
  pose proof (lagrange_ok is01 p s0 m0 naive (co_initial o) (well_priced lg root o s0) good PREP GE gl r0 I0 A1 G1) as P1.
  destruct (v_lagrange p gl r0) as [r1|r1 y|r1]; cbn [bind phase_ok] in *; [| |destruct P1].
  2: { destruct P1 as (I & E & H). split; [apply (OK r1 0%Z I); [lia|congruence]|exact H]. }
  destruct P1 as (I1 & E1).
  pose proof (n_local_ok is01 p s0 m0 naive (co_initial o) (well_priced lg root o s0) good nb PREP GE (ni_local a) r1 I1 G2) as P2.
  destruct (n_local nb p (ni_local a) r1) as [r2|r2 y|r2]; cbn [bind phase_ok] in *; [| |destruct P2].
  2: { destruct P2 as (I & E & H). split; [apply (OK r2 0%Z I); [lia|congruence]|exact H]. }
  destruct P2 as (I2 & E2). 
  pose proof (n_rounds_ok is01 p s0 m0 naive o lg root good nb PREP A3 GE (ni_limit a) (ni_target a) (ni_rounds a) G3 0%Z None (k_setup o (rn_mem r2) (rn_current r2)) r2 I2
    (rinv_current p s0 naive (co_initial o) (well_priced lg root o s0) good r2 I2) A3) as P3.
  assert (Rt : well_priced lg root o s0 -> co_relax_min o <= k_rate (k_setup o (rn_mem r2) (rn_current r2)) <= co_relax_max o).
  { intros ((_ & _ & _ & _ & S5 & S6 & _) & _). cbn [k_setup k_rate]. split; assumption. }
  specialize (P3 Rt). rewrite Z.sub_0_r in P3. assert (E0 : rn_rounds r2 = 0%Z) by congruence. rewrite E0 in P3. fold o.
  destruct (n_rounds nb o lg root p (ni_limit a) (ni_target a) (ni_rounds a) 0 None (k_setup o (rn_mem r2) (rn_current r2)) r2) as [r3|r3 y|r3]; cbn [bind rounds_ok] in *.
  - destruct P3 as (I3 & H3). apply current_rinv in I3. pose proof (postprocess_ok is01 p s0 m0 naive o lg root good PREP (with_current r3) I3) as P4.
    assert (Ok3 : ok (with_current r3)) by (apply (OK (with_current r3) (rn_rounds r3) I3); [lia|reflexivity]).
    destruct (v_postprocess p (with_current r3)) as [[an r4]|r4 y|r4]; [| |destruct P4].
    + destruct P4 as (-> & P4). split; assumption.
    + destruct P4 as (-> & P4). split; assumption.
  - destruct P3 as ((I3 & H3) & P3). split; [apply (OK r3 (rn_rounds r3) I3); [lia|reflexivity]|exact P3].
  - destruct P3 as ((I3 & H3) & P3). split; [apply (OK r3 (rn_rounds r3) I3); [lia|reflexivity]|exact P3].
Qed.
