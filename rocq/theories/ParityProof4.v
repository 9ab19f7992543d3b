(** Proofs for C79: solve() with the GF(2) step. *)
From Coq Require Import List NArith ZArith QArith Bool Arith Permutation.
From Verif Require Import ExprModel ExprSpec ConstraintModel VariableModel TypeModel PresolveModel PresolveSpec
  DependentModel DependentSpec SelectionModel SelectionSpec PrepareModel PrepareSpec EvalModel TabuModel LagrangeModel SolverModel SolverSpec WholeModel WholeSpec
  RelaxModel RelaxSpec OfferModel ParityModel ParitySpec.
From Verif Require Import WholeProof WholeProof4 RelaxProof2 RelaxProof4 OfferProof5 ParityProof2 TruthSpec TruthProof3.
From Verif Require ScreenModel ControllerSpec.
Import ListNotations.
Local Open Scope nat_scope.

Lemma p_eq f order sw su o nrm red ext sq lg root m x a s r out : prepare f sw su m s = Some (Ok r) ->
  let r' := prepare_parities order sw su r in
  p_solve f order sw su o nrm red ext sq lg root m x a s = Some (Ok out) -> exists b, pdlp_phase nrm red ext sq x m r' = Ok b /\
  out = solve lg root (search_problem su m r') (with_relaxations (ScreenModel.naive_dual_bound m (ds_obj (fst r')) (ds_vars (fst r'))) b (lagrange_phase x r') a) (search_state o m r') mem_setup.
Proof.
  intros Pr r' E. unfold p_solve in E. rewrite Pr in E. cbn [PresolveModel.bind] in E. cbv zeta in E. fold r' in E. destruct (pdlp_phase _ _ _ _ _ _ _) as [b| |]; try discriminate.
  cbn [PresolveModel.bind] in E. injection E as E. exists b. split; [reflexivity|symmetry; exact E].
Qed.
Lemma p_model_same f order sw su on pairs o nrm red ext sq lg root m x a s out : p_solve_model f order sw su on pairs o nrm red ext sq lg root m x a s = Some (Ok out) ->
  exists a', in_limit a' = ni_limit a /\ p_solve f order sw su o nrm red ext sq lg root m x a' s = Some (Ok out).
Proof.
  unfold p_solve_model, p_solve. destruct (prepare f sw su m s) as [[r| |]|]; cbn [PresolveModel.bind]; try discriminate. cbv zeta.
  destruct (pdlp_phase nrm red ext sq x m _) as [b| |]; cbn [PresolveModel.bind]; try discriminate.
  intros E. injection E as <-. match goal with |- context [n_solve ?nb lg root ?p ?nv b ?g a ?s0 ?m0] => destruct (solve_same nb lg root p nv b g a s0 m0) as (a' & L & ->) end. exists a'. split; [exact L|reflexivity].
Qed.

Section Parity.
  Context (f : nat) (order : list nat -> list nat) (sw : switches) (su : surroundings) (o : search_options) (m : bool) (s : dstate) (r : dstate * list sel).
  Hypothesis Op : forall l, Permutation (order l) l.
  Hypothesis P : proper_model s.
  Hypothesis Fe : exists z, solves s z.
  Hypothesis C1 : calm_rounds sw su m s.
  Hypothesis C2 : calm_sets sw su m s.
  Hypothesis Pr : prepare f sw su m s = Some (Ok r).
  Let r' := prepare_parities order sw su r.

  Lemma q_ready : search_ready m s r.
  Proof. exact (prepare_search f sw su m s r P Fe C1 C2 Pr). Qed.
  Lemma q_force : all_in_force r.
  Proof. exact (prepared_in_force f sw su m s r P Pr q_ready). Qed.

  (** C80. *)
  Lemma any_answer nrm red ext sq lg root x a out : settled r -> p_solve f order sw su o nrm red ext sq lg root m x a s = Some (Ok out) ->
    match out with
    | Done (an, rn) => orderly (in_limit a) rn /\ truthful (search_problem su m r') (search_state o m r') rn an /\ (an_feasible an = true -> solution_of s (wo_defined o) an)
    | Rejected rn y => orderly (in_limit a) rn /\ In y (visited rn) /\ ~ valid_start (pb_n (search_problem su m r')) (placed (search_problem su m r') y) (pb_sels (search_problem su m r'))
    | NotANumber rn => orderly (in_limit a) rn
    end.
  Proof.
    intros St E. destruct (p_eq f order sw su o nrm red ext sq lg root m x a s r out Pr E) as (b & _ & ->). fold r'.
    exact (truth_answer su o m s r r' q_ready St (parities_refixed order sw su m s r Op q_ready) lg root
      (with_relaxations (ScreenModel.naive_dual_bound m (ds_obj (fst r')) (ds_vars (fst r'))) b (lagrange_phase x r') a)).
  Qed.

  Hypothesis Ka : keys_apart (parity_items su (fst r)).
  Hypothesis Pl : all_plus (parity_items su (fst r)).
  Hypothesis Fo : in_force (fst r) (parity_items su (fst r)).
  Lemma q_ready' : search_ready m s r'.
  Proof. exact (step_ready order sw su m s r Op q_ready q_force Ka Pl Fo Fe). Qed.
  Lemma q_answer nrm red ext sq lg root x a b : settled r -> (forall go late clock, rx_lagrange x = Some (go, late, clock) -> (1 <= go_queue go)%Z) ->
    admissible (zero_one_in (ds_number (fst r')) (ds_vars (fst r'))) (search_state o m r') a -> pdlp_phase nrm red ext sq x m r' = Ok b ->
    exists out, p_solve f order sw su o nrm red ext sq lg root m x a s = Some (Ok out) /\
    let p := search_problem su m r' in
    match out with
    | Done (an, rn) => orderly (in_limit a) rn /\ right_answer p (search_state o m r') rn an /\ (an_feasible an = true -> solution_of s (wo_defined o) an)
    | Rejected rn y => orderly (in_limit a) rn /\ In y (visited rn) /\ ~ valid_start (pb_n p) (placed p y) (pb_sels p)
    | NotANumber rn => orderly (in_limit a) rn /\ (ControllerSpec.log_like lg -> unpriceable (search_state o m r') rn)
    end.
  Proof.
    intros St Q Ad Eb. eexists. split; [unfold p_solve; rewrite Pr; cbn [PresolveModel.bind]; cbv zeta; fold r'; rewrite Eb; reflexivity|]. cbv zeta.
    pose proof (step_settled order sw su m s r Op q_ready q_force Ka Pl Fo Fe St) as St'. fold r' in St'.
    exact (whole_answer su o lg root m (with_relaxations (ScreenModel.naive_dual_bound m (ds_obj (fst r')) (ds_vars (fst r'))) b (lagrange_phase x r') a) s r' q_ready' St'
      (relaxed_admissible o m s r' q_ready' x a _ b Q Ad)).
  Qed.
  Lemma q_bound nrm red ext sq lg root x a out : settled r -> wo_defined o = true ->
    (forall po envs late, rx_pdlp x = Some (po, envs, late) -> relaxable nrm red ext sq m r' envs) -> (rx_lagrange x <> None -> m = true) ->
    p_solve f order sw su o nrm red ext sq lg root m x a s = Some (Ok out) -> bounds_all m s (reported_bound out).
  Proof.
    intros St Df Rx Lx E. destruct (p_eq f order sw su o nrm red ext sq lg root m x a s r out Pr E) as (b & Eb & ->). fold r' in Eb |- *.
    pose proof (step_settled order sw su m s r Op q_ready q_force Ka Pl Fo Fe St) as St'. fold r' in St'.
    pose proof (step_in_force order sw su m s r Op q_ready q_force Ka Pl Fo Fe) as Hf. fold r' in Hf.
    pose proof (step_selected order sw su m s r Op q_ready q_force Ka Pl Fo Fe (prepare_selected f sw su m s r P Fe C1 C2 Pr)) as Sc. fold r' in Sc.
    intros y Sy. exact (proj1 (final_bound su o m s r' Hf q_ready' (st_objective r' St') Df Sc nrm red ext sq lg root x a b Rx Lx Eb y Sy)).
  Qed.
End Parity.

(** Nothing to do. *)
Lemma stale_same on pairs su r : stale_neighborhood on pairs su r r = setup_neighborhood on pairs su r.
Proof. unfold stale_neighborhood. destruct (setup_neighborhood on pairs su r) eqn:E. cbn. f_equal. unfold setup_neighborhood in E. congruence. Qed.
Lemma p_idle f order sw su on pairs o nrm red ext sq lg root m x a s r : prepare f sw su m s = Some (Ok r) -> prepare_parities order sw su r = r ->
  p_solve_model f order sw su on pairs o nrm red ext sq lg root m x a s = n_solve_model f sw su on pairs o nrm red ext sq lg root m x a s.
Proof. intros Pr E. unfold p_solve_model, n_solve_model. rewrite Pr. cbn [PresolveModel.bind]. cbv zeta. rewrite E, stale_same. reflexivity. Qed.
Lemma idle_when order sw su r : sw_presolve sw = false \/ parity_items su (fst r) = [] -> prepare_parities order sw su r = r.
Proof.
  intros [E|E]; unfold prepare_parities; cbv zeta; [rewrite E; reflexivity|]. unfold parity_equations. rewrite E. cbn [map length Nat.eqb negb]. rewrite andb_false_r. reflexivity.
Qed.
