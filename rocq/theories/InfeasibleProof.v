(** Proofs for C81: models without solutions. *)
From Coq Require Import List NArith ZArith QArith Qabs Bool Arith Lia Lqa Permutation.
From Verif Require Import ExprModel ExprSpec ExprProof ConstraintModel ConstraintSpec VariableModel TypeModel TypeSpec PresolveModel PresolveSpec
  DuplicateModel DependentModel DependentSpec SelectionModel SelectionSpec BinMatModel PrepareModel PrepareSpec EvalModel TabuModel LoopModel WholeModel WholeSpec.
From Verif Require Import SolutionModel SolverModel SolverSpec RelaxModel RelaxSpec OfferModel OfferSpec ParityModel ParitySpec TruthSpec.
From Verif Require Import PrepareProof PrepareProof3 PrepareProof6 WholeProof WholeProof3 WholeProof4 WholeProof5 TruthProof3 ParityProof4.
From Verif Require PrepareProof7 OfferProof6 ScreenModel.
Import ListNotations.
Local Open Scope nat_scope.

(** ** Presolve off *)
Lemma off_ready fuel sw su m s r : plain_model s -> sw_presolve sw = false -> prepare fuel sw su m s = Some (Ok r) -> search_ready m s r.
Proof.
  intros P Of Pr. unfold prepare in Pr. rewrite (PrepareProof7.presolve_off fuel sw su m s Of) in Pr. cbn [PresolveModel.bind] in Pr. injection Pr as Pr.
  exact (search_slim sw su m s s r (plain_slim s P) (refines_refl m s) eq_refl Pr).
Qed.
Lemma off_idle order sw su r : sw_presolve sw = false -> prepare_parities order sw su r = r.
Proof. intros Of. apply idle_when. left. exact Of. Qed.
Lemma off_answer fuel order sw su o nrm red ext sq lg root m x a s r out : plain_model s -> as_entered s -> free_binaries s -> sw_presolve sw = false ->
  prepare fuel sw su m s = Some (Ok r) -> p_solve fuel order sw su o nrm red ext sq lg root m x a s = Some (Ok out) ->
  match out with
  | Done (an, rn) => orderly (in_limit a) rn /\ truthful (search_problem su m r) (search_state o m r) rn an /\ (an_feasible an = true -> solution_of s (wo_defined o) an)
  | Rejected rn y => orderly (in_limit a) rn /\ In y (visited rn) /\ ~ valid_start (pb_n (search_problem su m r)) (placed (search_problem su m r) y) (pb_sels (search_problem su m r))
  | NotANumber rn => orderly (in_limit a) rn
  end.
Proof.
  intros P Ae Fb Of Pr E. destruct (p_eq fuel order sw su o nrm red ext sq lg root m x a s r out Pr E) as (b & _ & ->). rewrite (off_idle order sw su r Of).
  exact (truth_answer su o m s r r (off_ready fuel sw su m s r P Of Pr) (off_settled fuel sw su m s P Ae (or_intror Fb) r Of Pr) (refixed_self r) lg root
    (with_relaxations (ScreenModel.naive_dual_bound m (ds_obj (fst r)) (ds_vars (fst r))) b (lagrange_phase x r) a)).
Qed.

Lemma p_prepared fuel order sw su o nrm red ext sq lg root m x a s out : p_solve fuel order sw su o nrm red ext sq lg root m x a s = Some (Ok out) ->
  exists r, prepare fuel sw su m s = Some (Ok r).
Proof. unfold p_solve. destruct (prepare fuel sw su m s) as [[r| |]|]; cbn [PresolveModel.bind]; try discriminate. intros _. exists r. reflexivity. Qed.
Lemma off_solution fuel order sw su o nrm red ext sq lg root m x a s an rn : plain_model s -> as_entered s -> free_binaries s -> sw_presolve sw = false ->
  p_solve fuel order sw su o nrm red ext sq lg root m x a s = Some (Ok (Done (an, rn))) -> an_feasible an = true -> solution_of s (wo_defined o) an.
Proof.
  intros P Ae Fb Of E. destruct (p_prepared _ _ _ _ _ _ _ _ _ _ _ _ _ _ _ _ E) as [r Pr].
  exact (proj2 (proj2 (off_answer _ _ _ _ _ _ _ _ _ _ _ _ _ _ _ _ _ P Ae Fb Of Pr E))).
Qed.

(** ** Presolve on: 2 x0 = 1, or x2 + 200000 <= 0, or x0 >= 1 and x0 = 0, and x0 + x1 + x2 <= 2 *)
Inductive flaw := Half | Far | Clash.
Definition u_vars : vars := fun v => if v <? 2 then mkVar 0 0 1 true false VBinary false true else if v =? 2 then mkVar 0 0 3 true false VInteger true true else pv 0 0.
Definition u_cons (f : flaw) : list constr :=
  match f with
  | Half => [c_setup (mkExpr [(0, 2%Q)] (-(1))%Q) Equal (is01_of u_vars)]
  | Far => [c_setup (mkExpr [(2, 1%Q)] 200000%Q) Less (is01_of u_vars)]
  | Clash => [c_setup (mkExpr [(0, 1%Q)] (-(1))%Q) Greater (is01_of u_vars); c_setup (mkExpr [(0, 1%Q)] 0%Q) Equal (is01_of u_vars)]
  end.
Definition u_model (f : flaw) : dstate := mkD 3 u_vars (u_cons f ++ [c_setup (mkExpr [(0, 1%Q); (1, 1%Q); (2, 1%Q)] (-(2))%Q) Less (is01_of u_vars)])
  (mkExpr [(1, (-(1))%Q); (2, (-(1))%Q)] 0%Q) [] (fun _ => None).
Definition u_switches (on : bool) : switches := mkSw on false false false false (fun _ => false) Off true.
Lemma u_void f x : ~ solves (u_model f) x.
Proof.
  intros [R C _]. destruct f; cbn [u_model ds_cons u_cons app] in C.
  - assert (S : satisfies (c_setup (mkExpr [(0, 2%Q)] (-(1))%Q) Equal (is01_of u_vars)) x) by (apply C; [left; reflexivity|reflexivity]). unfold satisfies in S. cbn in S. set (z := x 0) in *.
    assert (H : (inject_Z (2 * z - 1) == 0)%Q) by (unfold Z.sub; rewrite inject_Z_plus, inject_Z_mult; change (inject_Z 2) with 2%Q; change (inject_Z (-(1))) with (-(1))%Q; lra).
    apply (inject_Z_injective (2 * z - 1) 0) in H. lia.
  - assert (S : satisfies (c_setup (mkExpr [(2, 1%Q)] 200000%Q) Less (is01_of u_vars)) x) by (apply C; [left; reflexivity|reflexivity]). unfold satisfies in S. cbn in S.
    assert (B : within (ds_vars (u_model Far) 2) (x 2)) by (apply R; reflexivity). cbn in B. destruct B as [B _]. set (z := x 2) in *.
    assert (H : (0 <= inject_Z z)%Q) by (rewrite <- (Zle_Qle 0); exact B). lra.
  - assert (S : satisfies (c_setup (mkExpr [(0, 1%Q)] (-(1))%Q) Greater (is01_of u_vars)) x) by (apply C; [left; reflexivity|reflexivity]). unfold satisfies in S. cbn in S.
    assert (S' : satisfies (c_setup (mkExpr [(0, 1%Q)] 0%Q) Equal (is01_of u_vars)) x) by (apply C; [right; left; reflexivity|reflexivity]). unfold satisfies in S'. cbn in S'.
    set (z := x 0) in *. lra.
Qed.
Lemma u_bounds v : (va_lower (u_vars v) <= 0 <= va_upper (u_vars v))%Z.
Proof. do 3 (destruct v as [|v]; [vm_compute; split; discriminate|]). vm_compute; split; discriminate. Qed.
Lemma u_proper f : proper_model (u_model f).
Proof.
  constructor; cbn [u_model ds_dep ds_exprs ds_cons ds_vars ds_obj].
  - constructor; cbn [u_model ds_dep ds_exprs ds_cons ds_vars ds_obj ds_number]; try discriminate.
    + apply nodup_b_ok. reflexivity.
    + intros c I. destruct f; cbn [In u_cons app] in I; repeat (destruct I as [<-|I]; [|]); try destruct I; (split; [apply nodup_b_ok; reflexivity|]); intros v J; cbn in J; lia.
    + intros e [].
    + intros v. split; [contradiction|]. intros [_ [E|E]]; exfalso; revert E; (do 3 (destruct v as [|v]; [vm_compute; discriminate|])); vm_compute; discriminate.
  - reflexivity.
  - reflexivity.
  - intros c I. destruct f; cbn [In u_cons app] in I; repeat (destruct I as [<-|I]; [|]); try destruct I; reflexivity.
  - apply tame_b_ok. destruct f; vm_compute; reflexivity.
  - intros v _. do 3 (destruct v as [|v]; [vm_compute; split; reflexivity|]). vm_compute; split; reflexivity.
  - intros v F. exfalso. revert F. do 3 (destruct v as [|v]; [vm_compute; discriminate|]). vm_compute; discriminate.
  - intros v. do 3 (destruct v as [|v]; [vm_compute; (split; [discriminate|]); (split; [intros [E|[E|E]]; first [discriminate E|split; discriminate]|discriminate])|]).
    vm_compute; (split; [discriminate|]); (split; [intros [E|[E|E]]; first [discriminate E|split; discriminate]|discriminate]).
  - intros c I. split.
    + intros F. apply (flags_b_ok (ds_cons (u_model f))); [destruct f; vm_compute; reflexivity|exact I| |exact F].
      destruct f; cbn [In u_cons app] in I; repeat (destruct I as [<-|I]; [|]); try destruct I; reflexivity.
    + destruct f; cbn [In u_cons app] in I; repeat (destruct I as [<-|I]; [|]); try destruct I; vm_compute; intros F; try discriminate; intros v J; repeat (destruct J as [<-|J]; [now left|]); destruct J.
  - apply decided_zero; [exact u_bounds|destruct f; vm_compute; reflexivity].
Qed.
Definition u_choice : choice := mkCk OfferProof6.o_accept (fun _ => true) [] (seq 0 20).
Definition u_round : ground := mkGd false w_loptions [] (repeat (mkDr false u_choice true (fun _ => 0%Z) (fun _ => 1%Z)) 3) 1 1 1 0.
Definition u_inputs : ninputs := mkNi None w_control 2 (-(100))%Q [u_round].
Definition u_solved (on : bool) (f : flaw) := p_solve_model 10 (fun l => l) (u_switches on) p_around (fun _ => true) [] w_options (fun _ => 1%Q) (fun _ => 1%Q) (fun _ => 1%Q) (fun q => q)
  w_lg (fun q => q) true (mkRx None None) u_inputs (u_model f).
Lemma u_entered f : as_entered (u_model f).
Proof.
  constructor; cbn [u_model ds_cons ds_vars ds_obj ds_number].
  - intros c I. destruct f; cbn [In u_cons app] in I; repeat (destruct I as [<-|I]; [|]); try destruct I; eexists; eexists; (split; [reflexivity|]); apply int_b_ok; reflexivity.
  - intros v. do 3 (destruct v as [|v]; [vm_compute; auto|]). vm_compute; auto.
  - intros v J. cbn in J. lia.
Qed.
Lemma u_free f : free_binaries (u_model f).
Proof. intros v L _. cbn in L. do 3 (destruct v as [|v]; [vm_compute; intros E; first [discriminate E|auto]|]). lia. Qed.
Lemma u_shown on f : shown 3 (u_solved on f) = Some ([0; 1; 0]%Z, (-(1))%Q, (match f with Far => 200000 | _ => 1 end)%Q, on, 4).
Proof. destruct on, f; vm_compute; reflexivity. Qed.
Lemma u_wrong f : exists an rn, u_solved true f = Some (Ok (Done (an, rn))) /\ an_feasible an = true /\ ~ solution_of (u_model f) true an.
Proof.
  destruct (shown_done _ _ _ _ _ _ _ (u_shown true f)) as (an & rn & E & _ & F). exists an, rn. split; [exact E|]. split; [exact F|].
  intros (x & _ & S & _). exact (u_void f x S).
Qed.
Lemma u_result on f : exists r, prepare 10 (u_switches on) p_around true (u_model f) = Some (Ok r).
Proof. destruct (prepare 10 _ _ _ _) as [[r| |]|] eqn:E; [exists r; reflexivity|..]; exfalso; destruct on, f; vm_compute in E; discriminate E. Qed.
Lemma u_refuted f : let s := u_model f in proper_model s /\ as_entered s /\ free_binaries s /\ (forall y, ~ solves s y) /\
  exists an rn, u_solved true f = Some (Ok (Done (an, rn))) /\ an_feasible an = true.
Proof.
  cbv zeta. split; [exact (u_proper f)|]. split; [exact (u_entered f)|]. split; [exact (u_free f)|]. split; [exact (u_void f)|].
  destruct (shown_done _ _ _ _ _ _ _ (u_shown true f)) as (an & rn & E & _ & F). exists an, rn. split; [exact E|exact F].
Qed.
