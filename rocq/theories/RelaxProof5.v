(** Examples for C76: x0 + 2 x1 and 2 x0 + x1 at least 3 (minimizing x0 + x1 + k) or at
    most 3 (maximizing). *)
From Coq Require Import List NArith ZArith QArith Qabs Bool Arith Lia Lqa.
From Verif Require Import ExprModel ExprSpec ExprProof ConstraintModel ConstraintSpec VariableModel TypeModel TypeSpec PresolveModel PresolveSpec
  DuplicateModel DependentModel DependentSpec SelectionModel SelectionSpec PrepareModel PrepareSpec EvalModel TabuModel WholeModel WholeSpec.
From Verif Require Import SolutionModel LoopModel LocalModel SolverModel SolverSpec LagrangeModel RelaxModel RelaxSpec.
From Verif Require LpModel LpProof6.
From Verif Require Import PrepareProof6 WholeProof4 WholeProof5.
Import ListNotations.
Local Open Scope nat_scope.

Definition q_vars : vars := fun v => if v <? 2 then pv 0 10 else pv 0 0.
Definition q_con (a b : Q) (s : csense) : constr := c_setup (mkExpr [(0, a); (1, b)] (-(3))%Q) s (is01_of q_vars).
Definition q_cons (m : bool) : list constr := let s := if m then Greater else Less in [q_con 1 2 s; q_con 2 1 s].
Definition q_model (m : bool) (k : Q) : dstate := mkD 2 q_vars (q_cons m) (mkExpr [(0, 1%Q); (1, 1%Q)] k) [] (fun _ => None).
Lemma q_bounds v : (va_lower (q_vars v) <= 0 <= va_upper (q_vars v))%Z.
Proof. destruct v as [|[|v]]; vm_compute; split; discriminate. Qed.
Lemma q_proper m k : proper_model (q_model m k).
Proof.
  constructor; cbn [q_model ds_dep ds_exprs ds_cons ds_vars ds_obj].
  - constructor; cbn [q_model ds_dep ds_exprs ds_cons ds_vars ds_obj ds_number]; try discriminate.
    + apply nodup_b_ok. reflexivity.
    + intros c I. cbn [q_cons In] in I. destruct I as [<-|[<-|[]]]; (split; [apply nodup_b_ok; reflexivity|]); intros v J; cbn in J; lia.
    + intros e [].
    + intros v. split; [contradiction|]. intros [_ [E|E]]; exfalso; revert E; destruct v as [|[|v]]; vm_compute; discriminate.
  - reflexivity.
  - reflexivity.
  - intros c I. cbn [q_cons In] in I. destruct I as [<-|[<-|[]]]; reflexivity.
  - apply tame_b_ok. destruct m; vm_compute; reflexivity.
  - intros v _. destruct v as [|[|v]]; vm_compute; split; reflexivity.
  - intros v F. exfalso. revert F. destruct v as [|[|v]]; vm_compute; discriminate.
  - intros v. destruct v as [|[|v]]; vm_compute; (split; [discriminate|]); (split; [intros [E|[E|E]]; first [discriminate E|split; discriminate]|discriminate]).
  - intros c I. cbn [q_cons In] in I. destruct I as [<-|[<-|[]]]; destruct m; (split; [|vm_compute; discriminate]); vm_compute; intros; discriminate.
  - apply decided_zero; [exact q_bounds|vm_compute; reflexivity].
Qed.
Definition q_point (v : nat) : Z := if v <? 2 then 1%Z else 0%Z.
Lemma q_feasible m k : solves (q_model m k) q_point.
Proof.
  constructor; cbn [q_model ds_dep ds_exprs ds_cons ds_vars ds_obj]; [| |discriminate].
  - intros v _. destruct v as [|[|v]]; vm_compute; split; discriminate.
  - intros c I _. cbn [q_cons In] in I. destruct I as [<-|[<-|[]]]; destruct m; vm_compute; discriminate.
Qed.
Lemma q_calm m k : calm_rounds b_switches p_around m (q_model m k) /\ calm_sets b_switches p_around m (q_model m k).
Proof. split; [intros fuel s1 _ X; discriminate X|intros fuel s1 s2 _ _ X; discriminate X]. Qed.
Definition q_result (m : bool) (k : Q) : dstate * list sel := ok_or (prepare 10 b_switches p_around m (q_model m k)) (q_model m k, []).
Lemma q_result_eq m k : prepare 10 b_switches p_around m (q_model m k) = Some (Ok (q_result m k)).
Proof. unfold q_result. destruct m; (destruct (prepare 10 _ _ _ _) as [[r| |]|] eqn:E; [reflexivity| | |]); exfalso; vm_compute in E; discriminate E. Qed.
Lemma q_settled m k : settled (q_result m k).
Proof. apply settled_b_ok; [intros v _; destruct m; vm_compute; reflexivity|]. destruct m; vm_compute; reflexivity. Qed.
Definition q_inputs : inputs := mkIn 0 None None None w_control 0 (-(100))%Q [].
Definition q_pdlp (n : nat) : option (LpModel.poption * list LpModel.penv * bool) :=
  Some (LpModel.mkPo n (1 # 100) 2 1 1 1 true, repeat (LpModel.mkPe false 20 None 1) 8, false).
Definition q_lagrange : option (goptions * bool * list bool) := Some (mkGo 5 (-(100))%Q (1 # 2) 1 (1 # 1000) 3 true, false, repeat false 5).
Definition q_solved (m : bool) (k : Q) (x : relaxations) : option (PresolveModel.outcome (SolverModel.outcome (answer * run))) :=
  solve_relaxed 10 b_switches p_around w_options LpProof6.norm1 LpProof6.pow1 LpProof6.pow1 (fun _ => 1%Q) w_lg (fun q => q) m x q_inputs (q_model m k).
Definition bound_is (b : Q) (o : option (PresolveModel.outcome (SolverModel.outcome (answer * run)))) : bool :=
  match o with Some (Ok out) => Qeq_bool (reported_bound out) b | _ => false end.
Lemma bound_is_ok b o : bound_is b o = true -> exists out, o = Some (Ok out) /\ (reported_bound out == b)%Q.
Proof. unfold bound_is. destruct o as [[out| |]|]; try discriminate. intros E. exists out. split; [reflexivity|]. apply Qeq_bool_iff, E. Qed.
Lemma q_relaxable (m : bool) k n po envs late : (if m then 0 <= k else k <= 0)%Q -> q_pdlp n = Some (po, envs, late) ->
  relaxable LpProof6.norm1 LpProof6.pow1 LpProof6.pow1 (fun _ => 1%Q) m (q_result m k) envs.
Proof.
  intros K E. injection E as <- <- <-. split; [exact LpProof6.pow1_powers|]. split; [exact LpProof6.norm1_like|]. split; [intros q _; reflexivity|].
  split; [intros e I; apply (repeat_spec 8 (LpModel.mkPe false 20 None 1)) in I; subst e; reflexivity|]. split.
  - intros v _. destruct v as [|[|v]]; destruct m; vm_compute; intros _; split; discriminate || reflexivity.
  - replace (ds_obj (fst (q_result m k))) with (mkExpr [(0, 1%Q); (1, 1%Q)] k); [exact K|destruct m; reflexivity].
Qed.

(** One round of a tabu search that reaches (1, 1). *)
Definition q_round : tround := mkTd false w_loptions [] [mkEnv false [shift 0 1 [0; 1]] true 0%Z (fun _ => 1%Z); mkEnv false [shift 1 1 [0; 1]] true 0%Z (fun _ => 1%Z)] 1 1 1 0.
Definition q_moving : inputs := mkIn 0 None None None w_control 1 (-(100))%Q [q_round].
Definition q_searched : option (PresolveModel.outcome (SolverModel.outcome (answer * run))) :=
  solve_relaxed 10 b_switches p_around w_options LpProof6.norm1 LpProof6.pow1 LpProof6.pow1 (fun _ => 1%Q) w_lg (fun q => q) true
    (mkRx (q_pdlp 1) q_lagrange) q_moving (q_model true 0).
Definition gap_is (q b : Q) (o : option (PresolveModel.outcome (SolverModel.outcome (answer * run)))) : bool :=
  match o with Some (Ok (Done (an, rn))) => an_feasible an && Qeq_bool (an_objective an) q && Qeq_bool (reported_bound (Done (an, rn))) b | _ => false end.
Lemma q_gap : exists an rn, q_searched = Some (Ok (Done (an, rn))) /\ an_feasible an = true /\
  (an_objective an == 2)%Q /\ (reported_bound (Done (an, rn)) == 9 # 8)%Q /\
  admissible (zero_one_in (ds_number (fst (q_result true 0))) (ds_vars (fst (q_result true 0)))) (search_state w_options true (q_result true 0)) q_moving.
Proof.
  assert (H : gap_is 2 (9 # 8) q_searched = true) by (vm_compute; reflexivity).
  unfold gap_is in H. destruct q_searched as [[[[an rn]| |]| |]|]; try discriminate. exists an, rn. split; [reflexivity|].
  apply andb_true_iff in H as [H B]. apply andb_true_iff in H as [F O]. split; [exact F|]. split; [apply Qeq_bool_iff, O|]. split; [apply Qeq_bool_iff, B|].
  split; [discriminate|]. split; [discriminate|]. split; [discriminate|]. intros d [<-|[]]. split; [discriminate|]. split; [intros t []|].
  intros e t He Ht. destruct He as [<-|[<-|[]]]; destruct Ht as [<-|[]]; apply shift_ok; vm_compute; reflexivity.
Qed.
Lemma q_too_low out : (reported_bound out == -(72))%Q -> ~ (e_eval (ds_obj (q_model false 0)) q_point <= reported_bound out)%Q.
Proof. intros B H. rewrite B in H. vm_compute in H. apply H. reflexivity. Qed.
Lemma q_too_high out : (reported_bound out == 0)%Q -> ~ (reported_bound out <= e_eval (ds_obj (q_model true (-(100)))) q_point)%Q.
Proof. intros B H. rewrite B in H. vm_compute in H. apply H. reflexivity. Qed.
