(** Proofs for C74: the models of the refutations. *)
From Coq Require Import List NArith ZArith QArith Qabs Bool Arith Lia Lqa.
From Verif Require Import ExprModel ExprSpec ConstraintModel ConstraintSpec VariableModel TypeModel TypeSpec PresolveModel PresolveSpec
  DuplicateModel DependentModel DependentSpec SelectionModel SelectionSpec PrepareModel PrepareSpec EvalModel EvalSpec EvalSpec2 TabuModel LoopModel LoopSpec LocalModel LocalSpec
  ControllerModel SolverModel SolverSpec WholeModel WholeSpec.
From Verif Require Import DependentProof6 PrepareProof PrepareProof4 PrepareProof5 PrepareProof6 WholeProof4.
Import ListNotations.
Local Open Scope nat_scope.

(** ** A coefficient that grows when variables are eliminated *)
(** x0 + x2 = 1, x1 + x2 = 1, x0 + x1 + x3 - x4 <= 2; minimize - x0 - x3, from x2 = x3 = 1. *)
Definition t_vars : vars := fun v => if v <? 5 then mkVar (if (v =? 2) || (v =? 3) then 1%Z else 0%Z) 0 1 true false VBinary false true else pv 0 0.
Definition t_con (l : list (nat * Q)) (k : Q) (s : csense) : constr := c_setup (mkExpr l k) s (is01_of t_vars).
Definition t_cons : list constr :=
  [t_con [(0, 1%Q); (2, 1%Q)] (-(1))%Q Equal; t_con [(1, 1%Q); (2, 1%Q)] (-(1))%Q Equal; t_con [(0, 1%Q); (1, 1%Q); (3, 1%Q); (4, (-(1))%Q)] (-(2))%Q Less].
Definition t_obj : expr := mkExpr [(0, (-(1))%Q); (3, (-(1))%Q)] 0%Q.
Definition t_model : dstate := mkD 5 t_vars t_cons t_obj [] (fun _ => None).
Definition t_start (v : nat) : Z := match v with 2 | 3 => 1%Z | _ => 0%Z end.
Ltac all5 v := destruct v as [|[|[|[|[|v]]]]].
Lemma t_bounds v : (va_lower (t_vars v) <= 0 <= va_upper (t_vars v))%Z.
Proof. all5 v; vm_compute; split; discriminate. Qed.
Lemma t_proper : proper_model t_model.
Proof.
  constructor; cbn [t_model ds_dep ds_exprs ds_cons ds_vars ds_obj].
  - constructor; cbn [t_model ds_dep ds_exprs ds_cons ds_vars ds_obj ds_number].
    + apply nodup_b_ok. reflexivity.
    + intros c I. cbn [t_cons In] in I. destruct I as [<-|[<-|[<-|[]]]]; (split; [apply nodup_b_ok; reflexivity|]); intros v J; cbn in J; lia.
    + intros e [].
    + intros v. split; [contradiction|]. intros [L [E|E]]; exfalso; revert E; all5 v; vm_compute; discriminate.
    + discriminate.
    + discriminate.
  - reflexivity.
  - reflexivity.
  - intros c I. cbn [t_cons In] in I. destruct I as [<-|[<-|[<-|[]]]]; reflexivity.
  - apply tame_b_ok. vm_compute. reflexivity.
  - intros v _. all5 v; vm_compute; split; reflexivity.
  - intros v F. exfalso. revert F. all5 v; vm_compute; discriminate.
  - intros v. unfold PrepareSpec.sound. all5 v; vm_compute; (split; [discriminate|]); (split; [|discriminate]); intros H; split; try discriminate; destruct H as [H|[H|H]]; discriminate.
  - intros c I. split.
    + intros F. apply (flags_b_ok t_cons); [vm_compute; reflexivity|exact I| |exact F].
      cbn [t_cons In] in I. destruct I as [<-|[<-|[<-|[]]]]; reflexivity.
    + cbn [t_cons In] in I. destruct I as [<-|[<-|[<-|[]]]]; vm_compute; intros F; try discriminate; intros v J; repeat (destruct J as [<-|J]; [now left|]); destruct J.
  - apply decided_zero; [exact t_bounds|vm_compute; reflexivity].
Qed.
Lemma t_solves (x : nat -> Z) : (forall v, va_lower (t_vars v) <= x v <= va_upper (t_vars v))%Z -> (forall c, In c t_cons -> TypeSpec.satisfies c x) -> solves t_model x.
Proof.
  intros B C. constructor; cbn [t_model ds_dep ds_exprs ds_cons ds_vars ds_obj].
  - intros v _. assert (F : va_fixed (t_vars v) = false) by (all5 v; vm_compute; reflexivity). unfold within. rewrite F. exact (B v).
  - intros c I _. exact (C c I).
  - discriminate.
Qed.
Lemma t_feasible : solves t_model t_start.
Proof.
  apply t_solves; [intros v; all5 v; vm_compute; split; discriminate|].
  intros c I. cbn [t_cons In] in I. destruct I as [<-|[<-|[<-|[]]]]; vm_compute; try reflexivity; discriminate.
Qed.
Definition t_reduced : dstate := ok_or (prepare_reduce 10 p_switches p_around true t_model) t_model.
Definition t_extracted : dstate := match extract (fun _ => true) (fun v => v) t_reduced with Some (_, s) => s | None => t_model end.
Definition t_eliminated : dstate := match eliminate_loop 3 t_extracted with Some s => s | None => t_model end.
Definition t_size : pstate := ok_or (reduce_problem_size 10 true (coef (ex_sens (ds_obj t_eliminated)))
  (mkP (ds_number t_eliminated) (ds_vars t_eliminated) (ds_cons t_eliminated))) (mkP 0 t_vars []).
Definition t_after : dstate := after t_eliminated t_size.
Lemma t_reduced_eq : prepare_reduce 10 p_switches p_around true t_model = Some (Ok t_reduced).
Proof. unfold t_reduced. destruct (prepare_reduce 10 p_switches p_around true t_model) as [[s| |]|] eqn:E; try reflexivity; exfalso; vm_compute in E; discriminate E. Qed.
Lemma t_extracted_eq : extract (fun _ => true) (fun v => v) t_reduced = Some (2, t_extracted).
Proof.
  unfold t_extracted. destruct (extract (fun _ => true) (fun v => v) t_reduced) as [[k s]|] eqn:E; [|exfalso; vm_compute in E; discriminate E].
  assert (K : match extract (fun _ => true) (fun v => v) t_reduced with Some (k, _) => k | None => 0 end = 2) by (vm_compute; reflexivity). rewrite E in K. congruence.
Qed.
Lemma t_eliminated_eq : eliminate_loop 3 t_extracted = Some t_eliminated.
Proof. unfold t_eliminated. destruct (eliminate_loop 3 t_extracted) as [s|] eqn:E; [reflexivity|]. exfalso. vm_compute in E. discriminate E. Qed.
Lemma t_size_eq : reduce_problem_size 10 true (coef (ex_sens (ds_obj t_eliminated))) (mkP (ds_number t_eliminated) (ds_vars t_eliminated) (ds_cons t_eliminated)) = Some (Ok t_size).
Proof. unfold t_size. destruct (reduce_problem_size 10 true _ _) as [[s| |]|] eqn:E; try reflexivity; exfalso; vm_compute in E; discriminate E. Qed.
Lemma t_after_eq : exists s, extract (fun _ => true) (fun v => v) t_after = Some (0, s).
Proof.
  destruct (extract (fun _ => true) (fun v => v) t_after) as [[k s]|] eqn:E; [|exfalso; vm_compute in E; discriminate E].
  assert (K : match extract (fun _ => true) (fun v => v) t_after with Some (k, _) => k | None => 1 end = 0) by (vm_compute; reflexivity). rewrite E in K. subst k. eauto.
Qed.
Lemma t_extracted_dep v : ds_dep t_extracted v = match v with 0 => Some 0 | 1 => Some 1 | _ => None end.
Proof. all5 v; vm_compute; reflexivity. Qed.
Lemma t_extracted_exprs : ds_exprs t_extracted = [mkExpr [(2, (-(1))%Q)] 1%Q; mkExpr [(2, (-(1))%Q)] 1%Q].
Proof. vm_compute. reflexivity. Qed.
Lemma t_acyclic : acyclic t_extracted.
Proof.
  exists (fun _ => 0). intros v k w E J N. exfalso. rewrite t_extracted_exprs in J. rewrite t_extracted_dep in E, N.
  destruct k as [|[|k]]; cbn in J; [destruct J as [<-|[]]|destruct J as [<-|[]]|destruct k; destruct J]; apply N; reflexivity.
Qed.
Lemma t_calm f : calm f (fun _ => true) (fun v => v) true t_reduced.
Proof.
  destruct f as [|f]; [exact Logic.I|]. cbn [calm]. rewrite t_extracted_eq. split; [exact t_acyclic|].
  destruct (eliminate_loop (S f) t_extracted) as [t|] eqn:E; [|exact Logic.I].
  assert (t = t_eliminated).
  { apply (eliminate_more _ (S f + 3)) in E; [|lia]. pose proof (eliminate_more _ (S f + 3) _ _ t_eliminated_eq ltac:(lia)). congruence. }
  subst t. clear E. split; [apply tame_b_ok; vm_compute; reflexivity|]. split.
  { apply decided_zero; [|vm_compute; reflexivity]. intros v. all5 v; vm_compute; split; discriminate. }
  split; [apply whole_b_ok; vm_compute; reflexivity|]. split; [apply flags_b_ok; vm_compute; reflexivity|].
  destruct (reduce_problem_size (S f) true _ _) as [[p| |]|] eqn:E; try exact Logic.I.
  assert (p = t_size).
  { apply (size_more _ (S f + 10)) in E; [|lia]. pose proof (size_more _ (S f + 10) _ _ _ _ t_size_eq ltac:(lia)). congruence. }
  subst p. change (calm f (fun _ => true) (fun v => v) true t_after). destruct f as [|f]; [exact Logic.I|]. cbn [calm]. destruct t_after_eq as [s ->]. exact Logic.I.
Qed.
Definition t_defined : dstate := ok_or (prepare_dependents 10 p_switches p_around true t_reduced) t_model.
Lemma t_defined_eq : prepare_dependents 10 p_switches p_around true t_reduced = Some (Ok t_defined).
Proof. unfold t_defined. destruct (prepare_dependents 10 _ _ _ _) as [[s| |]|] eqn:E; try reflexivity; exfalso; vm_compute in E; discriminate E. Qed.
Lemma t_calm_rounds : calm_rounds p_switches p_around true t_model.
Proof. intros fuel s1 E _ _ f. rewrite (reduce_same _ _ _ _ _ _ _ _ E t_reduced_eq). exact (t_calm f). Qed.
Lemma t_calm_sets : calm_sets p_switches p_around true t_model.
Proof.
  intros fuel s1 s2 E E2 _ _. rewrite (reduce_same _ _ _ _ _ _ _ _ E t_reduced_eq) in E2. rewrite (dependents_same _ _ _ _ _ _ _ _ E2 t_defined_eq).
  left. intros v. all5 v; vm_compute; reflexivity.
Qed.
Definition t_result : dstate * list sel := ok_or (prepare 10 p_switches p_around true t_model) (t_model, []).
Lemma t_result_eq : prepare 10 p_switches p_around true t_model = Some (Ok t_result).
Proof. unfold t_result. destruct (prepare 10 _ _ _ _) as [[r| |]|] eqn:E; try reflexivity; exfalso; vm_compute in E; discriminate E. Qed.
Definition t_round : tround := mkTd false w_loptions [] [mkEnv false [shift 2 0 [2]] true 0%Z (fun _ => 1%Z)] 1 1 1 0.
Definition t_inputs : inputs := mkIn 0 None None None w_control 1 (-(100))%Q [t_round].
Lemma t_admissible : admissible (zero_one_in (ds_number (fst t_result)) (ds_vars (fst t_result))) (search_state w_options true t_result) t_inputs.
Proof.
  split; [discriminate|]. split; [discriminate|]. split; [discriminate|]. intros d [<-|[]]. split; [discriminate|]. split; [intros t []|].
  intros e t [<-|[]] [<-|[]]. apply shift_ok. vm_compute. reflexivity.
Qed.
Definition outcome_of (o : option (PresolveModel.outcome (SolverModel.outcome (answer * run)))) : option (answer * run) :=
  match o with Some (Ok (Done q)) => Some q | _ => None end.
Definition t_solved := solve_model 10 p_switches p_around w_options w_lg (fun q => q) true t_inputs t_model.
Lemma t_shown : shown 5 t_solved = Some ([1; 1; 0; 1; 0]%Z, (-(2))%Q, 1%Q, false, 3).
Proof. vm_compute. reflexivity. Qed.

Lemma shown_done n o x ob vi fe k : shown n o = Some (x, ob, vi, fe, k) -> exists an rn, o = Some (Ok (Done (an, rn))) /\ map (an_x an) (seq 0 n) = x /\ an_feasible an = fe.
Proof. destruct o as [[[[an rn]| |]| |]|]; try discriminate. intros H. injection H as H1 H2 H3 H4 H5. exists an, rn. repeat split; assumption. Qed.
Lemma t_result_number : ds_number (fst t_result) = 5.
Proof. vm_compute. reflexivity. Qed.
(** The start is among the visited solutions. *)
Definition t_visited : bool := match t_solved with
  | Some (Ok (Done (_, rn))) => existsb (fun y => forallb (fun v => (y v =? t_start v)%Z) (seq 0 5)) (visited rn) | _ => false end.
Lemma t_visited_eq : t_visited = true.
Proof. vm_compute. reflexivity. Qed.
Lemma t_stale : exists an rn, t_solved = Some (Ok (Done (an, rn))) /\ an_feasible an = false /\ exists y, In y (visited rn) /\ forall v, v < 5 -> y v = t_start v.
Proof.
  destruct (shown_done _ _ _ _ _ _ _ t_shown) as (an & rn & E & _ & F). exists an, rn. split; [exact E|]. split; [exact F|].
  pose proof t_visited_eq as V. unfold t_visited in V. rewrite E in V. apply existsb_exists in V as (y & I & H). exists y. split; [exact I|].
  rewrite forallb_forall in H. intros v L. apply Z.eqb_eq, H, in_seq. lia.
Qed.

(** ** Bounds of a binary variable without presolve *)
(** One variable with the bounds [1, 1], which makes it binary, and the value 0. *)
Definition b_vars : vars := fun v => if v =? 0 then mkVar 0 1 1 true false VBinary true false else pv 0 0.
Definition b_model : dstate := mkD 1 b_vars [] (mkExpr [(0, 1%Q)] 0%Q) [] (fun _ => None).
Definition b_switches : switches := mkSw false false false false false (fun _ => false) Off false.
Definition b_inputs : inputs := mkIn 0 None None None w_control 1 (-(100))%Q [].
Lemma b_proper : proper_model b_model.
Proof.
  constructor; cbn [b_model ds_dep ds_exprs ds_cons ds_vars ds_obj].
  - constructor; cbn [b_model ds_dep ds_exprs ds_cons ds_vars ds_obj ds_number]; try discriminate.
    + apply nodup_b_ok. reflexivity.
    + intros c [].
    + intros e [].
    + intros v. split; [contradiction|]. intros [_ [E|E]]; exfalso; revert E; destruct v; vm_compute; discriminate.
  - reflexivity.
  - reflexivity.
  - intros c [].
  - intros c [].
  - intros v _. destruct v; vm_compute; split; reflexivity.
  - intros v F. exfalso. revert F. destruct v; vm_compute; discriminate.
  - intros v. destruct v; vm_compute; (split; [discriminate|]); (split; [intros _; split; discriminate|discriminate]).
  - intros c [].
  - intros v _ _. destruct v as [|v]; [left; vm_compute; discriminate|]. right. split; [reflexivity|vm_compute; split; discriminate].
Qed.
Lemma b_feasible : solves b_model (fun v => if v =? 0 then 1%Z else 0%Z).
Proof.
  constructor; cbn [b_model ds_dep ds_exprs ds_cons ds_vars ds_obj]; [|intros c []|discriminate]. intros v _. destruct v; vm_compute; split; discriminate.
Qed.
Lemma b_calm : calm_rounds b_switches p_around true b_model /\ calm_sets b_switches p_around true b_model.
Proof. split; [intros fuel s1 _ X; discriminate X|intros fuel s1 s2 _ _ X; discriminate X]. Qed.
Definition b_result : dstate * list sel := ok_or (prepare 10 b_switches p_around true b_model) (b_model, []).
Lemma b_result_eq : prepare 10 b_switches p_around true b_model = Some (Ok b_result).
Proof. unfold b_result. destruct (prepare 10 _ _ _ _) as [[r| |]|] eqn:E; try reflexivity; exfalso; vm_compute in E; discriminate E. Qed.
Lemma b_admissible : admissible (zero_one_in (ds_number (fst b_result)) (ds_vars (fst b_result))) (search_state w_options true b_result) b_inputs.
Proof. split; [discriminate|]. split; [discriminate|]. split; [discriminate|]. intros d []. Qed.
Definition b_solved := solve_model 10 b_switches p_around w_options w_lg (fun q => q) true b_inputs b_model.
Lemma b_shown : shown 1 b_solved = Some ([0]%Z, 0%Q, 0%Q, true, 1).
Proof. vm_compute. reflexivity. Qed.
Lemma b_wrong : exists an rn, b_solved = Some (Ok (Done (an, rn))) /\ an_feasible an = true /\ ~ solution_of b_model true an.
Proof.
  destruct (shown_done _ _ _ _ _ _ _ b_shown) as (an & rn & E & X & F). exists an, rn. split; [exact E|]. split; [exact F|].
  intros (x & A & S & _). cbn in X. injection X as X. pose proof (sv_range _ _ S 0) as B. cbn [b_model ds_dep ds_vars b_vars] in B. specialize (B eq_refl).
  rewrite (A 0) in B by (cbn; lia). rewrite X in B. cbn in B. lia.
Qed.

(** ** The models are as they are entered *)
Lemma p_entered : as_entered p_model.
Proof.
  constructor; cbn [p_model ds_cons ds_vars ds_obj ds_number].
  - intros c I. cbn [p_cons In] in I. destruct I as [<-|[<-|[<-|[<-|[<-|[]]]]]]; eexists; eexists; (split; [reflexivity|]); apply int_b_ok; reflexivity.
  - intros v. every v; vm_compute; auto.
  - intros v J. cbn in J. lia.
Qed.
Lemma t_entered : as_entered t_model.
Proof.
  constructor; cbn [t_model ds_cons ds_vars ds_obj ds_number].
  - intros c I. cbn [t_cons In] in I. destruct I as [<-|[<-|[<-|[]]]]; eexists; eexists; (split; [reflexivity|]); apply int_b_ok; reflexivity.
  - intros v. all5 v; vm_compute; auto.
  - intros v J. cbn in J. lia.
Qed.
Lemma b_entered : as_entered b_model.
Proof.
  constructor; cbn [b_model ds_cons ds_vars ds_obj ds_number]; [intros c []| |].
  - intros v. destruct v; vm_compute; auto.
  - intros v J. cbn in J. lia.
Qed.
