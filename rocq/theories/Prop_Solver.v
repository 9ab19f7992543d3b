(** C58: the whole of solve(), after the preparation of the model. *)
From Coq Require Import List ZArith QArith Qabs Lia Lqa Bool.
From Verif Require Import ExprModel ExprSpec ConstraintModel ConstraintSpec EvalModel EvalSpec EvalSpec2 SolutionModel SolutionSpec VariableModel PresolveModel
  SelectionModel SelectionSpec TabuModel LoopModel LoopSpec LocalModel LocalSpec LagrangeModel ControllerModel ControllerSpec SolverModel SolverSpec SolverProof3 SolverProof4 SolverProof5.
Import ListNotations.
Local Open Scope Q_scope.

(** For every prepared problem, all options, all moves offered, all random numbers and
    any clock, solve() ends in one of three ways.  It returns an answer: within
    bounds, with one variable of each selection at 1, fixed variables untouched and
    dependent ones computed, one of the solutions it visited, with its true objective,
    violation and feasibility; feasible if a feasible solution was visited, and then no
    visited feasible solution is better by more than 1e-5; otherwise no visited
    solution has a smaller penalized objective by more than 1e-5.  Or it throws,
    because a visited solution leaves the bounds or selects not exactly one variable.
    Or the penalty coefficients become undefined: a visited solution violates a
    constraint, and none of those it violates was ever counted as violated.
    In all cases every search started from a visited solution, and there were at most
    iteration_max rounds. *)
Theorem C58_solve : forall lg root p a s0 m0 is01, prepared is01 p s0 m0 -> admissible is01 s0 a ->
  match solve lg root p a s0 m0 with
  | Done (an, r) => orderly (in_limit a) r /\ right_answer p s0 r an
  | Rejected r y => orderly (in_limit a) r /\ In y (visited r) /\ ~ valid_start (pb_n p) (placed p y) (pb_sels p)
  | NotANumber r => orderly (in_limit a) r /\ (log_like lg -> unpriceable s0 r)
  end.
Proof.
  intros lg root p a s0 m0 is01 P A. pose proof (solve_ok lg root p a s0 m0 is01 (fun _ => True) P A ltac:(auto) Logic.I ltac:(auto) ltac:(auto) ltac:(auto)) as H. cbv zeta in H.
  destruct (solve lg root p a s0 m0) as [[an r]|r y|r]; destruct H as ((H1 & _) & H2); split; assumption.
Qed.
Print Assumptions C58_solve.

(** However it ends: the penalty coefficients are within 0 and the initial one. *)
Theorem C58_penalties : forall lg root p a s0 m0 is01, prepared is01 p s0 m0 -> admissible is01 s0 a -> well_priced lg root (in_control a) s0 ->
  match solve lg root p a s0 m0 with
  | Done (_, r) | Rejected r _ | NotANumber r => Forall (priced_within (co_initial (in_control a))) (md_cons (ms_model (rn_ms r)))
  end.
Proof.
  intros lg root p a s0 m0 is01 P A W. pose proof (solve_ok lg root p a s0 m0 is01 (fun _ => True) P A ltac:(auto) Logic.I ltac:(auto) ltac:(auto) ltac:(auto)) as H. cbv zeta in H.
  destruct (solve lg root p a s0 m0) as [[an r]|r y|r]; destruct H as ((_ & _ & H1) & _); exact (H1 W).
Qed.
Print Assumptions C58_penalties.

(** If the initial solution is valid, no move offered and neither bound used by the
    Lagrange dual search leaves the bounds, and members of selections are left alone,
    then solve() does not throw, and everything visited is valid. *)
Theorem C58_no_exception : forall lg root p a s0 m0 is01, prepared is01 p s0 m0 -> admissible is01 s0 a -> stays_inside p s0 a ->
  match solve lg root p a s0 m0 with
  | Done (_, r) | NotANumber r => forall y, In y (visited r) -> valid_start (pb_n p) (placed p y) (pb_sels p)
  | Rejected _ _ => False
  end.
Proof. exact solve_inside. Qed.
Print Assumptions C58_no_exception.

(** The status a round hands to the controller: after the start, was the local, the
    global, the feasible incumbent ever improved?  [before pre]: the incumbents when
    the solutions pre have been visited after the start. *)
Theorem C58_round_status : forall h0 first vs,
  let before pre := fold_left (h_step true) (ResetLocal :: Offer (fst first) (snd first) :: map (fun q : (nat -> Z) * score => Offer (fst q) (snd q)) pre) h0 in
  let some P := exists pre y sc post, vs = pre ++ (y, sc) :: post /\ P sc (before pre) in
  (Z.testbit (total_status h0 (first :: vs)) 0 = true <-> some (fun sc h => better (sc_local_aug sc) (sl_obj (ho_local h)))) /\
  (Z.testbit (total_status h0 (first :: vs)) 1 = true <-> some (fun sc h => better (sc_global_aug sc) (sl_obj (ho_global h)))) /\
  (Z.testbit (total_status h0 (first :: vs)) 2 = true <-> some (fun sc h => sc_feasible sc = true /\ better (sc_objective sc) (sl_obj (ho_feasible h)))).
Proof. exact total_status_spec. Qed.
Print Assumptions C58_round_status.

(** The iterations of every round are limited by the larger of the initial tabu tenure
    and the iteration limit of the options, whatever else the options of the round say:
    the rounds visit no more solutions than that allows. *)
Theorem C58_iterations : forall o lg root p limit target ds r,
  (Z.of_nat (length (visited (reached (v_tabu o lg root p limit target ds r)))) <= Z.of_nat (length (visited r)) + most o ds)%Z.
Proof. exact tabu_visits. Qed.
Print Assumptions C58_iterations.

(** ** Example: minimize 3 x0 + x1 - x2 subject to x0 + x1 = 1 (a selection) and
    x1 + x2 + x3 <= 1, x3 fixed at 0, a dependent x4 = x0 + 2 x1; from (1, 0, 0, 0) *)
Definition sv_is01 (v : nat) : bool := Nat.ltb v 4.
Definition sv_cons : list constr :=
  [c_with_pen (c_setup (mkExpr [(0%nat, 1); (1%nat, 1)] (-1)) Equal sv_is01) 10 10;
   c_with_pen (c_setup (mkExpr [(1%nat, 1); (2%nat, 1); (3%nat, 1)] (-1)) Less sv_is01) 10 10].
Definition sv_state : mstate :=
  mkMs (mkM true 1 (mkExpr [(0%nat, 3); (1%nat, 1); (2%nat, -1)] 0) 0 0 sv_cons 100) [(mkExpr [(0%nat, 1); (1%nat, 2)] 0, true, 0)] [(4%nat, 0%nat)]
    (fun v => if Nat.eqb v 0 then 1%Z else 0%Z) (fun v => Nat.eqb v 3) false [] false.
Definition sv_var (v : nat) : var :=
  mkVar 0 0 (if Nat.eqb v 4 then 2 else 1) true (Nat.eqb v 3)
    (if Nat.eqb v 4 then VDependentInteger else if Nat.ltb v 2 then VSelection else if Nat.eqb v 2 then VInteger else VBinary) true true.
Definition sv_problem : problem := mkPb 5 sv_var [mkSel [0; 1]%nat 0%nat [0; 1]%nat (Some 0%nat)] (fun _ => []) true.
Definition sv_flip (n : Z) : tmove := mkTm (KSingle (2%nat, n)) [1%nat] false false false 2.
Definition sv_swap (n : Z) : tmove := mkTm (KMulti [(0%nat, 1 - n)%Z; (1%nat, n)]) [0; 1]%nat false false false 1.
Definition sv_moves : list tmove := [sv_flip 0; sv_flip 1; sv_swap 0; sv_swap 1].
Definition sv_env : env := mkEnv false sv_moves true 0 (fun _ => 1%Z).
Definition sv_loptions : loptions := mkLo 2 (-100) 1 true false (1 # 10) 0 (fun _ => 0) (1 # 2) 0 0 true true true true 2 3.
Definition sv_round : tround := mkTd false sv_loptions [] [sv_env; sv_env; sv_env] 1 1 1 0.
Definition sv_control : copt := mkCo true 100 (9 # 10) (3 # 10) (95 # 100) (1 # 2) (9 # 10) 1 0 5 7 true true false (fun _ => 0%nat) 1 true true (3 # 10) 0 true 2 1 1.
Definition sv_inputs : inputs := mkIn (-10) (Some (-5)) None (Some (mkGloc (mkSo 1 (-100) true true) false [mkSe false [sv_flip 1] true (fun _ => 0%Z)])) sv_control 3 (-100) [sv_round; sv_round; sv_round; sv_round].
Definition sv_lg (n : Z) : Q := inject_Z n.
Ltac distinct := repeat (apply NoDup_cons; [cbn; intuition discriminate|]); apply NoDup_nil.
Ltac whole := match goal with |- exists z, ?q == inject_Z z => let n := eval vm_compute in (Qnum q) in exists n; vm_compute; reflexivity end.
Lemma sv_prepared : prepared sv_is01 sv_problem sv_state mem_setup.
Proof.
  split; [|split; [|split; [|split; [|split; [|split]]]]].
  - split; [split; [intros c [<-|[<-|[]]]; distinct|split; [distinct|intros q [<-|[]]; distinct]]|].
    split; [intros d [<-|[]]; split; [intros c [<-|[<-|[]]] _; cbn; intuition discriminate|cbn; intuition discriminate]|].
    split; [intros q [<-|[]] _ d [<-|[]]; cbn; intuition discriminate|]. split.
    + intros c Hc _. destruct Hc as [<-|[<-|[]]]; (split; [|split; [|split; [|intros _ v Hv; vm_compute in Hv; repeat (destruct Hv as [<-|Hv]; [reflexivity|]); destruct Hv]]]).
      all: try (intros v b Hv; vm_compute in Hv; repeat (destruct Hv as [Hv|Hv]; [injection Hv as <- <-; split; [whole|vm_compute; discriminate]|]); destruct Hv).
      all: whole.
    + intros v _. cbn [sv_state ms_x]. destruct (Nat.eqb v 0); lia.
  - intros d [<-|[]]. split; reflexivity.
  - intros d i [E|[]]. injection E as <- <-. eexists. split; [reflexivity|]. intros d' [<-|[]]. cbn. intuition discriminate.
  - split; [intros [|[|i]] [|[|j]] s t D Hs Ht; try congruence; discriminate|]. intros s [<-|[]]. split; [distinct|]. intros v [<-|[<-|[]]]; reflexivity.
  - intros v Hv. destruct v as [|[|[|[|[|v]]]]]; [..|cbn in Hv; lia]; (split; [vm_compute; discriminate|]); intros H; try discriminate; vm_compute; split; discriminate.
  - intros v Hv. unfold sv_is01 in Hv. apply Nat.ltb_lt in Hv. split; [cbn; lia|]. destruct v as [|[|[|[|v]]]]; [| | | |lia].
    + right. right. eexists. split; [now left|now left].
    + right. right. eexists. split; [now left|right; now left].
    + right. left. vm_compute. split; [reflexivity|split; discriminate].
    + left. reflexivity.
  - intros i. cbn. lia.
Qed.
Lemma sv_trial t : In t sv_moves -> trial_ok sv_is01 sv_state t.
Proof.
  assert (Cv : forall v c i, nth_error (md_cons (ms_model sv_state)) i = Some c -> In v (map fst (ex_sens (ct_expr c))) ->
    In i (related_constraints (md_cons (ms_model sv_state)) v)).
  { intros v c [|[|i]] Hi Hin; cbn in Hi; try (destruct i; discriminate); injection Hi as <-; cbn in Hin;
    repeat (destruct Hin as [<-|Hin]; [vm_compute; tauto|]); destruct Hin. }
  assert (Fl : forall n, (0 <= n <= 1)%Z -> trial_ok sv_is01 sv_state (sv_flip n)).
  { intros n Hn. split; [distinct|]. split; [intros w k [E|[]]; injection E as <- <-; split; [reflexivity|intros _; exact Hn]|]. split; [distinct|].
    split; [|split; [exact Logic.I|discriminate]]. intros i c v Hi _ [<-|[]] Hin. pose proof (Cv _ c i Hi Hin) as K. exact K. }
  assert (Sw : forall n, (0 <= n <= 1)%Z -> trial_ok sv_is01 sv_state (sv_swap n)).
  { intros n Hn. split; [distinct|]. split; [intros w k [E|[E|[]]]; [assert (w = 0%nat) by congruence; assert (k = 1 - n)%Z by congruence|assert (w = 1%nat) by congruence; assert (k = n)%Z by congruence]; subst w k; (split; [reflexivity|intros _; lia])|]. split; [distinct|].
    split; [|split; [exact Logic.I|discriminate]]. intros i c v Hi _ Hv Hin. pose proof (Cv v c i Hi Hin) as K.
    cbn [sv_swap tm_kind tm_related]. destruct Hv as [<-|[<-|[]]]; vm_compute in K; vm_compute; tauto. }
  intros [<-|[<-|[<-|[<-|[]]]]]; [apply Fl|apply Fl|apply Sw|apply Sw]; lia.
Qed.
Lemma sv_admissible : admissible sv_is01 sv_state sv_inputs.
Proof.
  split; [discriminate|]. split; [|split; [discriminate|]].
  - intros g E e t He Ht. injection E as <-. destruct He as [<-|[]]. destruct Ht as [<-|[]]. split; [apply sv_trial; cbn; tauto|].
    intros v n [E|[]]. injection E as <- <-. exists (nth 1 sv_cons (nth 0 sv_cons (c_setup (mkExpr [] 0) Less sv_is01))). split; [right; now left|]. split; [reflexivity|]. cbn. tauto.
  - intros d Hd. assert (d = sv_round) as -> by (cbn in Hd; intuition congruence). split; [discriminate|]. split; [intros t []|].
    intros e t He Ht. assert (e = sv_env) as -> by (cbn in He; intuition congruence). apply sv_trial. exact Ht.
Qed.
Lemma sv_priced : well_priced sv_lg (fun q => q) sv_control sv_state.
Proof.
  split; [repeat split; discriminate|]. split; [split; [reflexivity|intros n H; unfold sv_lg, Qlt; cbn; lia]|]. split; [intros q A B; split; lra|].
  split; [split; discriminate|]. repeat constructor; discriminate.
Qed.
Definition sv_shown (o : outcome (answer * run)) :=
  match o with
  | Done (an, r) => Some (map (an_x an) (seq 0 5), Qred (an_objective an), Qred (an_violation an), an_feasible an, rn_rounds r, length (visited r), length (rn_starts r))
  | _ => None
  end.
Example C58_example : prepared sv_is01 sv_problem sv_state mem_setup /\ admissible sv_is01 sv_state sv_inputs /\ well_priced sv_lg (fun q => q) sv_control sv_state /\
  sv_shown (solve sv_lg (fun q => q) sv_problem sv_inputs sv_state mem_setup) = Some ([1; 0; 1; 0; 1]%Z, 2, 0, true, 3%Z, 12%nat, 4%nat).
Proof. split; [exact sv_prepared|]. split; [exact sv_admissible|]. split; [exact sv_priced|]. vm_compute. reflexivity. Qed.

(** The same with moves of x2 only stays inside. *)
Definition sv_quiet : tround := mkTd false sv_loptions [] [mkEnv false [sv_flip 0; sv_flip 1] true 0 (fun _ => 1%Z)] 1 1 1 0.
Definition sv_inside : inputs := mkIn (-10) (Some (-5)) None (Some (mkGloc (mkSo 1 (-100) true true) false [mkSe false [sv_flip 1] true (fun _ => 0%Z)])) sv_control 3 (-100) [sv_quiet; sv_quiet].
Example C58_inside : admissible sv_is01 sv_state sv_inside /\ stays_inside sv_problem sv_state sv_inside /\
  sv_shown (solve sv_lg (fun q => q) sv_problem sv_inside sv_state mem_setup) = Some ([1; 0; 1; 0; 1]%Z, 2, 0, true, 2%Z, 7%nat, 3%nat).
Proof.
  assert (M : forall n k, (0 <= n <= 1)%Z -> move_allowed sv_problem sv_state (sv_flip n) k).
  { intros n k Hn. split; [|discriminate]. intros v z [E|[]]. injection E as <- <-. split; [discriminate|]. split; [intros _ _; exact Hn|].
    intros (s & [<-|[]] & [E|[E|[]]]); discriminate. }
  destruct sv_admissible as (_ & A2 & A3 & A4). split; [|split].
  - split; [discriminate|]. split; [exact A2|]. split; [exact A3|]. intros d Hd. assert (d = sv_quiet) as -> by (cbn in Hd; intuition congruence).
    split; [discriminate|]. split; [intros t []|]. intros e t [<-|[]] Ht. destruct (A4 sv_round (or_introl eq_refl)) as (_ & _ & K). apply (K sv_env t); [now left|].
    destruct Ht as [<-|[<-|[]]]; [now left|right; now left].
  - split; [|split; [|split; [|split]]].
    + split.
      * intros s [<-|[]]. exists 0%nat. split; [now left|]. split; [reflexivity|]. intros w [<-|[<-|[]]] D; [congruence|reflexivity].
      * intros v Hv. do 5 (destruct v as [|v]; [split; intros K; try discriminate K; cbn; lia|]). cbn in Hv. lia.
    + intros d [<-|[]]. split; [discriminate|]. split; [discriminate|]. intros s [<-|[]]. cbn. intuition discriminate.
    + discriminate.
    + intros g e t Hg He Ht. assert (g = mkGloc (mkSo 1 (-100) true true) false [mkSe false [sv_flip 1] true (fun _ => 0%Z)]) as -> by (unfold sv_inside in Hg; cbn [in_local] in Hg; congruence).
      destruct He as [<-|[]]. destruct Ht as [<-|[]]. apply M. lia.
    + intros d Hd. assert (d = sv_quiet) as -> by (cbn in Hd; intuition congruence). split; [intros t v n []|]. intros e t [<-|[]] Ht. destruct Ht as [<-|[<-|[]]]; apply M; lia.
  - vm_compute. reflexivity.
Qed.

(** ** Exceptions *)

(** The coefficients can really be lost: minimize 10 x0 subject to x0 >= 1 with the
    initial coefficient 1, from x0 = 0, one iteration per round.  The move to x0 = 1
    makes the only constraint satisfied before it was ever counted as violated; the
    local incumbent stays x0 = 0. *)
Definition nan_state : mstate :=
  mkMs (mkM true 1 (mkExpr [(0%nat, 10)] 0) 0 0 [c_with_pen (c_setup (mkExpr [(0%nat, 1)] (-1)) Greater (fun v => Nat.eqb v 0)) 1 1] 1) [] []
    (fun _ => 0%Z) (fun _ => false) false [] false.
Definition nan_problem : problem := mkPb 1 (fun _ => mkVar 0 0 1 true false VBinary true true) [] (fun _ => []) true.
Definition nan_flip : tmove := mkTm (KSingle (0%nat, 1%Z)) [0%nat] false false false 0.
Definition nan_control : copt := mkCo true 1 (9 # 10) (3 # 10) (95 # 100) (1 # 2) (9 # 10) 1 0 5 7 true true false (fun _ => 0%nat) 1 true true (3 # 10) 0 true 1 1 1.
Definition nan_round : tround :=
  mkTd false (mkLo 1 (-100) 1 true false (1 # 10) 0 (fun _ => 0) (1 # 2) 0 0 true true true true 1 1) [] (repeat (mkEnv false [nan_flip] true 0 (fun _ => 1%Z)) 2) 1 1 1 0.
Definition nan_inputs : inputs := mkIn 0 None None None nan_control 3 (-100) [nan_round; nan_round].
Theorem C58_not_a_number_refuted :
  ~ (forall lg root p a s0 m0 is01, prepared is01 p s0 m0 -> admissible is01 s0 a -> well_priced lg root (in_control a) s0 ->
     match solve lg root p a s0 m0 with NotANumber _ => False | _ => True end).
Proof.
  intros H. specialize (H sv_lg (fun q => q) nan_problem nan_inputs nan_state mem_setup (fun v => Nat.eqb v 0)).
  assert (X : match solve sv_lg (fun q => q) nan_problem nan_inputs nan_state mem_setup with NotANumber _ => False | _ => True end).
  { apply H; clear H.
    - split; [|split; [intros d []|split; [intros d i []|split; [|split; [|split]]]]].
      + split; [split; [intros c [<-|[]]; distinct|split; [distinct|intros q []]]|]. split; [intros d []|]. split; [intros q []|]. split; [|intros; cbn; lia].
        intros c [<-|[]] _. split; [|split; [whole|split; [whole|intros _ v [<-|[]]; reflexivity]]].
        intros v b [E|[]]. injection E as <- <-. split; [whole|vm_compute; discriminate].
      + split; [intros [|i] j s t D Hs; discriminate|intros s []].
      + intros v _. split; [vm_compute; discriminate|intros _; vm_compute; split; discriminate].
      + intros v Hv. apply Nat.eqb_eq in Hv. subst v. split; [cbn; lia|left; reflexivity].
      + intros i. cbn. lia.
    - split; [discriminate|]. split; [discriminate|]. split; [discriminate|]. intros d Hd. assert (d = nan_round) as -> by (cbn in Hd; intuition congruence).
      split; [discriminate|]. split; [intros t []|]. intros e t He Ht. assert (t = nan_flip) as -> by (apply repeat_spec in He; subst e; cbn in Ht; intuition congruence).
      split; [distinct|]. split; [intros w k [E|[]]; injection E as <- <-; split; [reflexivity|intros _; lia]|]. split; [distinct|].
      split; [|split; [exact Logic.I|discriminate]]. intros [|i] c v Hi _ _ _; [now left|destruct i; discriminate].
    - split; [repeat split; discriminate|]. split; [split; [reflexivity|intros n K; unfold sv_lg, Qlt; cbn; lia]|]. split; [intros q A B; split; lra|].
      split; [split; discriminate|]. repeat constructor; discriminate. }
  assert (E : match solve sv_lg (fun q => q) nan_problem nan_inputs nan_state mem_setup with NotANumber _ => false | _ => true end = false) by (vm_compute; reflexivity).
  destruct (solve sv_lg (fun q => q) nan_problem nan_inputs nan_state mem_setup); [discriminate|discriminate|exact X].
Qed.
Print Assumptions C58_not_a_number_refuted.
