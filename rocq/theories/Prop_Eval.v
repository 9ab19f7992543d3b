(** C11-C15: evaluation of moves and update of the whole model. *)
From Coq Require Import List ZArith QArith Qabs Permutation Lia Lqa.
From Verif Require Import ExprModel ExprSpec ConstraintModel ConstraintSpec EvalModel EvalSpec EvalSpec2
  ConstraintProof EvalProof EvalProof2 EvalProof3.
Import ListNotations.
Local Open Scope Q_scope.

(** The model used in the examples: 3 x0 - x2 -> min;
    x0 + x1 + x2 - 1 <= 0, 2 x0 - x1 - x3 = 0, 2 x1 + 4 >= 0 (has a margin). *)
Definition ex_cons : list constr :=
  [c_with_pen (c_setup (mkExpr [(0%nat, 1); (1%nat, 1); (2%nat, 1)] (-1)) Less (fun _ => true)) 10 10;
   c_with_pen (c_setup (mkExpr [(0%nat, 2); (1%nat, -1); (3%nat, -1)] 0) Equal (fun _ => true)) 5 7;
   c_with_pen (c_setup (mkExpr [(1%nat, 2)] 4) Greater (fun _ => true)) 10 10].
Definition ex_state : mstate :=
  mkMs (mkM true 1 (mkExpr [(0%nat, 3); (2%nat, -1)] 0) 0 0 ex_cons 100)
       [(mkExpr [(0%nat, 1); (1%nat, 1)] 0, true, 0)] [] (fun v => if Nat.eqb v 0 then 1%Z else 0%Z) (fun _ => false) false [] false.
Definition ex_moves : list (alterations * list nat) :=
  [([(1%nat, 1%Z)], [0; 1; 2]%nat); ([(0%nat, 0%Z); (2%nat, 1%Z)], [0; 1]%nat)].

(** ** C11 *)

(** Full evaluation is evaluation from scratch. *)
Theorem C11_full_evaluation : forall (md : model) (x : nat -> Z) (m : alterations),
  consistent md x -> NoDup (map fst m) ->
  scores md x (apply_move x m) (evaluate md x m).
Proof. exact full_correct. Qed.
Print Assumptions C11_full_evaluation.

(** The evaluator for one-variable moves, for every order of the variable's
    sensitivity list. *)
Theorem C11_single_move_score : forall (md : model) (x : nat -> Z) (v : nat) (n : Z) (cs : list (nat * Q)) (cur : score),
  consistent md x -> current md x cur ->
  Permutation cs (constraint_sensitivities (md_cons md) v) -> margin_truthful md x v n ->
  scores md x (apply_move x [(v, n)]) (evaluate_single md x (v, n) cs cur).
Proof. exact single_correct. Qed.
Print Assumptions C11_single_move_score.

(** The margin flag is truthful after any history of a constraint with integral
    data, as long as its 0/1 variables take values 0 and 1. *)
Theorem C11_margin_flag_truthful :
  forall (e : expr) (s : csense) (is01 : nat -> bool) (x0 : nat -> Z) (es : list c_event) (x : nat -> Z) (n : Z),
  NoDup (map fst (ex_sens e)) -> setup_integral e -> Forall event_proper es ->
  let r := fold_left c_step es (c_update (c_setup e s is01) x0, x0) in
  let c := fst r in
  snd r = x -> forall v a, ct_has_margin c = true -> In (v, a) (ex_sens (ct_expr c)) ->
  (forall w, In w (map fst (ex_sens e)) -> is01 w = true -> (0 <= x w <= 1)%Z) ->
  (is01 v = true -> (0 <= n <= 1)%Z) ->
  (Z.abs (n - x v) <= 1)%Z /\ Qabs a <= ct_margin c /\
  ct_margin c == match ct_sense c with Less => below c x | Equal => 0 | Greater => above c x end.
Proof. exact margin_truthful_setup. Qed.
Print Assumptions C11_margin_flag_truthful.

(** States reached by update() and moves are consistent, and the score of the
    empty move is a valid current score. *)
Theorem C11_reached_states_consistent : forall (s0 : mstate) (ms : list (alterations * list nat)),
  model_wf s0 ->
  (forall p, In p (ms_exprs s0) -> snd (fst p) = true ->
     forall d, In d (map fst (ms_deps s0)) -> ~ In d (keys (fst (fst p)))) ->
  Forall (move_ok s0) ms ->
  let s := ms_run (ms_update s0) ms in
  consistent (ms_model s) (ms_x s) /\ current (ms_model s) (ms_x s) (evaluate (ms_model s) (ms_x s) []).
Proof.
  exact (fun s0 ms W Hd H => let C := proj2 (reached_consistent s0 ms W Hd H) in conj C (evaluate_current _ _ C)).
Qed.
Print Assumptions C11_reached_states_consistent.

Lemma ex_wf : model_wf ex_state.
Proof.
  split; [|split].
  - intros c [<-|[<-|[<-|[]]]]; repeat constructor; cbn; intuition discriminate.
  - repeat constructor; cbn; intuition discriminate.
  - intros p [<-|[]]; repeat constructor; cbn; intuition discriminate.
Qed.
Lemma ex_moves_ok : Forall (move_ok ex_state) ex_moves.
Proof.
  constructor; [|constructor; [|constructor]].
  - split; [repeat constructor; intros []|]. split; [reflexivity|]. right.
    split; [repeat constructor; cbn; intuition discriminate|].
    intros [|[|[|[|i]]]] c v Hn _ _ _; cbn in *; try discriminate; auto.
  - split; [repeat constructor; cbn; intuition discriminate|]. split; [reflexivity|]. right.
    split; [repeat constructor; cbn; intuition discriminate|].
    intros [|[|[|[|i]]]] c v Hn _ Hv Hin; cbn in *; try discriminate; auto.
    injection Hn as <-. cbn in Hin. destruct Hv as [<-|[<-|[]]]; destruct Hin as [Hin|[]]; discriminate.
Qed.
Lemma ex_reached : let s := ms_run (ms_update ex_state) ex_moves in
  consistent (ms_model s) (ms_x s) /\ current (ms_model s) (ms_x s) (evaluate (ms_model s) (ms_x s) []).
Proof. apply C11_reached_states_consistent; [exact ex_wf|intros p _ _ d []|exact ex_moves_ok]. Qed.

(** In that state x = (0,1,1,0); moving x1 to 0: the third constraint is skipped
    by its margin flag, the first two improve. *)
Example C11_example : let s := ms_run (ms_update ex_state) ex_moves in
  consistent (ms_model s) (ms_x s) /\ current (ms_model s) (ms_x s) (evaluate (ms_model s) (ms_x s) []) /\
  margin_truthful (ms_model s) (ms_x s) 1 0 /\
  map ct_has_margin (md_cons (ms_model s)) = [false; false; true] /\
  sc_violation (evaluate (ms_model s) (ms_x s) []) == 2 /\
  sc_violation (evaluate_single (ms_model s) (ms_x s) (1%nat, 0%Z)
     (constraint_sensitivities (md_cons (ms_model s)) 1) (evaluate (ms_model s) (ms_x s) [])) == 0.
Proof.
  cbv zeta. destruct ex_reached as [H1 H2]. split; [exact H1|]. split; [exact H2|]. split.
  - intros c a Hc He Hm Hin. vm_compute in Hc. destruct Hc as [<-|[<-|[<-|[]]]]; try discriminate Hm.
    vm_compute in Hin. destruct Hin as [E|[]]. injection E as <-. vm_compute. repeat split; intros; discriminate.
  - split; [reflexivity|]. split; vm_compute; reflexivity.
Qed.

(** Without truthful flags the evaluator is wrong: the binary-variable flag is
    computed when the constraint is created; if the bounds of x0 are widened
    afterwards, the constraint x0 - 1 <= 0 at x0 = -1 is skipped although x0 = 5
    violates it by 4. *)
Theorem C11_stale_binary_flag_refuted :
  exists (c : constr) (x : nat -> Z),
  let md := mkM true 1 (mkExpr [] 0) 0 0 [c_update c x] 1 in
  let cur := evaluate md x [] in
  consistent md x /\ current md x cur /\
  sc_violation (evaluate md x [(0%nat, 5%Z)]) == 4 /\
  sc_violation (evaluate_single md x (0%nat, 5%Z) (constraint_sensitivities (md_cons md) 0) cur) == 0.
Proof.
  exists (c_setup (mkExpr [(0%nat, 1)] (-1)) Less (fun _ => true)), (fun _ => (-1)%Z). cbv zeta.
  assert (C : consistent (mkM true 1 (mkExpr [] 0) 0 0 [c_update (c_setup (mkExpr [(0%nat, 1)] (-1)) Less (fun _ => true)) (fun _ => (-1)%Z)] 1) (fun _ => (-1)%Z)).
  { split; [intros c [<-|[]]; repeat constructor; intros []|]. split; [constructor|]. split.
    - intros c [<-|[]] _. apply refresh_agrees. reflexivity.
    - intros _. split; reflexivity. }
  split; [exact C|]. split; [apply evaluate_current, C|]. split; vm_compute; reflexivity.
Qed.
Print Assumptions C11_stale_binary_flag_refuted.

(** ** C12 *)

Theorem C12_multi_move_score :
  forall (md : model) (x : nat -> Z) (m : alterations) (related : list nat) (cur : score),
  consistent md x -> current md x cur -> NoDup (map fst m) ->
  NoDup related -> covers (md_cons md) (map fst m) related -> no_tiny_change md x (apply_move x m) ->
  scores md x (apply_move x m) (evaluate_multi md x m related cur) /\
  (sc_feas_improvable (evaluate_multi md x m related cur) = true <->
   exists c, In c (md_cons md) /\ ct_enabled c = true /\ viol c (apply_move x m) < viol c x - EPS).
Proof. exact multi_correct. Qed.
Print Assumptions C12_multi_move_score.

(** Integral coefficients never change by a tiny amount. *)
Theorem C12_integral_models_have_no_tiny_change :
  forall (md : model) (x : nat -> Z) (m : alterations),
  (forall c, In c (md_cons md) -> NoDup (map fst (ex_sens (ct_expr c)))) -> NoDup (map fst m) ->
  (forall c, In c (md_cons md) -> ct_enabled c = true ->
     forall v a, In (v, a) (ex_sens (ct_expr c)) -> exists z, a == inject_Z z) ->
  no_tiny_change md x (apply_move x m).
Proof. exact no_tiny_integral. Qed.
Print Assumptions C12_integral_models_have_no_tiny_change.

(** With arbitrary coefficients the reported violation is off by at most 1e-10
    per related constraint. *)
Theorem C12_multi_within_tolerance :
  forall (md : model) (x : nat -> Z) (m : alterations) (related : list nat) (cur : score),
  consistent md x -> current md x cur -> NoDup (map fst m) ->
  NoDup related -> covers (md_cons md) (map fst m) related ->
  Qabs (sc_violation (evaluate_multi md x m related cur)
        - sum_enabled (fun c => viol c (apply_move x m)) (md_cons md))
  <= (1 # 10000000000) * inject_Z (Z.of_nat (length related)).
Proof. exact multi_close. Qed.
Print Assumptions C12_multi_within_tolerance.

(** The list built for a move (sorted by name, adjacent duplicates removed) is
    duplicate free and covers the move when constraint names are distinct... *)
Theorem C12_related_list_ok : forall (name : nat -> nat) (cons : list constr) (m : alterations),
  (forall i j, (i < length cons)%nat -> (j < length cons)%nat -> name i = name j -> i = j) ->
  NoDup (move_related name cons m) /\ covers cons (map fst m) (move_related name cons m).
Proof. exact move_related_ok. Qed.
Print Assumptions C12_related_list_ok.

(** ... and can hold a constraint twice when two constraints share a name, so
    that the evaluator counts a violation twice. *)
Theorem C12_duplicate_names_refuted :
  exists (name : nat -> nat) (md : model) (x : nat -> Z) (m : alterations),
  let cur := evaluate md x [] in
  let related := move_related name (md_cons md) m in
  consistent md x /\ current md x cur /\ NoDup (map fst m) /\ ~ NoDup related /\
  sc_violation (evaluate md x m) == 2 /\ sc_violation (evaluate_multi md x m related cur) == 4.
Proof.
  exists (fun _ => 0%nat),
    (mkM true 1 (mkExpr [] 0) 0 0
       (map (fun c => c_update c (fun _ => 0%Z))
         [c_setup (mkExpr [(0%nat, 1); (1%nat, 1)] 0) Less (fun _ => false);
          c_setup (mkExpr [(0%nat, 1); (1%nat, -1)] 0) Less (fun _ => false)]) 1),
    (fun _ => 0%Z), [(0%nat, 1%Z); (1%nat, 1%Z)]. cbv zeta.
  match goal with |- consistent ?md ?x /\ _ => assert (C : consistent md x) end.
  { split; [intros c [<-|[<-|[]]]; repeat constructor; cbn; intuition discriminate|]. split; [constructor|]. split.
    - intros c [<-|[<-|[]]] _; apply refresh_agrees; reflexivity.
    - intros _. split; reflexivity. }
  split; [exact C|]. split; [apply evaluate_current, C|].
  split; [repeat constructor; cbn; intuition discriminate|]. split; [|split; vm_compute; reflexivity].
  vm_compute. intros N. inversion N as [|? ? H1 H2]. apply H1. cbn. auto.
Qed.
Print Assumptions C12_duplicate_names_refuted.

(** The feasibility-improvable hint of the two evaluators differs when an
    equality constraint jumps over its target: 3 -> -5. *)
Theorem C12_improvable_hint_refuted :
  exists (md : model) (x : nat -> Z) (m : alterations) (related : list nat),
  let cur := evaluate md x [] in
  consistent md x /\ current md x cur /\ NoDup (map fst m) /\ NoDup related /\
  covers (md_cons md) (map fst m) related /\ no_tiny_change md x (apply_move x m) /\
  sc_feas_improvable (evaluate md x m) = true /\ sc_feas_improvable (evaluate_multi md x m related cur) = false.
Proof.
  exists (mkM true 1 (mkExpr [] 0) 0 0
       (map (fun c => c_update c (fun _ => 3%Z)) [c_setup (mkExpr [(0%nat, 1)] 0) Equal (fun _ => false)]) 1),
    (fun _ => 3%Z), [(0%nat, (-5)%Z)], [0%nat]. cbv zeta.
  match goal with |- consistent ?md ?x /\ _ => assert (C : consistent md x) end.
  { split; [intros c [<-|[]]; repeat constructor; cbn; intuition discriminate|]. split; [constructor|]. split.
    - intros c [<-|[]] _; apply refresh_agrees; reflexivity.
    - intros _. split; reflexivity. }
  split; [exact C|]. split; [apply evaluate_current, C|].
  split; [repeat constructor; cbn; intuition discriminate|]. split; [repeat constructor; cbn; intuition discriminate|].
  split; [intros [|[|i]] c v Hn _ _ _; cbn in *; try discriminate; auto|].
  split; [|split; vm_compute; reflexivity].
  intros c [<-|[]] _. vm_compute. discriminate.
Qed.
Print Assumptions C12_improvable_hint_refuted.

Example C12_example : let s := ms_run (ms_update ex_state) ex_moves in
  let m := [(1%nat, 0%Z); (0%nat, 1%Z); (3%nat, 1%Z)] in
  let related := move_related (fun i => (5 - i)%nat) (md_cons (ms_model s)) m in
  consistent (ms_model s) (ms_x s) /\ NoDup (map fst m) /\ related = [2; 1; 0]%nat /\
  no_tiny_change (ms_model s) (ms_x s) (apply_move (ms_x s) m) /\
  sc_violation (evaluate_multi (ms_model s) (ms_x s) m related (evaluate (ms_model s) (ms_x s) [])) == 2.
Proof.
  cbv zeta. split; [apply ex_reached|]. split; [repeat constructor; cbn; intuition discriminate|].
  split; [vm_compute; reflexivity|]. split; [|vm_compute; reflexivity].
  intros c Hc _. vm_compute in Hc. destruct Hc as [<-|[<-|[<-|[]]]]; vm_compute; intros; try discriminate; reflexivity.
Qed.

(** ** C13 *)

(** For every order of the selection's related constraints and of the variables'
    sensitivity lists. *)
Theorem C13_selection_move_score :
  forall (md : model) (x : nat -> Z) (v0 : nat) (n0 : Z) (v1 : nat) (n1 : Z) (cs0 cs1 : list (nat * Q))
         (own : nat) (vars related : list nat) (cur : score),
  consistent md x -> current md x cur -> v0 <> v1 -> In v0 vars -> In v1 vars ->
  Permutation cs0 (constraint_sensitivities (md_cons md) v0) ->
  Permutation cs1 (constraint_sensitivities (md_cons md) v1) ->
  Permutation related (selection_related (md_cons md) own vars) ->
  (forall c, nth_error (md_cons md) own = Some c -> ct_enabled c = false) ->
  no_tiny_change md x (apply_move x [(v0, n0); (v1, n1)]) ->
  scores md x (apply_move x [(v0, n0); (v1, n1)])
    (evaluate_selection md x (v0, n0) (v1, n1) cs0 cs1 related cur).
Proof. exact selection_score. Qed.
Print Assumptions C13_selection_move_score.

(** A selection over {0,1,2} (constraint 0, disabled), with one constraint per
    variable (disjoint ranges for 0 and 1) and one constraint shared by 1 and 2. *)
Definition ex_sel : model :=
  let x := fun v : nat => if Nat.eqb v 0 then 1%Z else 0%Z in
  mkM true 1 (mkExpr [(1%nat, 4)] 0) 0 0
    (map (fun c => c_update c x)
      [mkC (mkExpr [(0%nat, 1); (1%nat, 1); (2%nat, 1)] (-1)) Equal false true true true 1 1 1 0 0 0 0 0 0 false;
       c_setup (mkExpr [(0%nat, 1)] (-2)) Greater (fun _ => false);
       c_setup (mkExpr [(1%nat, 1)] 0) Less (fun _ => false);
       c_setup (mkExpr [(1%nat, 1); (2%nat, 1); (3%nat, 1)] 0) Equal (fun _ => false)]) 1.
Example C13_example :
  let x := fun v : nat => if Nat.eqb v 0 then 1%Z else 0%Z in
  let cs v := constraint_sensitivities (md_cons ex_sel) v in
  let cur := evaluate ex_sel x [] in
  consistent ex_sel x /\ current ex_sel x cur /\
  selection_related (md_cons ex_sel) 0 [0; 1; 2]%nat = [1; 2; 3]%nat /\
  no_tiny_change ex_sel x (apply_move x [(0%nat, 0%Z); (1%nat, 1%Z)]) /\
  sc_violation (evaluate_selection ex_sel x (0%nat, 0%Z) (1%nat, 1%Z) (cs 0%nat) (cs 1%nat) [1; 2; 3]%nat cur) == 4 /\
  sc_violation (evaluate_selection ex_sel x (0%nat, 0%Z) (1%nat, 1%Z) (cs 0%nat) (cs 1%nat) [2; 1; 3]%nat cur) == 4.
Proof.
  cbv zeta.
  match goal with |- consistent ?md ?x /\ _ => assert (C : consistent md x) end.
  { split; [intros c [<-|[<-|[<-|[<-|[]]]]]; repeat constructor; cbn; intuition discriminate|].
    split; [repeat constructor; intros []|]. split.
    - intros c [<-|[<-|[<-|[<-|[]]]]] _; apply refresh_agrees; reflexivity.
    - intros _. split; reflexivity. }
  split; [exact C|]. split; [apply evaluate_current, C|]. split; [vm_compute; reflexivity|]. split.
  - intros c [<-|[<-|[<-|[<-|[]]]]] _; vm_compute; intros; try discriminate; reflexivity.
  - split; vm_compute; reflexivity.
Qed.

(** ** C14 *)

(** After update() and any sequence of update(move), the whole model shows what a
    full update() of the present variable values would show. *)
Theorem C14_model_update_history : forall (s0 : mstate) (ms : list (alterations * list nat)),
  model_wf s0 -> dependents_eliminated s0 ->
  (forall p, In p (ms_exprs s0) -> snd (fst p) = true ->
     forall d, In d (map fst (ms_deps s0)) -> ~ In d (keys (fst (fst p)))) ->
  Forall (move_ok s0) ms ->
  let s := ms_run (ms_update s0) ms in
  ms_x s = fold_left apply_move (map fst ms) (ms_x (ms_update s0)) /\ same_caches s (ms_update s).
Proof. exact history_same. Qed.
Print Assumptions C14_model_update_history.

Example C14_example : model_wf ex_state /\ dependents_eliminated ex_state /\ Forall (move_ok ex_state) ex_moves /\
  ms_violative (ms_run (ms_update ex_state) ex_moves) = [0; 1]%nat.
Proof.
  split; [exact ex_wf|]. split; [intros d []|]. split; [exact ex_moves_ok|]. vm_compute. reflexivity.
Qed.

(** Moving a fixed variable breaks it: the expressions follow the move, the
    variable does not. *)
Theorem C14_fixed_variable_refuted :
  exists (s0 : mstate) (m : alterations) (related : list nat),
  model_wf s0 /\ NoDup (map fst m) /\ NoDup related /\
  covers (md_cons (ms_model s0)) (map fst m) related /\
  let s := ms_update_move (ms_update s0) m related in
  ms_feasible s = true /\ ms_feasible (ms_update s) = false.
Proof.
  exists (mkMs (mkM true 1 (mkExpr [] 0) 0 0 [c_setup (mkExpr [(0%nat, 1)] (-1)) Equal (fun _ => true)] 1)
               [] [] (fun _ => 0%Z) (fun _ => true) false [] false), [(0%nat, 1%Z)], [0%nat].
  split; [split; [|split; [constructor|intros p []]]; intros c [<-|[]]; repeat constructor; intros []|].
  split; [repeat constructor; intros []|]. split; [repeat constructor; intros []|].
  split; [intros [|[|i]] c v Hn _ _ _; cbn in *; try discriminate; auto|].
  split; vm_compute; reflexivity.
Qed.
Print Assumptions C14_fixed_variable_refuted.

(** ** C15 *)

Theorem C15_feasible_iff_constraints_hold : forall (s0 : mstate) (ms : list (alterations * list nat)),
  model_wf s0 ->
  (forall p, In p (ms_exprs s0) -> snd (fst p) = true ->
     forall d, In d (map fst (ms_deps s0)) -> ~ In d (keys (fst (fst p)))) ->
  Forall (move_ok s0) ms ->
  let s := ms_run (ms_update s0) ms in
  (ms_feasible s = true <->
   forall c, In c (md_cons (ms_model s)) -> ct_enabled c = true -> viol c (ms_x s) < 1 # 100000).
Proof. exact feasible_reached. Qed.
Print Assumptions C15_feasible_iff_constraints_hold.

Theorem C15_score_flag_agrees : forall (s0 : mstate) (ms : list (alterations * list nat)),
  model_wf s0 ->
  (forall p, In p (ms_exprs s0) -> snd (fst p) = true ->
     forall d, In d (map fst (ms_deps s0)) -> ~ In d (keys (fst (fst p)))) ->
  Forall (move_ok s0) ms ->
  let s := ms_run (ms_update s0) ms in
  (forall c, In c (md_cons (ms_model s)) -> ct_enabled c = true -> exists z, viol c (ms_x s) == inject_Z z) ->
  sc_feasible (evaluate (ms_model s) (ms_x s) []) = ms_feasible s.
Proof. exact feasible_flags_agree. Qed.
Print Assumptions C15_score_flag_agrees.

(** Two violations of 0.9e-5 each: the model is feasible, its score is not. *)
Theorem C15_score_flag_refuted : exists s0 : mstate, model_wf s0 /\
  let s := ms_update s0 in
  ms_feasible s = true /\ sc_feasible (evaluate (ms_model s) (ms_x s) []) = false.
Proof.
  exists (mkMs (mkM true 1 (mkExpr [] 0) 0 0
     [c_setup (mkExpr [(0%nat, 9 # 1000000)] 0) Less (fun _ => false);
      c_setup (mkExpr [(1%nat, 9 # 1000000)] 0) Less (fun _ => false)] 1)
     [] [] (fun _ => 1%Z) (fun _ => false) false [] false).
  split; [split; [|split; [constructor|intros p []]]; intros c [<-|[<-|[]]]; repeat constructor; intros []|].
  split; vm_compute; reflexivity.
Qed.
Print Assumptions C15_score_flag_refuted.

Example C15_example :
  let s := ms_run (ms_update ex_state) ex_moves in
  ms_feasible s = false /\ ms_feasible (ms_update_move s [(1%nat, 0%Z)] [0; 1; 2]%nat) = true /\
  forall c, In c (md_cons (ms_model s)) -> ct_enabled c = true -> exists z, viol c (ms_x s) == inject_Z z.
Proof.
  cbv zeta. split; [vm_compute; reflexivity|]. split; [vm_compute; reflexivity|].
  intros c Hc _. vm_compute in Hc. destruct Hc as [<-|[<-|[<-|[]]]];
    [exists 1%Z|exists 1%Z|exists 0%Z]; vm_compute; reflexivity.
Qed.
