(** C52: one run of the tabu search. *)
From Coq Require Import List ZArith QArith Qabs Permutation Lia Lqa Bool.
From Verif Require Import ExprModel ExprSpec ConstraintModel ConstraintSpec EvalModel EvalSpec EvalSpec2 SolutionModel SolutionSpec SolutionProof
  TabuModel LoopModel LoopSpec LoopProof LoopProof2 LoopProof3 LoopProof4 Prop_Eval.
Import ListNotations.
Local Open Scope Q_scope.

(** For every start, every incumbent and memory handed over, all options, all moves
    offered, all random numbers and any clock: the current score, and the score
    attached to every solution offered to the incumbents, is the one computed from
    scratch; the incumbents are what offering the visited solutions makes of the
    initial ones; every stored feasible solution satisfies all constraints; every
    special move is used at most once; nothing is undefined. *)
Theorem C52_scores_are_true : forall is01 o s0 h0 m0 mods es,
  loop_start is01 s0 -> (0 <= lo_initial_tenure o)%Z -> (0 <= lo_nmut o)%Z ->
  (forall t, In t (map fst mods) -> trial_ok is01 s0 t) -> (forall e t, In e es -> In t (en_moves e) -> trial_ok is01 s0 t) ->
  let r := l_search o s0 h0 m0 mods es in let l := fst r in
  true_score (ms_model s0) (ms_x (lp_ms l)) (lp_score l) /\
  (forall y sc, In (y, sc) (lp_visited l) -> true_score (ms_model s0) y sc /\ (sc_feasible sc = true <-> satisfies (ms_model s0) y)) /\
  (forall y, In y (lp_feasible l) -> satisfies (ms_model s0) y) /\
  lp_holder l = fold_left (h_step true) (offers (lp_visited l)) (reset_local h0) /\
  NoDup (lp_used l) /\ snd r <> Some Undefined.
Proof. exact search_true. Qed.
Print Assumptions C52_scores_are_true.

(** If everything offered to the incumbents before was truthful, then after the run
    the feasible incumbent, if there is one, satisfies all constraints, its stored
    objective is its objective, and no solution visited and feasible is better by
    more than 1e-5; if a feasible solution was visited there is an incumbent. *)
Theorem C52_feasible_incumbent : forall is01 o s0 m0 mods es before,
  loop_start is01 s0 -> (0 <= lo_initial_tenure o)%Z -> (0 <= lo_nmut o)%Z ->
  (forall t, In t (map fst mods) -> trial_ok is01 s0 t) -> (forall e t, In e es -> In t (en_moves e) -> trial_ok is01 s0 t) ->
  (forall y sc, In (y, sc) (offered before) -> true_score (ms_model s0) y sc) ->
  let l := fst (l_search o s0 (fold_left (h_step true) before (ho_init _)) m0 mods es) in
  let value y := if md_defined (ms_model s0) then md_sign (ms_model s0) * e_eval (md_obj (ms_model s0)) y else 0 in
  (forall q, sl_obj (ho_feasible (lp_holder l)) = Some q ->
     exists y sc, sl_stored (ho_feasible (lp_holder l)) = Some (y, sc) /\ satisfies (ms_model s0) y /\ q == value y /\
       forall y' sc', In (y', sc') (lp_visited l) -> satisfies (ms_model s0) y' -> value y <= value y' + EPS) /\
  (forall y' sc', In (y', sc') (lp_visited l) -> satisfies (ms_model s0) y' -> sl_obj (ho_feasible (lp_holder l)) <> None).
Proof. exact search_incumbent. Qed.
Print Assumptions C52_feasible_incumbent.

(** The loop stops after at most iteration_max moves (plus the initial solution and
    the initial modifications), and the status it reports is true of the final
    state. *)
Theorem C52_termination : forall is01 o s0 h0 m0 mods es,
  loop_start is01 s0 -> (0 <= lo_initial_tenure o)%Z -> (0 <= lo_nmut o)%Z ->
  (forall t, In t (map fst mods) -> trial_ok is01 s0 t) -> (forall e t, In e es -> In t (en_moves e) -> trial_ok is01 s0 t) ->
  let r := l_search o s0 h0 m0 mods es in
  (Z.of_nat (length (lp_visited (fst r))) <= 1 + Z.of_nat (length mods) + Z.max 0 (lo_iteration_max o))%Z /\
  ((Z.max 0 (lo_iteration_max o) < Z.of_nat (length es))%Z -> exists st, snd r = Some st) /\
  (forall st, snd r = Some st -> exists e, In e es /\ status_meaning o s0 e (fst r) st).
Proof. exact search_stops. Qed.
Print Assumptions C52_termination.

(** The early stop: a run ends early only when the number of solutions counted by
    [idle] exceeds the pruning threshold times the largest number of iterations. *)
Theorem C52_early_stop : forall o s0 h0 m0 mods es, let r := l_search o s0 h0 m0 mods es in
  exists y sc tl, lp_visited (fst r) = (y, sc) :: tl /\
  let n := idle (h_step true (h_step true h0 ResetLocal) (Offer y sc)) sc 0 tl in
  lp_ineffective (fst r) = n /\ (snd r = Some EarlyStop -> lo_pruning o * inject_Z (lo_iteration_max o) < inject_Z n).
Proof. exact search_early. Qed.
Print Assumptions C52_early_stop.

(** ** Example: the model of Prop_Eval, single flips of x0, x1, x2, two iterations *)
Definition ex_flip (v : nat) (n : Z) : tmove := mkTm (KSingle (v, n)) (related_constraints (md_cons (ms_model ex_state)) v) false false false v.
Definition ex_pair : tmove := mkTm (KMulti [(0%nat, 0%Z); (2%nat, 1%Z)]) [0; 1]%nat true false false 9.
Definition ex_env (ts : list tmove) : env := mkEnv false ts true 0 (fun _ => 3%Z).
Definition ex_options : loptions := mkLo 2 (-100) 1 true false (1 # 10) 0 (fun _ => 0) (1 # 2) 0 0 true true true true 2 3.
Definition ex_envs : list env := [ex_env [ex_flip 0 0; ex_flip 1 1; ex_pair]; ex_env [ex_flip 0 0; ex_flip 0 1; ex_flip 1 1; ex_flip 2 0; ex_pair]; ex_env []].
Ltac whole := match goal with |- exists z, ?q == inject_Z z => let n := eval vm_compute in (Qnum q) in exists n; vm_compute; reflexivity end.
Lemma ex_start : loop_start (fun _ => true) ex_state.
Proof.
  split; [exact ex_wf|]. split; [intros d []|]. split; [intros p _ _ d []|]. split.
  - intros c Hc _. destruct Hc as [<-|[<-|[<-|[]]]]; (split; [|split; [|split; [|reflexivity]]]).
    all: try (intros v a Hv; vm_compute in Hv; repeat (destruct Hv as [Hv|Hv]; [injection Hv as <- <-; split; [whole|vm_compute; discriminate]|]); destruct Hv).
    all: whole.
  - intros v _. cbn [ex_state ms_x]. destruct (Nat.eqb v 0); lia.
Qed.
Lemma ex_trials t : In t [ex_flip 0 0; ex_flip 0 1; ex_flip 1 1; ex_flip 2 0; ex_pair] -> trial_ok (fun _ => true) ex_state t.
Proof.
  assert (Cv : forall v c i, nth_error (md_cons (ms_model ex_state)) i = Some c -> In v (map fst (ex_sens (ct_expr c))) ->
    In i (related_constraints (md_cons (ms_model ex_state)) v)).
  { intros v c [|[|[|i]]] Hi Hin; cbn in Hi; try (destruct i; discriminate); injection Hi as <-; cbn in Hin;
    repeat (destruct Hin as [<-|Hin]; [vm_compute; tauto|]); destruct Hin. }
  assert (Fl : forall v n, (v < 3)%nat -> (0 <= n <= 1)%Z -> trial_ok (fun _ => true) ex_state (ex_flip v n)).
  { intros v n Hv Hn. split; [repeat constructor; intros []|]. split; [intros w k [E|[]]; injection E as <- <-; split; [reflexivity|auto]|].
    split; [destruct v as [|[|[|v]]]; [..|lia]; vm_compute; repeat (apply NoDup_cons; [cbn; intuition discriminate|]); apply NoDup_nil|].
    split; [|split; [exact Logic.I|discriminate]]. intros i c w Hi _ [<-|[]] Hin. now apply (Cv v c). }
  intros [<-|[<-|[<-|[<-|[<-|[]]]]]]; try (apply Fl; lia).
  split; [repeat (apply NoDup_cons; [cbn; intuition discriminate|]); apply NoDup_nil|].
  split; [intros v n [E|[E|[]]]; injection E as <- <-; split; [reflexivity|lia|reflexivity|lia]|].
  split; [repeat (apply NoDup_cons; [cbn; intuition discriminate|]); apply NoDup_nil|]. split; [|split; [exact Logic.I|discriminate]].
  intros i c v Hi _ Hv Hin. pose proof (Cv v c i Hi Hin) as K. destruct Hv as [<-|[<-|[]]]; vm_compute in K; vm_compute; tauto.
Qed.
Example C52_example : let r := l_search ex_options ex_state (ho_init _) mem_setup [(ex_flip 1 1, fun _ => 1%Z)] ex_envs in
  loop_start (fun _ => true) ex_state /\
  (forall t, In t (map fst [(ex_flip 1 1, fun _ : nat => 1%Z)]) -> trial_ok (fun _ => true) ex_state t) /\
  (forall e t, In e ex_envs -> In t (en_moves e) -> trial_ok (fun _ => true) ex_state t) /\
  snd r = Some IterationOver /\ length (lp_visited (fst r)) = 4%nat.
Proof.
  cbv zeta. split; [exact ex_start|]. split; [intros t [<-|[]]; apply ex_trials; cbn; tauto|].
  split; [|vm_compute; auto].
  intros e t [<-|[<-|[<-|[]]]] Ht; cbn [ex_env en_moves] in Ht; apply ex_trials; cbn in *; tauto.
Qed.

(** Two more runs over the same model: with pruning threshold -1 the first iteration stops. *)
Definition ex_early : loptions := mkLo 2 (-100) (-(1)) true false (1 # 10) 0 (fun _ => 0) (1 # 2) 0 0 true true true true 2 3.
Example C52_early_stop_example : let r := l_search ex_early ex_state (ho_init _) mem_setup [(ex_flip 1 1, fun _ => 1%Z)] ex_envs in
  snd r = Some EarlyStop /\ length (lp_visited (fst r)) = 2%nat.
Proof. vm_compute. auto. Qed.
