(** Specification for C52. *)
From Coq Require Import List ZArith QArith Qabs Permutation Bool.
From Verif Require Import ExprModel ExprSpec ConstraintModel ConstraintSpec EvalModel EvalSpec EvalSpec2 SolutionModel SolutionSpec TabuModel LoopModel.
Import ListNotations.
Local Open Scope Q_scope.

(** The score is the one of y computed from scratch (its improvement is relative to
    some other solution). *)
Definition true_score (md : model) (y : nat -> Z) (sc : score) : Prop := exists x, scores md x y sc.

(** The solution satisfies every enabled constraint exactly. *)
Definition satisfies (md : model) (y : nat -> Z) : Prop :=
  forall c, In c (md_cons md) -> ct_enabled c = true -> holds (e_eval (ct_expr c) y) (ct_sense c) 0.

(** A start of the search: distinct variables in every expression; dependent
    variables eliminated; integral enabled constraints whose binary-variable flag
    and largest absolute coefficient are right; 0/1 variables (is01) at 0 or 1. *)
Definition loop_start (is01 : nat -> bool) (s : mstate) : Prop :=
  model_wf s /\ dependents_eliminated s /\
  (forall p, In p (ms_exprs s) -> snd (fst p) = true -> forall d, In d (map fst (ms_deps s)) -> ~ In d (keys (fst (fst p)))) /\
  (forall c, In c (md_cons (ms_model s)) -> ct_enabled c = true ->
     (forall v a, In (v, a) (ex_sens (ct_expr c)) -> (exists z, a == inject_Z z) /\ Qabs a <= ct_max_abs c) /\
     (exists z, ex_const (ct_expr c) == inject_Z z) /\ (exists z, ct_max_abs c == inject_Z z) /\
     (ct_only_binary_var c = true -> forall v, In v (keys (ct_expr c)) -> is01 v = true)) /\
  (forall v, is01 v = true -> (0 <= ms_x s v <= 1)%Z).

(** A move the neighborhood may offer: distinct, non-fixed variables; a duplicate
    free list of related constraints that covers what it touches; 0/1 variables get
    0 or 1; a selection move alters two variables of a selection whose own
    constraint is disabled; an integer move alters one integer variable. *)
Definition trial_ok (is01 : nat -> bool) (s : mstate) (t : tmove) : Prop :=
  proper (tm_alts t) /\ (forall v n, In (v, n) (tm_alts t) -> ms_fixed s v = false /\ (is01 v = true -> (0 <= n <= 1)%Z)) /\
  NoDup (tm_related t) /\ covers (md_cons (ms_model s)) (map fst (tm_alts t)) (tm_related t) /\
  match tm_kind t with
  | KSelection a b related => exists own vars, In (fst a) vars /\ In (fst b) vars /\
      Permutation related (selection_related (md_cons (ms_model s)) own vars) /\
      (forall c, nth_error (md_cons (ms_model s)) own = Some c -> ct_enabled c = false)
  | _ => True
  end /\
  (tm_integer t = true -> exists v n, tm_alts t = [(v, n)] /\ is01 v = false).

(** Solutions offered to the incumbents in order. *)
Definition offers (l : list ((nat -> Z) * score)) : list (h_event (nat -> Z)) := map (fun p => Offer (fst p) (snd p)) l.

(** No move of the list may be used any more. *)
Definition none_available (used : list nat) (ts : list tmove) : Prop :=
  forall t, In t ts -> tm_special t = true /\ In (tm_id t) used.

(** What a termination status says about the final state; [e] is the environment of
    the last iteration. *)
Definition status_meaning (o : loptions) (s0 : mstate) (e : env) (l : loop) (st : lstatus) : Prop :=
  match st with
  | TimeOver => en_time_over e = true
  | IterationOver => (lo_iteration_max o <= lp_iteration l)%Z
  | ReachTarget => exists q, sl_obj (ho_feasible (lp_holder l)) = Some q /\ q <= lo_target o
  | EarlyStop => lo_pruning o * inject_Z (lo_iteration_max o) < inject_Z (lp_ineffective l)
  | Optimal => (exists q, sl_obj (ho_feasible (lp_holder l)) = Some q /\ Qabs (q - ho_dual (lp_holder l)) < EPS) \/
               (none_available (lp_used l) (en_moves e) /\ satisfies (ms_model s0) (ms_x (lp_ms l)) /\ en_improvable e = false)
  | NoMove => none_available (lp_used l) (en_moves e) /\
              (~ satisfies (ms_model s0) (ms_x (lp_ms l)) \/ en_improvable e = true)
  | PenaltyTooLarge => (10 < lp_iteration l)%Z /\ satisfies (ms_model s0) (ms_x (lp_ms l))
  | Undefined => False
  end.

(** What counts towards an early stop: the solutions since the last one that improved
    the global incumbent which improved nothing but the local incumbent and were
    dearer than the solution before.  [h]: the incumbents before the first of them. *)
Definition beats (v : Q) (o : option Q) : bool := match o with None => true | Some q => negb (Qle_bool q (v + EPS)) end.
Fixpoint idle (h : holder (nat -> Z)) (previous : score) (n : Z) (vs : list ((nat -> Z) * score)) : Z :=
  match vs with
  | [] => n
  | (y, sc) :: tl =>
      let l := beats (sc_local_aug sc) (sl_obj (ho_local h)) in
      let g := beats (sc_global_aug sc) (sl_obj (ho_global h)) in
      let f := sc_feasible sc && beats (sc_objective sc) (sl_obj (ho_feasible h)) in
      let dearer := negb (Qle_bool (sc_global_aug sc) (sc_global_aug previous)) in
      idle (h_step true h (Offer y sc)) sc (if g then 0 else if l && negb f && dearer then n + 1 else n)%Z tl
  end.
