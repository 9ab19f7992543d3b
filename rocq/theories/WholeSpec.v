(** Specification for C74. *)
From Coq Require Import List ZArith QArith Qabs Bool.
From Verif Require Import ExprModel ExprSpec ConstraintModel VariableModel PresolveModel PresolveSpec TypeSpec DependentModel DependentSpec SelectionModel SelectionSpec PrepareModel PrepareSpec.
From Verif Require SolverModel SolverSpec.
From Verif Require Import EvalModel TabuModel LoopModel LocalModel.
Import ListNotations.
Local Open Scope Q_scope.

(** v takes only the values 0 and 1: binary, in a selection, or an integer with
    such bounds. *)
Definition zero_one_in (n : nat) (vs : vars) (v : nat) : bool :=
  (v <? n)%nat && match va_sense (vs v) with
  | VBinary | VSelection => true
  | VInteger => (0 <=? va_lower (vs v))%Z && (va_upper (vs v) <=? 1)%Z
  | _ => false end.

(** What a constraint remembers of its coefficients is right. *)
Definition remembers (n : nat) (vs : vars) (c : constr) : Prop :=
  (forall v a, In (v, a) (ex_sens (ct_expr c)) -> Qabs a <= ct_max_abs c) /\ (exists z, ct_max_abs c == inject_Z z) /\
  (exists z, ex_const (ct_expr c) == inject_Z z) /\
  (ct_only_binary_var c = true -> forall v, In v (keys (ct_expr c)) -> zero_one_in n vs v = true).

(** The prepared problem is in order: what the enabled constraints remember is
    right, 0/1 variables that are not fixed have the bounds 0 and 1, defined
    variables are not fixed, variables of the sense Selection are in a selection,
    the objective is over variables of the model. *)
Record settled (r : dstate * list sel) : Prop := mkSettled {
  st_remembers : forall c, In c (ds_cons (fst r)) -> ct_enabled c = true -> remembers (ds_number (fst r)) (ds_vars (fst r)) c;
  st_range : forall v, (v < ds_number (fst r))%nat -> va_fixed (ds_vars (fst r) v) = false ->
             va_sense (ds_vars (fst r) v) = VBinary \/ va_sense (ds_vars (fst r) v) = VSelection ->
             va_lower (ds_vars (fst r) v) = 0%Z /\ va_upper (ds_vars (fst r) v) = 1%Z;
  st_free : forall v, ds_dep (fst r) v <> None -> va_fixed (ds_vars (fst r) v) = false;
  st_selected : forall v, (v < ds_number (fst r))%nat -> va_sense (ds_vars (fst r) v) = VSelection ->
                exists t, In t (snd r) /\ In v (sl_vars t);
  st_objective : forall v, In v (keys (ds_obj (fst r))) -> (v < ds_number (fst r))%nat }.

(** The values a answer gives to the variables of the model are those of a
    solution of the model, and its objective is the true one. *)
Definition solution_of (s : dstate) (defined : bool) (a : SolverModel.answer) : Prop :=
  exists x, (forall v, (v < ds_number s)%nat -> x v = SolverModel.an_x a v) /\ solves s x /\
            (defined = true -> SolverModel.an_objective a == e_eval (ds_obj s) x).

(** What entering a model leaves: constraints as Constraint::setup makes them, with
    integer constants; binary and integer variables only; an objective over the
    variables of the model. *)
Record as_entered (s : dstate) : Prop := mkEntered {
  ae_setup : forall c, In c (ds_cons s) -> exists e k, c = c_setup e k (is01_of (ds_vars s)) /\ exists z, ex_const e == inject_Z z;
  ae_senses : forall v, va_sense (ds_vars s v) = VBinary \/ va_sense (ds_vars s v) = VInteger;
  ae_objective : forall v, In v (keys (ds_obj s)) -> (v < ds_number s)%nat }.
(** No binary variable that is not fixed has the bounds [0, 0] or [1, 1]. *)
Definition free_binaries (s : dstate) : Prop := forall v, (v < ds_number s)%nat -> va_fixed (ds_vars s v) = false -> va_sense (ds_vars s v) = VBinary ->
  va_lower (ds_vars s v) = 0%Z /\ va_upper (ds_vars s v) = 1%Z.

(** No phase is offered a value outside. *)
Definition offers_inside (p : SolverModel.problem) (s0 : mstate) (a : SolverModel.inputs) : Prop :=
  (forall g v, SolverModel.in_lagrange a = Some g -> SolverModel.gg_applicable g = true -> In v (SolverModel.gg_vars g) ->
     SolverSpec.allowed p s0 v (SolverModel.gg_lo g v) /\ SolverSpec.allowed p s0 v (SolverModel.gg_hi g v)) /\
  (forall g e t, SolverModel.in_local a = Some g -> In e (SolverModel.gc_envs g) -> In t (se_moves e) -> SolverSpec.move_allowed p s0 t (se_target e)) /\
  (forall d, In d (SolverModel.in_rounds a) -> (forall t v n, In t (map fst (SolverModel.td_mods d)) -> In (v, n) (tm_alts t) -> SolverSpec.allowed p s0 v n) /\
     forall e t, In e (SolverModel.td_envs d) -> In t (en_moves e) -> SolverSpec.move_allowed p s0 t (fun _ => en_target e)).

(** The values of x respect fixings and bounds. *)
Definition in_range (r : dstate * list sel) (x : nat -> Z) : Prop :=
  forall v, (v < ds_number (fst r))%nat -> ds_dep (fst r) v = None -> within (ds_vars (fst r) v) (x v).
