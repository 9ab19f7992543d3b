(** Specification for C73: the problem the search works on, compared with the one
    the user has entered. *)
From Coq Require Import List ZArith QArith Bool.
From Verif Require Import ExprModel ExprSpec ConstraintModel ConstraintSpec VariableModel TypeModel TypeSpec PresolveModel PresolveSpec
  DuplicateModel DuplicateSpec DependentModel DependentSpec SelectionModel SelectionSpec PrepareModel.
Import ListNotations.
Local Open Scope Q_scope.

(** One variable of the list is 1, the others are 0. *)
Definition one_of (l : list nat) (x : nat -> Z) : Prop :=
  exists v, In v l /\ x v = 1%Z /\ forall w, In w l -> w <> v -> x w = 0%Z.
(** x is a solution of the prepared problem. *)
Definition meets (r : dstate * list sel) (x : nat -> Z) : Prop :=
  solves (fst r) x /\ forall t, In t (snd r) -> one_of (sl_vars t) x.

(** Every solution of the prepared problem is one of the given problem with the
    same objective value, and every solution of the given problem is matched by
    one of the prepared problem that is at least as good. *)
Definition keeps_optimum (minimize : bool) (s : dstate) (r : dstate * list sel) : Prop :=
  (forall x, meets r x -> solves s x /\ e_eval (ds_obj (fst r)) x == e_eval (ds_obj s) x) /\
  (forall x, solves s x -> exists x', meets r x' /\ as_good minimize (e_eval (ds_obj s) x') (e_eval (ds_obj s) x)).

(** A variable whose bounds are not crossed, whose bounds are within 0..1 if its
    sense is binary, and whose value is within the bounds if it is fixed. *)
Definition sound (a : var) : Prop := (va_lower a <= va_upper a)%Z /\
  (va_sense a = VBinary \/ va_sense a = VSelection \/ va_sense a = VDependentBinary -> 0 <= va_lower a /\ va_upper a <= 1)%Z /\
  (va_fixed a = true -> va_lower a <= va_value a <= va_upper a)%Z.

(** What is asked of the user's model: nothing is defined by an expression yet, no
    constraint is disabled, integer coefficients, no zero coefficient, bounds and
    values that fit, and no variable outside all constraints with an objective
    coefficient that is neither zero nor visible. *)
Record proper_model (s : dstate) : Prop := mkProper {
  pm_coherent : coherent s;
  pm_no_dependents : forall v, ds_dep s v = None;
  pm_no_exprs : ds_exprs s = [];
  pm_enabled : forall c, In c (ds_cons s) -> ct_enabled c = true;
  pm_tame : tame (ds_cons s);
  pm_moderate : moderate (ds_vars s);
  pm_moderate_fixed : moderate_fixed (ds_vars s);
  pm_sound : forall v, sound (ds_vars s v);
  pm_flags : forall c, In c (ds_cons s) -> truthful_flags (vctx (fun v => v) (ds_vars s)) c;
  pm_decided : decided (ds_cons s) (ds_obj s) (ds_vars s) }.

(** Without presolve less is asked: coefficients and bounds may be of any size, and
    variables outside all constraints do not matter. *)
Record plain_model (s : dstate) : Prop := mkPlain {
  pl_coherent : coherent s;
  pl_no_dependents : forall v, ds_dep s v = None;
  pl_no_exprs : ds_exprs s = [];
  pl_enabled : forall c, In c (ds_cons s) -> ct_enabled c = true;
  pl_integral : forall c, In c (ds_cons s) -> integral (ct_expr c) /\ no_zero (ct_expr c);
  pl_sound : forall v, sound (ds_vars s v);
  pl_flags : forall c, In c (ds_cons s) -> truthful_flags (vctx (fun v => v) (ds_vars s)) c }.

(** Integer programs whose constraints have the flag say so. *)
Definition unit_flags (cs : list constr) : Prop := forall c, In c cs -> ct_enabled c = true -> ct_only_binary_coef c = true ->
  forall v a, In (v, a) (ex_sens (ct_expr c)) -> a == 1.

(** The rounds of the elimination of dependent variables meet no circular
    definition, and leave constraints and definitions with integer data of
    moderate size and flags that are still right. *)
Fixpoint calm (fuel : nat) (opt : ctype -> bool) (names : nat -> nat) (minimize : bool) (s : dstate) : Prop :=
  match fuel with
  | O => True
  | S f =>
      match extract opt names s with
      | Some (S _, s') =>
          acyclic s' /\
          match eliminate_loop fuel s' with
          | Some s'' =>
              tame (ds_cons s'') /\ decided (ds_cons s'') (ds_obj s'') (ds_vars s'') /\
              (forall e, In e (ds_exprs s'') -> whole e) /\ unit_flags (ds_cons s'') /\
              match reduce_problem_size fuel minimize (coef (ex_sens (ds_obj s''))) (mkP (ds_number s'') (ds_vars s'') (ds_cons s'')) with
              | Some (Ok p) => calm f opt names minimize (mkD (ds_number s'') (ps_vars p) (ps_cons p) (ds_obj s'') (ds_exprs s'') (ds_dep s''))
              | _ => True
              end
          | None => True
          end
      | _ => True
      end
  end.

(** Fixing redundant set variables does nothing, or the problem is one for which
    it is right (see C49). *)
Definition set_calm (sw : switches) (su : surroundings) (minimize : bool) (s : dstate) : Prop :=
  sw_presolve sw = true -> sw_set_vars sw = true ->
  (forall v, ds_vars (prepare_sets sw su minimize s) v = ds_vars s v) \/
  unit_bounds (ds_number s) (ds_vars s) /\ set_problem (ds_vars s) (ds_cons s) /\
  worth_zero (ds_number s) minimize (ds_obj s) (ds_vars s) (ds_cons s) /\ no_fixed_twin (ds_number s) (ds_vars s) (ds_cons s).

(** Both conditions along the phases of a given model. *)
Definition calm_rounds (sw : switches) (su : surroundings) (minimize : bool) (s : dstate) : Prop :=
  forall fuel s1, prepare_reduce fuel sw su minimize s = Some (Ok s1) -> sw_presolve sw = true -> wants_dependents sw = true ->
  forall f, calm f (sw_dependent sw) (su_name su) minimize s1.
Definition calm_sets (sw : switches) (su : surroundings) (minimize : bool) (s : dstate) : Prop :=
  forall fuel s1 s2, prepare_reduce fuel sw su minimize s = Some (Ok s1) -> prepare_dependents fuel sw su minimize s1 = Some (Ok s2) -> set_calm sw su minimize s2.

(** x is a solution no other solution beats. *)
Definition optimal (minimize : bool) (s : dstate) (x : nat -> Z) : Prop :=
  solves s x /\ forall y, solves s y -> as_good minimize (e_eval (ds_obj s) x) (e_eval (ds_obj s) y).
Definition optimal_prepared (minimize : bool) (r : dstate * list sel) (x : nat -> Z) : Prop :=
  meets r x /\ forall y, meets r y -> as_good minimize (e_eval (ds_obj (fst r)) x) (e_eval (ds_obj (fst r)) y).
