(** C73: the problem the search works on. *)
From Coq Require Import List NArith ZArith QArith Bool.
From Verif Require Import ExprModel ExprSpec ConstraintModel VariableModel TypeModel PresolveModel PresolveSpec DuplicateModel DependentModel DependentSpec
  SelectionModel SelectionSpec PrepareModel PrepareSpec.
From Verif Require PrepareProof5 PrepareProof6 PrepareProof7.
Import ListNotations.
Local Open Scope nat_scope.

(** C73: the preparation of every feasible model ends.  The prepared problem has only solutions of the user's model,
    with their objective values, and one at least as good as each of them.  Then the search has a valid start, or an
    exception is thrown - for given values that are not to be corrected and are no valid start, or for violations
    beyond the range of int. *)
Theorem C73_prepared_problem (sw : switches) (su : surroundings) (minimize : bool) (s : dstate) :
  proper_model s -> (exists x, solves s x) -> calm_rounds sw su minimize s -> calm_sets sw su minimize s ->
  exists F, forall fuel, F <= fuel -> exists r, prepare_problem fuel sw su minimize s = Some (Ok r) /\ keeps_optimum minimize s r /\
  ((exists r', prepare fuel sw su minimize s = Some (Ok r') /\ keeps_optimum minimize s r' /\
      valid_start (ds_number (fst r')) (ds_vars (fst r')) (snd r')) \/
   (prepare fuel sw su minimize s = Some Throw /\
    (sw_correct sw = false /\ ~ valid_start (ds_number (fst r)) (ds_vars (fst r)) (snd r) \/
     overflowing (ds_cons (fst r)) (su_sens su (ds_cons (fst r))) (snd r)))).
Proof. exact (PrepareProof5.prepared sw su minimize s). Qed.
Print Assumptions C73_prepared_problem.

(** C73: without dependent variables and redundant set variables nothing is asked but a proper, feasible model. *)
Theorem C73_without_elimination (sw : switches) (su : surroundings) (minimize : bool) (s : dstate) :
  wants_dependents sw = false -> sw_set_vars sw = false -> proper_model s -> (exists x, solves s x) ->
  exists F, forall fuel, F <= fuel -> exists r, prepare_problem fuel sw su minimize s = Some (Ok r) /\ keeps_optimum minimize s r.
Proof.
  intros W V P Fe. destruct (PrepareProof6.prepare_without sw su minimize s P Fe W V) as [A B].
  destruct (PrepareProof5.prepared sw su minimize s P Fe A B) as [F H]. exists F. intros fuel L. destruct (H fuel L) as (r & E & K & _). exact (ex_intro _ r (conj E K)).
Qed.
Print Assumptions C73_without_elimination.

(** C73: what [keeps_optimum] is for: an optimal solution of the prepared problem is one of the user's model, and if
    the user's model has an optimal solution, the prepared problem has one of the same value. *)
Theorem C73_optimum_kept (minimize : bool) (s : dstate) (r : dstate * list sel) : keeps_optimum minimize s r ->
  (forall x, optimal_prepared minimize r x -> optimal minimize s x) /\
  (forall x, optimal minimize s x -> exists y, optimal_prepared minimize r y /\ (e_eval (ds_obj (fst r)) y == e_eval (ds_obj s) x)%Q).
Proof. exact (PrepareProof6.optimum_kept minimize s r). Qed.
Print Assumptions C73_optimum_kept.

(** C73: without presolve only selections are formed: their variables change their sense and their constraints are
    switched off, nothing else changes; and nothing at all if selections are switched off too or there are not more
    variables than constraints. *)
Theorem C73_presolve_off (fuel : nat) (sw : switches) (su : surroundings) (minimize : bool) (s : dstate) : sw_presolve sw = false ->
  exists r, prepare_problem fuel sw su minimize s = Some (Ok r) /\
  ds_obj (fst r) = ds_obj s /\ ds_exprs (fst r) = ds_exprs s /\ ds_dep (fst r) = ds_dep s /\ ds_number (fst r) = ds_number s /\
  (forall v, let a := ds_vars s v in let b := ds_vars (fst r) v in
     va_lower b = va_lower a /\ va_upper b = va_upper a /\ va_fixed b = va_fixed a /\ va_value b = va_value a /\
     (va_sense b = va_sense a \/ exists t, In t (snd r) /\ In v (sl_vars t))) /\
  (forall k c, nth_error (ds_cons (fst r)) k = Some c -> exists d, nth_error (ds_cons s) k = Some d /\ (c = d \/ c = disable d /\ exists t, In t (snd r) /\ sl_con t = k)) /\
  (sw_mode sw = Off \/ ds_number s <= length (ds_cons s) -> r = (s, [])).
Proof. exact (fun E => ex_intro _ _ (conj (PrepareProof7.presolve_off fuel sw su minimize s E) (PrepareProof7.selections_untouched sw su s))). Qed.
Print Assumptions C73_presolve_off.

(** C73: without the elimination of dependent variables the objective stays as it is and nothing becomes defined. *)
Theorem C73_dependents_off (fuel : nat) (sw : switches) (su : surroundings) (minimize : bool) (s : dstate) (r : dstate * list sel) :
  sw_presolve sw = false \/ wants_dependents sw = false -> prepare_problem fuel sw su minimize s = Some (Ok r) ->
  ds_obj (fst r) = ds_obj s /\ ds_exprs (fst r) = ds_exprs s /\ ds_dep (fst r) = ds_dep s /\ ds_number (fst r) = ds_number s.
Proof. exact (PrepareProof7.dependents_off fuel sw su minimize s r). Qed.
Print Assumptions C73_dependents_off.

(** C73: the option asks for dependent variables exactly if it asks for one of the eight types. *)
Theorem C73_dependents_wanted (sw : switches) : wants_dependents sw = true <->
  sw_dependent sw ExclusiveOR = true \/ sw_dependent sw ExclusiveNOR = true \/ sw_dependent sw InvertedIntegers = true \/ sw_dependent sw BalancedIntegers = true \/
  sw_dependent sw ConstantSumIntegers = true \/ sw_dependent sw ConstantDifferenceIntegers = true \/ sw_dependent sw ConstantRatioIntegers = true \/ sw_dependent sw Intermediate = true.
Proof. exact (PrepareProof7.wanted_iff sw). Qed.
Print Assumptions C73_dependents_wanted.

(** C73: with all other reductions switched off, only the size reduction of C26 is left. *)
Theorem C73_size_only (fuel : nat) (sw : switches) (su : surroundings) (minimize : bool) (s : dstate) :
  sw_presolve sw = true -> sw_implicit sw = false -> sw_set_cons sw = false -> sw_set_vars sw = false -> sw_duplicates sw = false ->
  wants_dependents sw = false -> sw_mode sw = Off ->
  forall r, prepare_problem fuel sw su minimize s = Some (Ok r) <->
  exists p, reduce_problem_size fuel minimize (coef (ex_sens (ds_obj s))) (mkP (ds_number s) (ds_vars s) (ds_cons s)) = Some (Ok p) /\
  r = (mkD (ds_number s) (ps_vars p) (ps_cons p) (ds_obj s) (ds_exprs s) (ds_dep s), []).
Proof. exact (PrepareProof7.size_only fuel sw su minimize s). Qed.
Print Assumptions C73_size_only.

(** C73: values are corrected only if that is switched on. *)
Theorem C73_values_kept (sw : switches) (su : surroundings) (minimize : bool) (s : dstate) :
  proper_model s -> (exists x, solves s x) -> calm_rounds sw su minimize s -> calm_sets sw su minimize s -> sw_correct sw = false ->
  exists F, forall fuel r r', F <= fuel -> prepare_problem fuel sw su minimize s = Some (Ok r) -> prepare fuel sw su minimize s = Some (Ok r') ->
  forall v, va_value (ds_vars (fst r') v) = va_value (ds_vars (fst r) v).
Proof. exact (PrepareProof7.values_kept sw su minimize s). Qed.
Print Assumptions C73_values_kept.

(** * Examples *)
(** A model with all switches on that goes through every phase: one variable becomes defined, a duplicate and an
    equation are switched off, a set partitioning constraint becomes a selection, and the start is corrected. *)
Example C73_example_hypotheses : proper_model PrepareProof6.p_model /\ (exists x, solves PrepareProof6.p_model x) /\
  calm_rounds PrepareProof6.p_switches PrepareProof6.p_around true PrepareProof6.p_model /\
  calm_sets PrepareProof6.p_switches PrepareProof6.p_around true PrepareProof6.p_model.
Proof. exact (conj PrepareProof6.p_proper (conj (ex_intro _ _ PrepareProof6.p_feasible) (conj PrepareProof6.p_calm_rounds PrepareProof6.p_calm_sets))). Qed.
Example C73_example_result : prepare 10 PrepareProof6.p_switches PrepareProof6.p_around true PrepareProof6.p_model = Some (Ok PrepareProof6.p_result) /\
  map ct_enabled (ds_cons (fst PrepareProof6.p_result)) = [false; true; false; false; true] /\
  ds_exprs (fst PrepareProof6.p_result) = [mkExpr [(6, (-(1))%Q)] 3%Q] /\
  map (ds_dep (fst PrepareProof6.p_result)) (seq 0 7) = [None; None; None; None; None; Some 0; None] /\
  map sl_vars (snd PrepareProof6.p_result) = [[2; 0; 1]] /\
  map (fun v => va_value (ds_vars (fst PrepareProof6.p_result) v)) (seq 0 7) = [0; 0; 1; 0; 0; 0; 0]%Z.
Proof. exact PrepareProof6.p_result_eq. Qed.
(** The same model meets the hypotheses of the second theorem with the two switches off. *)
Example C73_example_without : wants_dependents (mkSw true true true false true (fun _ => false) Smaller true) = false. Proof. reflexivity. Qed.
(** With presolve off a set partitioning constraint of that model still becomes a selection. *)
Example C73_example_off : exists r, prepare_problem 10 (mkSw false true true true true (fun _ => true) Smaller false) PrepareProof6.p_around true PrepareProof6.p_model = Some (Ok r) /\
  snd r <> [] /\ ds_cons (fst r) <> ds_cons PrepareProof6.p_model.
Proof. eexists. split; [vm_compute; reflexivity|]. split; [discriminate|]. cbn [fst ds_cons]. intros E. vm_compute in E. discriminate E. Qed.
