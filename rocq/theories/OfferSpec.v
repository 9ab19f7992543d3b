(** Specification for C77. *)
From Coq Require Import List ZArith QArith Bool.
From Verif Require Import ExprModel ExprSpec ConstraintModel VariableModel PresolveModel DependentModel SelectionModel SelectionSpec PrepareModel EvalModel EvalSpec
  TabuModel LoopModel LocalModel.
From Verif Require ControllerModel.
From Verif Require Import OfferModel.
Import ListNotations.
Local Open Scope nat_scope.

(** The solution x is one the verification of the model accepts: binary variables at 0
    or 1, integer ones within their bounds, one variable of every selection at 1 and
    the others at 0. *)
Definition valid (r : dstate * list sel) (x : nat -> Z) : Prop :=
  valid_start (ds_number (fst r)) (fun v => v_with_value (ds_vars (fst r) v) (x v)) (snd r).

(** What is asked of the prepared problem: an integer variable that is not fixed takes
    values other than 0 and 1; no variable of a selection is fixed at 1; constraints
    have different names. *)
Record searchable (su : surroundings) (r : dstate * list sel) : Prop := mkSearchable {
  sb_integers : forall v, v < ds_number (fst r) -> va_fixed (ds_vars (fst r) v) = false -> va_sense (ds_vars (fst r) v) = VInteger ->
                (va_lower (ds_vars (fst r) v) < 0 \/ 1 < va_upper (ds_vars (fst r) v))%Z;
  sb_selections : forall t v, In t (snd r) -> In v (sl_vars t) -> va_fixed (ds_vars (fst r) v) = true -> va_value (ds_vars (fst r) v) <> 1%Z;
  sb_names : forall i j, i < length (ds_cons (fst r)) -> j < length (ds_cons (fst r)) -> su_cname su i = su_cname su j -> i = j }.
(** Flippable pairs: two different binary variables (also of a selection). *)
Definition flippable_pairs (r : dstate * list sel) (pairs : list (nat * nat)) : Prop := forall u v, In (u, v) pairs -> u <> v /\ forall w, w = u \/ w = v ->
  w < ds_number (fst r) /\ (va_sense (ds_vars (fst r) w) = VBinary \/ va_sense (ds_vars (fst r) w) = VSelection).

(** Chain moves set different binary variables to 0 or 1. *)
Definition chain_ok (r : dstate * list sel) (m : alterations) : Prop := NoDup (map fst m) /\
  forall v a, In (v, a) m -> v < ds_number (fst r) /\ va_sense (ds_vars (fst r) v) = VBinary /\ (a = 0 \/ a = 1)%Z.
Definition choice_ok (r : dstate * list sel) (c : choice) : Prop := forall k m, In (k, m) (ck_chains c) -> chain_ok r m.
(** The values found by the step-size adjuster are within the bounds (C37). *)
Definition targets_ok (r : dstate * list sel) (target : nat -> Z) : Prop := forall v, v < ds_number (fst r) -> va_sense (ds_vars (fst r) v) = VInteger ->
  (va_lower (ds_vars (fst r) v) <= target v <= va_upper (ds_vars (fst r) v))%Z.
(** Every variable that is not fixed and not defined by an expression occurs in a constraint of the search. *)
Definition all_anchored (r : dstate * list sel) : Prop := forall v, v < ds_number (fst r) -> va_fixed (ds_vars (fst r) v) = false -> ds_dep (fst r) v = None ->
  exists c, In c (ds_cons (fst r)) /\ ct_enabled c = true /\ In v (keys (ct_expr c)).
(** What is asked of the inputs. *)
Record driven (r : dstate * list sel) (a : ninputs) : Prop := mkDriven {
  dv_tenure : (0 <= ControllerModel.co_tenure (ni_control a))%Z;
  dv_rounds : forall g, In g (ni_rounds a) -> (0 <= lo_nmut (gd_options g))%Z /\ (forall c draw, In (c, draw) (gd_mods g) -> choice_ok r c) /\
              forall d, In d (gd_iters g) -> choice_ok r (dr_choice d) /\ targets_ok r (dr_target d);
  dv_local : forall o late ds, ni_local a = Some (o, late, ds) -> all_anchored r /\
              forall d, In d ds -> choice_ok r (sd_choice d) /\ targets_ok r (sd_target d) }.

(** A move that may be tried in x: it alters different variables of the model, none of
    them fixed or defined by an expression, to values within their bounds; its result is valid again; and its related constraints
    are listed once and include every constraint of the search it alters. *)
Definition legal (r : dstate * list sel) (x : nat -> Z) (t : tmove) : Prop :=
  NoDup (map fst (tm_alts t)) /\
  (forall v a, In (v, a) (tm_alts t) -> v < ds_number (fst r) /\ va_fixed (ds_vars (fst r) v) = false /\ ds_dep (fst r) v = None /\
     (va_lower (ds_vars (fst r) v) <= a <= va_upper (ds_vars (fst r) v))%Z) /\
  valid r (apply_move x (tm_alts t)) /\ NoDup (tm_related t) /\ covers (ds_cons (fst r)) (map fst (tm_alts t)) (tm_related t).
