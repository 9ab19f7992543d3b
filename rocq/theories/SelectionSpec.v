(** Specification for C32, C33 and C36. *)
From Coq Require Import List ZArith QArith Bool.
From Verif Require Import ExprModel ExprSpec ConstraintModel VariableModel TypeModel TypeSpec PresolveModel PresolveSpec DuplicateModel DuplicateSpec SelectionModel.
Import ListNotations.

(** Constraint i can become a selection. *)
Definition eligible (x : tctx) (vs : vars) (cs : list constr) (i : nat) (c : constr) : Prop :=
  nth_error cs i = Some c /\ ct_enabled c = true /\ fst (classify x c) = SetPartitioning /\
  forall v, In v (variables c) -> va_sense (vs v) = VBinary.
(** The selection has a variable of the constraint. *)
Definition touches (s : sel) (c : constr) : Prop := exists v, In v (sl_vars s) /\ In v (variables c).
(** No variable belongs to two selections. *)
Definition disjoint_selections (sels : list sel) : Prop :=
  forall i j s t, i <> j -> nth_error sels i = Some s -> nth_error sels j = Some t ->
  forall v, In v (sl_vars s) -> ~ In v (sl_vars t).

(** v is the variable at 1 and all others of l are at 0. *)
Definition chosen (vs : vars) (l : list nat) (v : nat) : Prop :=
  In v l /\ va_value (vs v) = 1%Z /\ forall w, In w l -> w <> v -> va_value (vs w) = 0%Z.
(** Only the value (and the margins) may differ, and not for fixed variables. *)
Definition same_but_value (vs vs' : vars) : Prop := forall v,
  va_lower (vs' v) = va_lower (vs v) /\ va_upper (vs' v) = va_upper (vs v) /\ va_fixed (vs' v) = va_fixed (vs v) /\
  va_sense (vs' v) = va_sense (vs v) /\ (va_fixed (vs v) = true -> va_value (vs' v) = va_value (vs v)).

(** What the earlier phases guarantee about the selections: disjoint, without
    repetition, over variables of sense Selection. *)
Definition selections_ready (vs : vars) (sels : list sel) : Prop :=
  disjoint_selections sels /\ forall s, In s sels -> NoDup (sl_vars s) /\ forall v, In v (sl_vars s) -> va_sense (vs v) = VSelection.
(** Binary variables have bounds within 0..1, and all variables lower <= upper. *)
Definition sane_bounds (n : nat) (vs : vars) : Prop := forall v, (v < n)%nat ->
  (va_lower (vs v) <= va_upper (vs v))%Z /\
  (va_sense (vs v) = VBinary -> (0 <= va_lower (vs v) /\ va_upper (vs v) <= 1)%Z).
(** A state the verification accepts as it is. *)
Definition valid_start (n : nat) (vs : vars) (sels : list sel) : Prop :=
  (forall s, In s sels -> exists v, chosen vs (sl_vars s) v) /\
  forall v, (v < n)%nat ->
    (va_sense (vs v) = VBinary -> va_value (vs v) = 0 \/ va_value (vs v) = 1)%Z /\
    (va_sense (vs v) = VInteger -> (va_lower (vs v) <= va_value (vs v) <= va_upper (vs v))%Z).

(** The selected variable is the one at 1, and it is not fixed. *)
Definition tracked (vs : vars) (s : sel) : Prop :=
  exists v, sl_selected s = Some v /\ chosen vs (sl_vars s) v /\ va_fixed (vs v) = false.
(** The fixed variables rule out any valid start. *)
Definition hopeless (n : nat) (vs : vars) (sels : list sel) : Prop :=
  (exists s, In s sels /\
     ((exists v, In v (sl_vars s) /\ va_fixed (vs v) = true /\ va_value (vs v) <> 0%Z /\ va_value (vs v) <> 1%Z) \/
      (exists v w, v <> w /\ In v (sl_vars s) /\ In w (sl_vars s) /\ va_fixed (vs v) = true /\ va_fixed (vs w) = true /\
                   va_value (vs v) = 1%Z /\ va_value (vs w) = 1%Z) \/
      (forall v, In v (sl_vars s) -> va_fixed (vs v) = true /\ va_value (vs v) <> 1%Z))) \/
  (exists v, (v < n)%nat /\ va_fixed (vs v) = true /\
     ((va_sense (vs v) = VBinary /\ va_value (vs v) <> 0%Z /\ va_value (vs v) <> 1%Z) \/
      (va_sense (vs v) = VInteger /\ ~ (va_lower (vs v) <= va_value (vs v) <= va_upper (vs v))%Z))).
(** What becomes of a selection: its selected variable is left alone, or set to the
    variable at 1; always the latter when nothing needs correction. *)
Definition carried (correct : bool) (vs' : vars) (s s' : sel) : Prop :=
  sl_vars s' = sl_vars s /\ sl_con s' = sl_con s /\ sl_related s' = sl_related s /\
  (sl_selected s' = sl_selected s \/ tracked vs' s') /\
  (correct = false -> forall v, chosen vs' (sl_vars s) v -> va_fixed (vs' v) = false -> sl_selected s' = Some v).
(** The violation of some candidate does not fit an int. *)
Definition overflowing (cs : list constr) (sens : nat -> list (nat * Q)) (sels : list sel) : Prop :=
  exists s v vals, In s sels /\ In v (sl_vars s) /\ (INT_MAX <= candidate_violation cs sens vals v)%Z.
(** A history of selection moves. *)
Fixpoint run_moves (vs : vars) (sels : list sel) (ms : list (nat * nat)) : option (vars * list sel) :=
  match ms with
  | [] => Some (vs, sels)
  | (k, v) :: tl => match apply_selection_move vs sels k v with None => None | Some (vs', sels') => run_moves vs' sels' tl end
  end.
