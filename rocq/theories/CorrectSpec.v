(** Specification for C82: which variable the correction of the initial values
    chooses in a selection. *)
From Coq Require Import List ZArith QArith.
From Verif Require Import ExprModel ConstraintModel ConstraintSpec VariableModel PresolveModel DuplicateModel SelectionModel.
Import ListNotations.

(** Integer coefficients and an integer constant. *)
Definition integer_data (c : constr) : Prop :=
  (forall p, In p (ex_sens (ct_expr c)) -> exists z, (snd p == inject_Z z)%Q) /\ exists z, (ex_const (ct_expr c) == inject_Z z)%Q.

(** Just one variable of the selection is at 1, and it is free. *)
Definition kept (vs : vars) (s : sel) : Prop :=
  exists v, In v (sl_vars s) /\ va_value (vs v) = 1%Z /\ va_fixed (vs v) = false /\
    forall w, In w (sl_vars s) -> va_value (vs w) = 1%Z -> w = v.
(** The variables that may be chosen: the free ones at 1, or if none is at 1 all free
    ones. *)
Definition candidate (vs : vars) (s : sel) (v : nat) : Prop :=
  In v (sl_vars s) /\ va_fixed (vs v) = false /\
  (va_value (vs v) = 1%Z \/ forall w, In w (sl_vars s) -> va_value (vs w) <> 1%Z).

(** What a candidate v is judged by: v and the variables chosen in the selections in
    [counted] are 1, all others 0.  [vs'] is the state after the correction. *)
Definition judged (counted : sel -> Prop) (vs' : vars) (v : nat) (y : nat -> Z) : Prop :=
  let one w := w = v \/ exists t, counted t /\ In w (sl_vars t) /\ va_value (vs' w) = 1%Z in
  forall w, (one w -> y w = 1%Z) /\ (~ one w -> y w = 0%Z).
(** h is the sum of the violations, at y, of the constraints in which v occurs. *)
Definition harm (cs : list constr) (v : nat) (y : nat -> Z) (h : Q) : Prop :=
  exists ds, Forall2 (fun c d => (In v (map fst (ex_sens (ct_expr c))) /\ distance (e_eval (ct_expr c) y) (ct_sense c) 0 d) \/
                                 (~ In v (map fst (ex_sens (ct_expr c))) /\ d == 0)%Q) cs ds /\
             (h == fold_right Qplus 0 ds)%Q.
(** w comes before v in the list. *)
Definition before (l : list nat) (w v : nat) : Prop := exists a b c, l = a ++ w :: b ++ v :: c.
