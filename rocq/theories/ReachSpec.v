(** Specification for C78: what the search can get to. *)
From Coq Require Import List ZArith QArith Bool.
From Verif Require Import ExprModel ExprSpec VariableModel PresolveModel DependentModel SelectionModel EvalModel TabuModel.
Import ListNotations.
Local Open Scope nat_scope.

(** A walk from x: every move is on offer in the solution it is made from. *)
Fixpoint walk (on_offer : (nat -> Z) -> alterations -> Prop) (x : nat -> Z) (ms : list alterations) : Prop :=
  match ms with
  | [] => True
  | m :: tl => on_offer x m /\ walk on_offer (apply_move x m) tl
  end.
(** Where it ends. *)
Definition arrival (x : nat -> Z) (ms : list alterations) : nat -> Z := fold_left apply_move ms x.

(** The variables that are fixed have their fixed values. *)
Definition keeps_fixed (s : dstate) (x : nat -> Z) : Prop := forall v, va_fixed (ds_vars s v) = true -> x v = va_value (ds_vars s v).
(** Nothing but the variables defined by expressions differs. *)
Definition same_choice (s : dstate) (x y : nat -> Z) : Prop := forall v, v < ds_number s -> ds_dep s v = None -> x v = y v.
(** y is x with the values of the definitions. *)
Definition completed (s : dstate) (x y : nat -> Z) : Prop := forall v, v < ds_number s ->
  match ds_dep s v with
  | None => y v = x v
  | Some k => (inject_Z (y v) == e_eval (nth k (ds_exprs s) no_expr) x)%Q
  end.
(** How far apart two solutions are. *)
Fixpoint distance (s : dstate) (n : nat) (x y : nat -> Z) : Z :=
  match n with
  | O => 0%Z
  | S k => (distance s k x y + match ds_dep s k with None => Z.abs (x k - y k) | Some _ => 0 end)%Z
  end.
