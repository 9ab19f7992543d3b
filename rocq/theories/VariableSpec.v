(** Specification for C09 and C10. *)
From Coq Require Import List ZArith Bool.
From Verif Require Import VariableModel.
Import ListNotations.
Local Open Scope Z_scope.

(** Bounds of a 0/1 variable. *)
Definition zero_one (lo hi : Z) : Prop := 0 <= lo /\ hi <= 1.

Definition margins_truthful (v : var) : Prop :=
  (va_lower_margin v = true <-> va_lower v < va_value v) /\
  (va_upper_margin v = true <-> va_value v < va_upper v).

(** The operations allowed to change a fixed variable's value. *)
Definition forces (o : v_op) : Prop :=
  match o with VSetForce _ | VFixBy _ | VSetBound _ _ | VUpdate _ => True | _ => False end.

(** update() of a dependent variable, the one operation that does not refresh the
    margins. *)
Definition is_update (o : v_op) : Prop := match o with VUpdate _ => True | _ => False end.

(** Index vectors inside a shape. *)
Definition in_range (shape idx : list Z) : Prop := Forall2 (fun n i => 0 <= i < n) shape idx.
