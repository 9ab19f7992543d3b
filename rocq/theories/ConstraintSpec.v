(** Specification for C05 and C06. *)
From Coq Require Import List ZArith QArith Qabs.
From Verif Require Import ExprModel ExprSpec ConstraintModel.
Local Open Scope Q_scope.

(** Truth of "l s r" and distance to it. *)
Definition holds (l : Q) (s : csense) (r : Q) : Prop :=
  match s with Less => l <= r | Equal => l == r | Greater => r <= l end.

Inductive distance (l : Q) : csense -> Q -> Q -> Prop :=
| dist_sat s r d : holds l s r -> d == 0 -> distance l s r d
| dist_less r d : r < l -> d == l - r -> distance l Less r d
| dist_greater r d : l < r -> d == r - l -> distance l Greater r d
| dist_equal r d : ~ l == r -> d == Qabs (l - r) -> distance l Equal r d.

(** Value of an operand. *)
Definition operand_value (o : operand) (x : nat -> Z) : Q :=
  match o with OExpr e => e_eval e x | ONum a => a end.
Definition operand_wf (o : operand) : Prop := match o with OExpr e => wf e | ONum _ => True end.

Definition event_proper (e : c_event) : Prop := match e with CUpdate => True | CMove m => proper m end.
Definition event_apply (x : nat -> Z) (e : c_event) : nat -> Z :=
  match e with CUpdate => x | CMove m => apply_move x m end.

(** The parts of a constraint's state agree with assignment x. *)
Definition agrees (c : constr) (x : nat -> Z) : Prop :=
  ct_evalue c == e_eval (ct_expr c) x /\ ct_value c == e_eval (ct_expr c) x /\
  ct_positive c == qmax (e_eval (ct_expr c) x) 0 /\
  ct_negative c == qmax (- e_eval (ct_expr c) x) 0 /\
  distance (e_eval (ct_expr c) x) (ct_sense c) 0 (ct_violation c).

