(** C05 and C06: constraints. *)
From Coq Require Import List ZArith QArith.
From Verif Require Import ExprModel ExprSpec ConstraintModel ConstraintSpec ConstraintProof.
Import ListNotations.
Local Open Scope Q_scope.

(** A comparison with an expression on at least one side creates a constraint
    whose violation at every assignment is the distance to the written relation,
    hence zero exactly where the relation holds. *)
Theorem C05_comparison_builds_written_constraint :
  forall (l : operand) (s : csense) (r : operand) (is01 : nat -> bool),
  (exists e, l = OExpr e) \/ (exists e, r = OExpr e) ->
  exists c, compare l s r is01 = Some c /\ forall x,
    let d := ct_violation (c_update c x) in
    distance (operand_value l x) s (operand_value r x) d /\
    (d == 0 <-> holds (operand_value l x) s (operand_value r x)).
Proof. exact compare_correct. Qed.
Print Assumptions C05_comparison_builds_written_constraint.

Example C05_example :
  (** 3 <= x0 - 2*x1 at x0 = 4, x1 = 1 is violated by 1. *)
  exists c, compare (ONum 3) Less (OExpr (mkExpr [(0%nat, 1); (1%nat, -2)] 0)) (fun _ => false) = Some c /\
  ct_violation (c_update c (fun v => if Nat.eqb v 0 then 4%Z else 1%Z)) == 1.
Proof. eexists. split; [reflexivity|]. vm_compute. reflexivity. Qed.

(** After update() and any history of update() and update(move), every stored
    quantity is the one a from-scratch evaluation at the current assignment
    gives, and is_feasible() compares the violation with the tolerance. *)
Theorem C06_constraint_history :
  forall (c0 : constr) (x0 : nat -> Z) (es : list c_event),
  NoDup (map fst (ex_sens (ct_expr c0))) -> Forall event_proper es ->
  let r := fold_left c_step es (c_update c0 x0, x0) in
  let c := fst r in let x := fold_left event_apply es x0 in
  let v := e_eval (ct_expr c0) x in
  snd r = x /\ ct_value c == v /\ ct_positive c == qmax v 0 /\ ct_negative c == qmax (- v) 0 /\
  distance v (ct_sense c0) 0 (ct_violation c) /\ 0 <= ct_violation c /\
  (c_is_feasible c = true <-> ct_violation c < 1 # 100000).
Proof. exact c_history. Qed.
Print Assumptions C06_constraint_history.

Example C06_example :
  let c := c_setup (mkExpr [(0%nat, 1); (1%nat, 1)] (-1)) Equal (fun _ => true) in
  let r := fold_left c_step [CMove [(0%nat, 1%Z)]; CMove [(1%nat, 1%Z); (0%nat, 0%Z)]; CMove [(0%nat, 1%Z)]]
                     (c_update c (fun _ => 0%Z), fun _ => 0%Z) in
  Forall event_proper [CMove [(0%nat, 1%Z)]; CMove [(1%nat, 1%Z); (0%nat, 0%Z)]; CMove [(0%nat, 1%Z)]] /\
  ct_violation (fst r) == 1 /\ c_is_feasible (fst r) = false.
Proof.
  split; [|split; vm_compute; reflexivity].
  repeat constructor; cbn; intuition discriminate.
Qed.
