(** Further specification for C08: what the variables of a constraint of each type
    are, and ordinary constraints that are recognized. *)
From Coq Require Import List ZArith QArith Qabs Bool Permutation.
From Verif Require Import ExprModel ExprSpec ConstraintModel ConstraintSpec VariableModel TypeModel TypeSpec.
Import ListNotations.
Local Open Scope Q_scope.

Definition is_free (x : tctx) (v : nat) : Prop := vi_fixed (tx_vi x v) = false.
Definition is_01 (x : tctx) (v : nat) : Prop := tx_sense x v = VBinary \/ tx_sense x v = VSelection.
Definition is_01_or_dependent (x : tctx) (v : nat) : Prop := tx_sense x v = VBinary \/ tx_sense x v = VDependentBinary.
Definition is_whole (x : tctx) (v : nat) : Prop := tx_sense x v = VInteger \/ tx_sense x v = VDependentInteger.
(** Within 1e-10 above an integer. *)
Definition nearly_whole (q : Q) : Prop := exists z, inject_Z z <= q /\ q < inject_Z z + EPS10.

Definition type_requires (x : tctx) (c : constr) (t : ctype) (key : option nat) : Prop :=
  let all (p : nat -> Prop) := forall v, In v (variables c) -> p v in
  match t with
  | ExclusiveOR | ExclusiveNOR | TrinomialExclusiveNOR => all (is_free x) /\ all (is_01_or_dependent x)
  | InvertedIntegers | BalancedIntegers | ConstantSumIntegers | ConstantDifferenceIntegers | ConstantRatioIntegers =>
      all (is_free x) /\ all (is_whole x)
  | Aggregation | Precedence | VariableBound => all (is_free x)
  | BinaryFlow | EquationKnapsack | Knapsack | BinPacking => all (is_01 x)
  | SoftSelection => all (is_01 x) /\ exists v, key = Some v /\ is_free x v
  | IntegerFlow => all (fun v => tx_sense x v = VInteger)
  | MinMax | MaxMin | Intermediate => (exists v, key = Some v /\ is_free x v /\ is_whole x v) /\ ct_is_integer c = true
  | GF2 => all (is_free x) /\ all (fun v => tx_sense x v = VBinary \/ key = Some v /\ tx_sense x v = VInteger)
  | _ => True
  end.

(** The sum of the variables vs compared with k. *)
Definition sum_constraint (vs : list nat) (s : csense) (k : Q) (is01 : nat -> bool) : constr :=
  c_setup (mkExpr (map (fun v => (v, 1)) vs) (- k)) s is01.
