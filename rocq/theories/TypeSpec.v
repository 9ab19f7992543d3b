(** Specification for C07 and C08: what each structural type says about the
    solutions of the constraint. *)
From Coq Require Import List ZArith QArith Qabs Bool Permutation.
From Verif Require Import ExprModel ExprSpec ConstraintModel ConstraintSpec VariableModel TypeModel.
Import ListNotations.
Local Open Scope Q_scope.

(** y satisfies the constraint. *)
Definition satisfies (c : constr) (y : nat -> Z) : Prop := holds (e_eval (ct_expr c) y) (ct_sense c) 0.
Definition variables (c : constr) : list nat := keys (ct_expr c).

(** c' is c with the coefficient map traversed in another order. *)
Definition reordered (c c' : constr) : Prop :=
  Permutation (ex_sens (ct_expr c)) (ex_sens (ct_expr c')) /\ ex_const (ct_expr c') = ex_const (ct_expr c) /\
  ct_sense c' = ct_sense c /\ ct_only_binary_coef c' = ct_only_binary_coef c /\
  ct_only_binary_var c' = ct_only_binary_var c /\ ct_is_integer c' = ct_is_integer c.

(** Variables of a 0/1 sense are confined to 0/1 (C09). *)
Definition proper_senses (x : tctx) : Prop :=
  forall v, tx_sense x v = VBinary \/ tx_sense x v = VSelection \/ tx_sense x v = VDependentBinary ->
  (0 <= vi_lower (tx_vi x v) /\ vi_upper (tx_vi x v) <= 1)%Z /\
  (vi_fixed (tx_vi x v) = true -> (0 <= vi_value (tx_vi x v) <= 1)%Z).
(** The flags recorded when the constraint was set up still describe it. *)
Definition truthful_flags (x : tctx) (c : constr) : Prop :=
  (ct_only_binary_coef c = true -> forall v a, In (v, a) (ex_sens (ct_expr c)) -> a == 1) /\
  (ct_only_binary_var c = true -> forall v, In v (variables c) -> tx_sense x v = VBinary \/ tx_sense x v = VSelection).

(** Number of variables at 1; sums. *)
Definition ones (vs : list nat) (y : nat -> Z) : Z := Z.of_nat (length (filter (fun v => Z.eqb (y v) 1) vs)).
Fixpoint total (vs : list nat) (y : nat -> Z) : Z := match vs with [] => 0%Z | v :: tl => (y v + total tl y)%Z end.
Fixpoint weight (vs : list nat) (w : nat -> Q) (y : nat -> Z) : Q :=
  match vs with [] => 0 | v :: tl => w v * inject_Z (y v) + weight tl w y end.

Definition type_meaning (x : tctx) (c : constr) (t : ctype) (key : option nat) : Prop :=
  let vs := variables c in
  let legal y := admissible (tx_vi x) y in
  let sat y := satisfies c y in
  match t with
  | Singleton => exists v, vs = [v]
  | ExclusiveOR => exists u v, vs = [u; v] /\ (key = Some u \/ key = Some v) /\
      forall y, legal y -> (sat y <-> (y u = 1 /\ y v = 0) \/ (y u = 0 /\ y v = 1))%Z
  | ExclusiveNOR => exists u v, vs = [u; v] /\ (key = Some u \/ key = Some v) /\
      forall y, legal y -> (sat y <-> (y u = 0 /\ y v = 0) \/ (y u = 1 /\ y v = 1))%Z
  | InvertedIntegers => exists u v, vs = [u; v] /\ (key = Some u \/ key = Some v) /\ forall y, sat y <-> (y u = - y v)%Z
  | BalancedIntegers => exists u v, vs = [u; v] /\ (key = Some u \/ key = Some v) /\ forall y, sat y <-> (y u = y v)%Z
  | ConstantSumIntegers => exists u v (k : Q), vs = [u; v] /\ (key = Some u \/ key = Some v) /\ ~ k == 0 /\
      forall y, sat y <-> inject_Z (y u + y v) == k
  | ConstantDifferenceIntegers => exists u v (k : Q), vs = [u; v] /\ (key = Some u \/ key = Some v) /\ ~ k == 0 /\
      forall y, sat y <-> inject_Z (y u - y v) == k
  | ConstantRatioIntegers => exists u v (r : Q), Permutation vs [u; v] /\ key = Some u /\ ~ Qabs r == 1 /\
      forall y, sat y <-> inject_Z (y u) == r * inject_Z (y v)
  | Aggregation => exists u v (a b k : Q), vs = [u; v] /\
      forall y, sat y <-> a * inject_Z (y u) + b * inject_Z (y v) == k
  | Precedence => exists u v (k : Q), Permutation vs [u; v] /\ tx_sense x u = tx_sense x v /\
      ((forall w a, In (w, a) (ex_sens (ct_expr c)) -> ~ a == 0) -> forall y, sat y <-> inject_Z (y u - y v) <= k)
  | VariableBound => exists u v (a b k : Q), vs = [u; v] /\
      forall y, sat y <-> a * inject_Z (y u) + b * inject_Z (y v) <= k
  | TrinomialExclusiveNOR => exists u v w (k : Q), Permutation vs [u; v; w] /\ key = Some w /\
      (forall y, sat y <-> inject_Z (y u + y v) == inject_Z (2 * y w) + k) /\
      (ex_const (ct_expr c) == 0 -> forall y, legal y -> (sat y <-> y u = y w /\ y v = y w))
  | SetPartitioning => forall y, legal y -> (sat y <-> ones vs y = 1%Z)
  | SetPacking => forall y, legal y -> (sat y <-> (ones vs y <= 1)%Z)
  | SetCovering => forall y, legal y -> (sat y <-> (1 <= ones vs y)%Z)
  | Cardinality => exists k : Q, 2 <= k /\ forall y, legal y -> (sat y <-> inject_Z (ones vs y) == k)
  | InvariantKnapsack => exists k : Q, 2 <= k /\ forall y, legal y -> (sat y <-> inject_Z (ones vs y) <= k)
  | MultipleCovering => exists k : Q, 2 <= k /\ forall y, legal y -> (sat y <-> k <= inject_Z (ones vs y))
  | BinaryFlow | IntegerFlow => exists ins outs (k : Q), Permutation vs (ins ++ outs) /\
      forall y, sat y <-> inject_Z (total ins y - total outs y) == k
  | SoftSelection => exists u others, key = Some u /\ Permutation vs (u :: others) /\ others <> [] /\
      forall y, legal y -> (sat y <-> (y u = 0 /\ ones others y = 0) \/ (y u = 1 /\ ones others y = 1))%Z
  | MinMax => exists u r, key = Some u /\ In u vs /\ ~ In u (keys r) /\ incl (keys r) vs /\
      forall y, sat y <-> e_eval r y <= inject_Z (y u)
  | MaxMin => exists u r, key = Some u /\ In u vs /\ ~ In u (keys r) /\ incl (keys r) vs /\
      forall y, sat y <-> inject_Z (y u) <= e_eval r y
  | Intermediate => exists u r, key = Some u /\ In u vs /\ ~ In u (keys r) /\ incl (keys r) vs /\
      forall y, sat y <-> inject_Z (y u) == e_eval r y
  | EquationKnapsack => exists w (cap : Q), (forall v, In v vs -> 0 <= w v) /\ forall y, sat y <-> weight vs w y == cap
  | Knapsack | IntegerKnapsack =>
      exists w (cap : Q), (forall v, In v vs -> 0 <= w v) /\ forall y, sat y <-> weight vs w y <= cap
  | BinPacking =>
      exists w (cap : Q) v, (forall v, In v vs -> 0 <= w v) /\ In v vs /\ w v == cap /\ forall y, sat y <-> weight vs w y <= cap
  | GF2 => exists u others (k : Z), key = Some u /\ Permutation vs (u :: others) /\
      (forall y, sat y -> Z.even (total others y + k) = true) /\
      (forall y, legal y -> Z.even (total others y + k) = true -> exists z,
         sat (fun v => if Nat.eqb v u then z else y v) /\
         (vi_lower (tx_vi x u) <> INT_HALF_MIN -> vi_lower (tx_vi x u) <= z)%Z /\
         (vi_upper (tx_vi x u) <> INT_HALF_MAX -> z <= vi_upper (tx_vi x u))%Z)
  | GeneralLinear => True
  end.
