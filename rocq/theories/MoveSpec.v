(** Specification for C34, C35, C38 and C50. *)
From Coq Require Import List ZArith NArith QArith Bool.
From Verif Require Import ExprModel ExprSpec ConstraintModel ConstraintSpec VariableModel TypeModel TypeSpec PresolveModel MoveModel.
Import ListNotations.
Local Open Scope Z_scope.

(** ** C34 *)
(** The move writes no fixed variable and stays within the bounds. *)
Definition respects (vs : vars) (m : alterations) : Prop :=
  forall v a, In (v, a) m -> va_fixed (vs v) = false /\ va_lower (vs v) <= a <= va_upper (vs v).
(** A free 0/1 variable. *)
Definition free_binary (v : var) : Prop := va_lower v = 0 /\ va_upper v = 1 /\ 0 <= va_value v <= 1.
(** What each generator leaves to its data: nothing for those that test bounds and
    fixedness themselves. *)
Definition data_ok (vs : vars) (g : gen) : Prop :=
  match g with
  | GBinary l => forall v, In v l -> va_fixed (vs v) = false /\ free_binary (vs v)
  | GInteger l => forall v, In v l -> va_fixed (vs v) = false /\ va_lower (vs v) <= va_value (vs v) <= va_upper (vs v)
  | GSpecial SoftSelection items _ =>
      forall c k v, In (c, k) items -> In v (variables c) \/ k = Some v -> va_lower (vs v) = 0 /\ va_upper (vs v) = 1
  | GChain ms _ => forall m v a, In m ms -> In (v, a) m -> va_lower (vs v) = 0 /\ va_upper (vs v) = 1 /\ 0 <= a <= 1
  | GTwoFlip pairs _ => forall u v, In (u, v) pairs ->
      va_lower (vs u) = 0 /\ va_upper (vs u) = 1 /\ va_lower (vs v) = 0 /\ va_upper (vs v) = 1
  | _ => True
  end.
(** A move some generator offers. *)
Definition offered (addr : nat -> N) (vs : vars) (ac : accept) (g : gen) (m : alterations) : Prop :=
  exists l f, gen_update addr vs ac g = Some l /\ In (m, f) l /\ f <> 0.

(** When a stored move is left out.  [i]: its place in the generator's list. *)
Definition writes_fixed (vs : vars) (m : alterations) : Prop := exists v a, In (v, a) m /\ va_fixed (vs v) = true.
Definition writes_selection (vs : vars) (m : alterations) : Prop := exists v a, In (v, a) m /\ va_sense (vs v) = VSelection.
Definition leaves_bounds (vs : vars) (m : alterations) : Prop := exists v a, In (v, a) m /\ (a < va_lower (vs v) \/ va_upper (vs v) < a).
Definition keeps_a_value (vs : vars) (m : alterations) : Prop := exists v a, In (v, a) m /\ va_value (vs v) = a.
Definition left_out (vs : vars) (g : gen) (i : nat) (m : alterations) : Prop :=
  writes_fixed vs m \/
  match g with
  | GBinary _ | GInteger _ => False
  | GUser _ => writes_selection vs m \/ leaves_bounds vs m
  | GChain _ available => available i = false \/ keeps_a_value vs m
  | GTwoFlip _ available => available i = false \/ writes_selection vs m \/ keeps_a_value vs m
  | GSpecial t _ available =>
      available i = false \/ (t <> SoftSelection /\ leaves_bounds vs m) \/
      (In t [ExclusiveOR; ExclusiveNOR; TrinomialExclusiveNOR; SoftSelection] /\ keeps_a_value vs m)
  end.
(** What the screening asks for. *)
Definition wanted (ac : accept) (m : alterations) : Prop :=
  ac_all ac = true \/ (ac_obj ac = true /\ exists v a, In (v, a) m /\ im_obj ac v = true) \/
  (ac_feas ac = true /\ exists v a, In (v, a) m /\ im_feas ac v = true).

(** ** C35 *)
Definition special (t : ctype) : Prop :=
  In t [ExclusiveOR; ExclusiveNOR; InvertedIntegers; BalancedIntegers; ConstantSumIntegers; ConstantDifferenceIntegers;
        ConstantRatioIntegers; Aggregation; Precedence; VariableBound; SoftSelection; TrinomialExclusiveNOR].
Definition integral (q : Q) : Prop := exists z : Z, (q == inject_Z z)%Q.
(** The coefficient of the variable of c with the lower address. *)
Definition first_coef (addr : nat -> N) (c : constr) (a : Q) : Prop :=
  exists u v b, (ex_sens (ct_expr c) = [(u, a); (v, b)] /\ (addr u < addr v)%N) \/
                (ex_sens (ct_expr c) = [(v, b); (u, a)] /\ (addr u < addr v)%N).
Definition after (x : nat -> Z) (m : alterations) : nat -> Z := apply_move x m.
(** The move leaves the value of the constraint's left-hand side alone. *)
Definition value_kept (c : constr) (x : nat -> Z) (m : alterations) : Prop :=
  (e_eval (ct_expr c) (after x m) == e_eval (ct_expr c) x)%Q.
(** Distinct variables live at distinct addresses. *)
Definition distinct_addresses (addr : nat -> N) : Prop := forall u v, addr u = addr v -> u = v.

(** ** C38 *)
(** The moves with a set flag, in order. *)
Definition flagged {M} (g : gview M) : list M :=
  if gv_enabled g then map fst (filter (fun p => negb (snd p =? 0)) (combine (gv_moves g) (gv_flags g))) else [].
Definition sound_flags {M} (g : gview M) : Prop :=
  length (gv_flags g) = length (gv_moves g) /\ forall f, In f (gv_flags g) -> f = 0 \/ f = 1.

(** ** C50 *)
(** m flips 0/1 variables of x, each once. *)
Definition flips (x : nat -> Z) (m : alterations) : Prop := proper m /\ forall v a, In (v, a) m -> a = 1 - x v.
