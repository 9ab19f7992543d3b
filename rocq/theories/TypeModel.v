(** Model of the structural classification of constraints
    (constraint.h: clear_constraint_type, setup_constraint_type, type).
    [abs] on coefficients is the real absolute value.  The loops that compute a
    flag or collect pointers are written with forallb / filter: their early exits
    only skip work. *)
From Coq Require Import List ZArith QArith Qabs Qround Bool Arith.
From Verif Require Import ExprModel ConstraintModel VariableModel.
Import ListNotations.
Local Open Scope Q_scope.

(** One per m_is_* flag (constraint.h:85-115). *)
Inductive ctype :=
| Singleton | ExclusiveOR | ExclusiveNOR | InvertedIntegers | BalancedIntegers
| ConstantSumIntegers | ConstantDifferenceIntegers | ConstantRatioIntegers | Aggregation
| Precedence | VariableBound | TrinomialExclusiveNOR | SetPartitioning | SetPacking | SetCovering
| Cardinality | InvariantKnapsack | MultipleCovering | BinaryFlow | IntegerFlow | SoftSelection
| MinMax | MaxMin | Intermediate | EquationKnapsack | BinPacking | Knapsack | IntegerKnapsack
| GF2 | GeneralLinear.
Definition ctype_eq_dec (a b : ctype) : {a = b} + {a <> b}.
Proof. decide equality. Defined.

(** The flags and the key variable. *)
Record tstate := mkT { ty_flag : ctype -> bool; ty_key : option nat }.
Definition set_flag (f : ctype -> bool) (t : ctype) (b : bool) : ctype -> bool :=
  fun u => if ctype_eq_dec u t then b else f u.

(** The flags reset by clear_constraint_type (constraint.h:190-223), in order. *)
Definition cleared : list ctype :=
  [Singleton; ExclusiveOR; ExclusiveNOR; InvertedIntegers; BalancedIntegers; ConstantSumIntegers;
   ConstantDifferenceIntegers; ConstantRatioIntegers; Aggregation; Precedence; VariableBound;
   TrinomialExclusiveNOR; SetPartitioning; SetPacking; SetCovering; Cardinality; InvariantKnapsack;
   MultipleCovering; BinaryFlow; IntegerFlow; SoftSelection; MinMax; MaxMin; Intermediate;
   EquationKnapsack; BinPacking; Knapsack; IntegerKnapsack; GF2; GeneralLinear].
Definition clear_type (s : tstate) : tstate :=
  mkT (fold_left (fun f t => set_flag f t false) cleared (ty_flag s)) None.

(** What the classification reads from the variables. *)
Record tctx := mkTctx { tx_vi : nat -> vinfo; tx_sense : nat -> vsense; tx_name : nat -> nat }.

Definition binaryish (s : vsense) : bool := match s with VBinary | VDependentBinary => true | _ => false end.
Definition integerish (s : vsense) : bool := match s with VInteger | VDependentInteger => true | _ => false end.
Definition zero_one_sense (s : vsense) : bool := match s with VBinary | VSelection => true | _ => false end.
Definition is_binary (s : vsense) : bool := match s with VBinary => true | _ => false end.
Definition is_integer_sense (s : vsense) : bool := match s with VInteger => true | _ => false end.
Definition sense_eqb (a b : vsense) : bool :=
  match a, b with
  | VBinary, VBinary | VInteger, VInteger | VSelection, VSelection
  | VDependentBinary, VDependentBinary | VDependentInteger, VDependentInteger => true
  | _, _ => false end.
Definition csense_eqb (a b : csense) : bool :=
  match a, b with Less, Less | Equal, Equal | Greater, Greater => true | _, _ => false end.

Definition qe (a b : Q) : bool := Qeq_bool a b.
Definition unit_abs (a : Q) : bool := Qeq_bool (Qabs a) 1.
Definition ltq (a b : Q) : bool := if Qlt_le_dec a b then true else false.

(** None: the block does not return. *)
Definition verdict := option (ctype * option nat).

Section Classify.
Variable x : tctx.
Variable c : constr.
Let e := ct_expr c.
Let s := ex_sens e.
Let k := ex_const e.
Let fixed v := vi_fixed (tx_vi x v).
Let sense v := tx_sense x v.
Let equal := csense_eqb (ct_sense c) Equal.
Let less := csense_eqb (ct_sense c) Less.
Let greater := csense_eqb (ct_sense c) Greater.

(** constraint.h:305-309. *)
Definition b_singleton : verdict := if (length s =? 1)%nat then Some (Singleton, None) else None.

(** constraint.h:311-438. *)
Definition b_pair_equal : verdict :=
  match s with
  | [(v0, c0); (v1, c1)] =>
      if equal && negb (fixed v0) && negb (fixed v1) then
        let key := if (tx_name x v0 <? tx_name x v1)%nat then v0 else v1 in
        if binaryish (sense v0) && binaryish (sense v1) && qe c0 1 && qe c1 1 && qe k (-1) then Some (ExclusiveOR, Some key)
        else if binaryish (sense v0) && binaryish (sense v1) && qe c0 (-1) && qe c1 (-1) && qe k 1 then Some (ExclusiveOR, Some key)
        else if binaryish (sense v0) && binaryish (sense v1) && qe c0 1 && qe c1 (-1) && qe k 0 then Some (ExclusiveNOR, Some key)
        else if binaryish (sense v0) && binaryish (sense v1) && qe c0 (-1) && qe c1 1 && qe k 0 then Some (ExclusiveNOR, Some key)
        else if integerish (sense v0) && integerish (sense v1) then
          if qe c0 1 && qe c1 1 && qe k 0 then Some (InvertedIntegers, Some key)
          else if qe c0 (-1) && qe c1 (-1) && qe k 0 then Some (InvertedIntegers, Some key)
          else if qe c0 1 && qe c1 (-1) && qe k 0 then Some (BalancedIntegers, Some key)
          else if qe c0 (-1) && qe c1 1 && qe k 0 then Some (BalancedIntegers, Some key)
          else if qe c0 1 && qe c1 1 && negb (qe k 0) then Some (ConstantSumIntegers, Some key)
          else if qe c0 (-1) && qe c1 (-1) && negb (qe k 0) then Some (ConstantSumIntegers, Some key)
          else if qe c0 1 && qe c1 (-1) && negb (qe k 0) then Some (ConstantDifferenceIntegers, Some key)
          else if qe c0 (-1) && qe c1 1 && negb (qe k 0) then Some (ConstantDifferenceIntegers, Some key)
          else if unit_abs c0 && negb (unit_abs c1) && qe k 0 then Some (ConstantRatioIntegers, Some v0)
          else if negb (unit_abs c0) && unit_abs c1 && qe k 0 then Some (ConstantRatioIntegers, Some v1)
          else if unit_abs c0 && negb (unit_abs c1) && ct_is_integer c then Some (Intermediate, Some v0)
          else if negb (unit_abs c0) && unit_abs c1 && ct_is_integer c then Some (Intermediate, Some v1)
          else Some (Aggregation, None)
        else Some (Aggregation, None)
      else None
  | _ => None
  end.

(** constraint.h:440-477. *)
Definition b_pair_inequality : verdict :=
  match s with
  | [(v0, c0); (v1, c1)] =>
      if negb equal && negb (fixed v0) && negb (fixed v1) then
        if sense_eqb (sense v0) (sense v1) && qe c0 (- c1) then Some (Precedence, None)
        else Some (VariableBound, None)
      else None
  | _ => None
  end.

(** The pointers collected with a given coefficient. *)
Definition with_coef (a : Q) : list nat := map fst (filter (fun p => qe (snd p) a) s).

(** constraint.h:479-536. *)
Definition b_trinomial : verdict :=
  if (length s =? 3)%nat && equal && forallb (fun p => negb (fixed (fst p))) s
     && forallb (fun p => binaryish (sense (fst p))) s then
    match with_coef 1, with_coef (-(2)) with
    | [_; _], [key] => Some (TrinomialExclusiveNOR, Some key)
    | _, _ =>
        match with_coef (-(1)), with_coef 2 with
        | [_; _], [key] => Some (TrinomialExclusiveNOR, Some key)
        | _, _ => None
        end
    end
  else None.

(** constraint.h:538-584. *)
Definition b_set : verdict :=
  if ct_only_binary_coef c && ct_only_binary_var c then
    if qe k (-1) && equal then Some (SetPartitioning, None)
    else if qe k (-1) && less then Some (SetPacking, None)
    else if qe k (-1) && greater then Some (SetCovering, None)
    else if Qle_bool k (-(2)) && equal then Some (Cardinality, None)
    else if Qle_bool k (-(2)) && less then Some (InvariantKnapsack, None)
    else if Qle_bool k (-(2)) && greater then Some (MultipleCovering, None)
    else None
  else None.

(** constraint.h:586-654. *)
Definition b_flow : verdict :=
  if equal && forallb (fun p => unit_abs (snd p)) s then
    let plus := with_coef 1 in
    let minus := map fst (filter (fun p => negb (qe (snd p) 1)) s) in
    if forallb (fun p => zero_one_sense (sense (fst p))) s then
      match plus, minus with
      | [key], _ :: _ =>
          if negb (fixed key) && qe k 0 then Some (SoftSelection, Some key)
          else match minus with
               | [key'] => if negb (fixed key') && qe k 0 then Some (SoftSelection, Some key') else Some (BinaryFlow, None)
               | _ => Some (BinaryFlow, None)
               end
      | _ :: _, [key] => if negb (fixed key) && qe k 0 then Some (SoftSelection, Some key) else Some (BinaryFlow, None)
      | _, _ => Some (BinaryFlow, None)
      end
    else if forallb (fun p => is_integer_sense (sense (fst p))) s && (1 <? length plus)%nat && (1 <? length minus)%nat
         then Some (IntegerFlow, None) else None
  else None.

(** constraint.h:656-743. *)
Definition free_integer (p : nat * Q) : bool := integerish (sense (fst p)) && negb (fixed (fst p)).
Definition b_minmax : verdict :=
  if ct_is_integer c then
    let plus := map fst (filter (fun p => free_integer p && qe (snd p) 1) s) in
    let minus := map fst (filter (fun p => free_integer p && qe (snd p) (-1)) s) in
    match minus, plus with
    | [key], [] => if less then Some (MinMax, Some key)
                   else if greater then Some (MaxMin, Some key)
                   else Some (Intermediate, Some key)
    | [], [key] => if greater then Some (MinMax, Some key)
                   else if less then Some (MaxMin, Some key)
                   else Some (Intermediate, Some key)
    | [key], _ :: _ :: _ => if equal then Some (Intermediate, Some key) else None
    | _ :: _ :: _, [key] => if equal then Some (Intermediate, Some key) else None
    | _, _ => None
    end
  else None.

(** constraint.h:745-807. *)
Definition b_knapsack : verdict :=
  let positive := forallb (fun p => negb (ltq (snd p) 0)) s in
  let negative := forallb (fun p => negb (ltq 0 (snd p))) s in
  let item := existsb (fun p => qe (snd p) (- k)) s in
  let one_sided := (positive && less) || (negative && greater) in
  if forallb (fun p => zero_one_sense (sense (fst p))) s then
    if equal && (positive || negative) then Some (EquationKnapsack, None)
    else if item && one_sided then Some (BinPacking, None)
    else if one_sided then Some (Knapsack, None)
    else None
  else if one_sided then Some (IntegerKnapsack, None) else None.

(** constraint.h:809-888. *)
Definition two_key (p : nat * Q) : bool :=
  (is_integer_sense (sense (fst p)) || is_binary (sense (fst p))) && qe (Qabs (snd p)) 2.
Definition b_gf2 : verdict :=
  if (qe k 0 || unit_abs k) && equal
     && forallb (fun p => negb (fixed (fst p)) && (two_key p || (is_binary (sense (fst p)) && unit_abs (snd p)))) s then
    match filter two_key s with
    | [(key, a)] =>
        let rest := mkExpr (sens_erase s key) k in
        let lo := e_lower rest (tx_vi x) in
        let hi := e_upper rest (tx_vi x) in
        let '(lo, hi) := if ltq 0 a then (- hi, - lo) else (lo, hi) in
        let kl := vi_lower (tx_vi x key) in
        let ku := vi_upper (tx_vi x key) in
        if (negb (kl =? INT_HALF_MIN)%Z && (Qceiling (lo * (1 # 2)) <? kl)%Z)
           || (negb (ku =? INT_HALF_MAX)%Z && (ku <? Qfloor (hi * (1 # 2)))%Z)
        then None else Some (GF2, Some key)
    | _ => None
    end
  else None.

Fixpoint first_verdict (bs : list verdict) : ctype * option nat :=
  match bs with
  | [] => (GeneralLinear, None)
  | Some r :: _ => r
  | None :: tl => first_verdict tl
  end.

(** The chain of blocks (constraint.h:303-892). *)
Definition classify : ctype * option nat :=
  first_verdict [b_singleton; b_pair_equal; b_pair_inequality; b_trinomial; b_set; b_flow; b_minmax; b_knapsack; b_gf2].

End Classify.

(** setup_constraint_type (constraint.h:303-892). *)
Definition setup_type (x : tctx) (c : constr) (st : tstate) : tstate :=
  let st := clear_type st in
  let '(t, key) := classify x c in
  mkT (set_flag (ty_flag st) t true) key.

(** type() (constraint.h:1306-1428): the first flag set, None is "Unknown". *)
Definition type_name (st : tstate) : option ctype := find (ty_flag st) cleared.
