(** Model of preprocess/problem_size_reducer.h, second half: redundant set
    variables (563-703), implicit equalities (706-890), duplicated constraints
    (893-1108), redundant set constraints (1111-1191).
    Constraints are positions in a list; [addr] and [caddr] give the addresses of
    variables and constraints; std::stable_sort is a stable insertion sort. *)
From Coq Require Import List ZArith NArith QArith Bool.
From Verif Require Import ExprModel ConstraintModel VariableModel TypeModel PresolveModel.
Import ListNotations.

Section Sort.
  Context {A : Type} (lt : A -> A -> bool).
  Fixpoint insert_sorted (a : A) (l : list A) : list A :=
    match l with [] => [a] | b :: tl => if lt b a then b :: insert_sorted a tl else a :: b :: tl end.
  Definition stable_sort (l : list A) : list A := fold_right insert_sorted [] l.
End Sort.

(** What the type tests read about the variables; [name]: rank of the name. *)
Definition vctx (name : nat -> nat) (vs : vars) : tctx := mkTctx (vi_of vs) (fun v => va_sense (vs v)) name.
(** constraint_type_reference (model.h:1078-1245): constraints by type, in order,
    enabled or not. *)
Definition type_refs (x : tctx) (cs : list constr) (t : ctype) : list nat :=
  filter (fun i => match nth_error cs i with
                   | Some c => if ctype_eq_dec (fst (classify x c)) t then true else false
                   | None => false end) (seq 0 (length cs)).

(** Expression::setup_hash (expression.h:253-263), in std::uint64_t. *)
Definition expr_hash (addr : nat -> N) (e : expr) : N :=
  fold_left (fun h p => ((h + addr (fst p)) mod 2 ^ 64)%N) (ex_sens e) 0%N.
(** operator== of std::unordered_map. *)
Definition sens_equal (s t : sens) : bool :=
  Nat.eqb (length s) (length t) &&
  forallb (fun p => match sens_find t (fst p) with Some d => Qeq_bool (snd p) d | None => false end) s.
(** Expression::equal (expression.h:451-466). *)
Definition e_equal (addr : nat -> N) (e f : expr) : bool :=
  N.eqb (expr_hash addr e) (expr_hash addr f) && Nat.eqb (length (ex_sens e)) (length (ex_sens f)) &&
  Qeq_bool (ex_const e) (ex_const f) && sens_equal (ex_sens e) (ex_sens f).

Definition csense_eqb (a b : csense) : bool :=
  match a, b with Less, Less | Equal, Equal | Greater, Greater => true | _, _ => false end.

Fixpoint disable_at (cs : list constr) (i : nat) : list constr :=
  match cs, i with
  | [], _ => []
  | c :: tl, O => disable c :: tl
  | c :: tl, S i => c :: disable_at tl i
  end.
Definition is_on (cs : list constr) (i : nat) : bool :=
  match nth_error cs i with Some c => ct_enabled c | None => false end.
Definition hash_at (addr : nat -> N) (cs : list constr) (i : nat) : N :=
  match nth_error cs i with Some c => expr_hash addr (ct_expr c) | None => 0%N end.
Definition by_hash (addr : nat -> N) (cs : list constr) (i j : nat) : bool := N.ltb (hash_at addr cs i) (hash_at addr cs j).

(** Same sense and equal expressions (1080-1100). *)
Definition duplicates (addr : nat -> N) (cs : list constr) (i j : nat) : bool :=
  match nth_error cs i, nth_error cs j with
  | Some c, Some d => csense_eqb (ct_sense c) (ct_sense d) && e_equal addr (ct_expr c) (ct_expr d)
  | _, _ => false
  end.
(** The two nested index loops of remove_duplicated_constraints (1049-1106) read
    the sorted list from left to right: [cur] is constraint i, if the outer loop
    is past its "is_enabled" test; a different hash makes j the new i. *)
Fixpoint duplicate_scan (addr : nat -> N) (cur : option nat) (l : list nat) (cs : list constr) : list constr :=
  match l with
  | [] => cs
  | j :: tl =>
      let start := if is_on cs j then Some j else None in
      match cur with
      | None => duplicate_scan addr start tl cs
      | Some i =>
          if N.eqb (hash_at addr cs i) (hash_at addr cs j)
          then duplicate_scan addr cur tl (if is_on cs j && duplicates addr cs i j then disable_at cs j else cs)
          else duplicate_scan addr start tl cs
      end
  end.
(** remove_duplicated_constraints on one list (1023-1108). *)
Definition remove_duplicates_in (addr : nat -> N) (cs : list constr) (ptrs : list nat) : list constr :=
  if Nat.leb (length ptrs) 1 then cs else duplicate_scan addr None (stable_sort (by_hash addr cs) ptrs) cs.
(** The lists it is called on (893-1020); Knapsack is not among them. *)
Definition duplicate_types : list ctype :=
  [Singleton; ExclusiveOR; ExclusiveNOR; InvertedIntegers; BalancedIntegers; ConstantSumIntegers;
   ConstantDifferenceIntegers; ConstantRatioIntegers; Aggregation; Precedence; VariableBound; TrinomialExclusiveNOR;
   SetPartitioning; SetPacking; SetCovering; Cardinality; InvariantKnapsack; MultipleCovering; BinaryFlow; IntegerFlow;
   SoftSelection; MinMax; MaxMin; Intermediate; EquationKnapsack; BinPacking; IntegerKnapsack; GF2; GeneralLinear].
(** [refs]: constraint_type_reference. *)
Definition remove_duplicated_constraints (addr : nat -> N) (refs : ctype -> list nat) (cs : list constr) : list constr :=
  fold_left (fun cs t => remove_duplicates_in addr cs (refs t)) duplicate_types cs.

(** The test for a pair of opposite inequalities (788-840). *)
Definition opposite (addr : nat -> N) (c d : constr) : bool :=
  negb (csense_eqb (ct_sense c) (ct_sense d)) && e_equal addr (ct_expr c) (ct_expr d) ||
  csense_eqb (ct_sense c) (ct_sense d) && e_equal addr (ct_expr c) (e_neg (ct_expr d)).
Inductive scan_result := ScanEnd | ScanOther (skipped : nat) | ScanFound (j : nat).
(** Inner loop for constraint i = c over the rest of the list (766-845). *)
Fixpoint opposite_scan (addr : nat -> N) (cs : list constr) (c : constr) (l : list nat) (k : nat) : scan_result :=
  match l with
  | [] => ScanEnd
  | j :: tl =>
      match nth_error cs j with
      | None => opposite_scan addr cs c tl (S k)
      | Some d =>
          if negb (N.eqb (expr_hash addr (ct_expr c)) (expr_hash addr (ct_expr d))) then ScanOther k
          else if ct_enabled d && opposite addr c d then ScanFound j
          else opposite_scan addr cs c tl (S k)
      end
  end.
(** Outer loop (752-851); [skip] list entries lie before the index i. *)
Fixpoint equality_scan (addr : nat -> N) (is01 : nat -> bool) (l : list nat) (skip : nat) (cs added : list constr)
  : list constr * list constr :=
  match l with
  | [] => (cs, added)
  | i :: tl =>
      match skip with
      | S skip => equality_scan addr is01 tl skip cs added
      | O =>
          match nth_error cs i with
          | None => equality_scan addr is01 tl O cs added
          | Some c =>
              if negb (ct_enabled c) then equality_scan addr is01 tl O cs added
              else match ct_sense c with
              | Equal => equality_scan addr is01 tl O cs added
              | _ =>
                  match opposite_scan addr cs c tl O with
                  | ScanEnd => (cs, added)
                  | ScanOther k => equality_scan addr is01 tl k cs added
                  | ScanFound j => equality_scan addr is01 tl O (disable_at (disable_at cs i) j)
                                     (added ++ [c_setup (ct_expr c) Equal is01])
                  end
              end
          end
      end
  end.
(** extract_implicit_equality_constraints (706-890). *)
Definition equality_types : list ctype :=
  [Precedence; VariableBound; SetPacking; SetCovering; InvariantKnapsack; MultipleCovering; MinMax; MaxMin; BinPacking; Knapsack].
Definition extract_implicit_equalities (addr : nat -> N) (is01 : nat -> bool) (refs : ctype -> list nat) (cs : list constr)
  : list constr :=
  let unequal i := match nth_error cs i with Some c => negb (csense_eqb (ct_sense c) Equal) | None => false end in
  let ptrs := flat_map refs equality_types ++ filter unequal (refs GeneralLinear) in
  if Nat.leb (length ptrs) 1 then cs
  else let '(cs, added) := equality_scan addr is01 (stable_sort (by_hash addr cs) ptrs) O cs [] in cs ++ added.

(** Variables of a constraint (1141-1150) and inclusion (1154-1161). *)
Definition members (cs : list constr) (i : nat) : list nat :=
  match nth_error cs i with Some c => map fst (ex_sens (ct_expr c)) | None => [] end.
Definition included (l m : list nat) : bool := forallb (fun v => existsb (Nat.eqb v) m) l.
(** The loops over i and j (1152-1186). *)
Fixpoint set_scan (l : list nat) (s : vars * list constr) : vars * list constr :=
  match l with
  | [] => s
  | i :: tl =>
      let cs := snd s in
      match find (fun j => included (members cs j) (members cs i)) tl with
      | None => set_scan tl s
      | Some j =>
          let surplus := filter (fun v => negb (existsb (Nat.eqb v) (members cs j))) (members cs i) in
          set_scan tl (fold_left (fun vs v => do_fix_by vs v 0) surplus (fst s), disable_at cs i)
      end
  end.
Definition by_size (cs : list constr) (i j : nat) : bool := Nat.ltb (length (members cs j)) (length (members cs i)).
(** remove_redundant_set_constraints (1111-1191). *)
Definition remove_redundant_set_constraints (refs : ctype -> list nat) (vs : vars) (cs : list constr) : vars * list constr :=
  set_scan (stable_sort (by_size cs) (refs ExclusiveOR ++ refs SetPartitioning)) (vs, cs).

(** related_constraint_ptrs (model.h:941-968) and Variable::setup_hash
    (variable.h:655-665). *)
Definition related_list (cs : list constr) (v : nat) : list nat :=
  filter (fun i => existsb (Nat.eqb v) (members cs i)) (seq 0 (length cs)).
Definition var_hash (caddr : nat -> N) (cs : list constr) (v : nat) : N :=
  fold_left (fun h i => ((h + caddr i) mod 2 ^ 64)%N) (related_list cs v) 0%N.
(** The sorting predicates (597-637); [obj]: objective sensitivity, [name]: rank of
    the name. *)
Definition dominates (caddr : nat -> N) (cs : list constr) (minimize : bool) (obj : nat -> Q) (name : nat -> nat) (vs : vars)
  (a b : nat) : bool :=
  if negb (N.eqb (var_hash caddr cs a) (var_hash caddr cs b)) then N.ltb (var_hash caddr cs a) (var_hash caddr cs b)
  else if negb (Qeq_bool (obj a) (obj b)) then
    if minimize then negb (Qle_bool (obj b) (obj a)) else negb (Qle_bool (obj a) (obj b))
  else if negb (Z.eqb (va_value (vs a)) (va_value (vs b))) then Z.ltb (va_value (vs b)) (va_value (vs a))
  else Nat.ltb (name a) (name b).
Fixpoint list_eqb (l m : list nat) : bool :=
  match l, m with [], [] => true | a :: l, b :: m => Nat.eqb a b && list_eqb l m | _, _ => false end.
(** Inner loop (655-690); the flag says that the end of the list was reached. *)
Fixpoint dominated_scan (caddr : nat -> N) (cs : list constr) (i : nat) (l : list nat) (vs : vars) : vars * bool :=
  match l with
  | [] => (vs, true)
  | j :: tl =>
      if negb (N.eqb (var_hash caddr cs i) (var_hash caddr cs j)) then (vs, false)
      else if va_fixed (vs j) && Z.eqb (va_value (vs j)) 0 then dominated_scan caddr cs i tl vs
      else dominated_scan caddr cs i tl
             (if list_eqb (related_list cs i) (related_list cs j) then do_fix_by vs j 0 else vs)
  end.
(** Outer loop (641-697). *)
Fixpoint domination_scan (caddr : nat -> N) (cs : list constr) (l : list nat) (vs : vars) : vars :=
  match l with
  | [] => vs
  | i :: tl =>
      if va_fixed (vs i) then domination_scan caddr cs tl vs
      else let '(vs, ended) := dominated_scan caddr cs i tl vs in
           if ended then vs else domination_scan caddr cs tl vs
  end.
(** remove_redundant_set_variables (563-703). *)
Definition remove_redundant_set_variables (caddr : nat -> N) (refs : ctype -> list nat) (minimize : bool) (obj : nat -> Q)
  (name : nat -> nat) (n : nat) (cs : list constr) (vs : vars) : vars :=
  if Nat.eqb (length cs) 0 then vs
  else if negb (Nat.eqb (length cs) (length (refs SetPartitioning) + length (refs SetCovering) + length (refs SetPacking))) then vs
  else domination_scan caddr cs (stable_sort (dominates caddr cs minimize obj name vs) (seq 0 n)) vs.
