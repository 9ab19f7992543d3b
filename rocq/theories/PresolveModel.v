(** Model of preprocess/problem_size_reducer.h: independent variables (82-181),
    redundant constraints with bound tightening (184-511), implicitly fixed
    variables (514-560) and the loop over them (46-79); and of
    Model::update_variable_bounds (model.h:1678-1715).
    Messages and counters are left out. *)
From Coq Require Import List ZArith QArith Qabs Qround Bool.
From Verif Require Import ExprModel ConstraintModel VariableModel.
Import ListNotations.
Local Open Scope Q_scope.

(** Result of a call: normal return, std::exception thrown by set_bound, or
    undefined behaviour (conversion of a double outside int, division of a double
    by zero whose result is converted, abs(INT_MIN)). *)
Inductive outcome (A : Type) := Ok (a : A) | Throw | UB.
Arguments Ok {A}. Arguments Throw {A}. Arguments UB {A}.
Definition bind {A B} (o : outcome A) (f : A -> outcome B) : outcome B :=
  match o with Ok a => f a | Throw => Throw | UB => UB end.

Definition INT_MIN : Z := -2147483648.
Definition INT_MAX : Z := 2147483647.
(** static_cast<int> of a double holding the integer z. *)
Definition to_int (z : Z) : outcome Z :=
  if ((INT_MIN <=? z) && (z <=? INT_MAX))%Z then Ok z else UB.

(** problem_size_reducer.h:217. *)
Definition BOUND_LIMIT : Z := 100000.

Definition vars := nat -> var.
Definition vi_of (vs : vars) (v : nat) : vinfo :=
  mkVinfo (va_lower (vs v)) (va_upper (vs v)) (va_fixed (vs v)) (va_value (vs v)).
Definition set_var (vs : vars) (v : nat) (a : var) : vars := fun w => if Nat.eqb w v then a else vs w.

(** Variable::set_bound (variable.h:211-229), Variable::fix_by (330-334). *)
Definition do_set_bound (vs : vars) (v : nat) (lo hi : Z) : outcome vars :=
  match v_step (vs v) (VSetBound lo hi) with Some a => Ok (set_var vs v a) | None => Throw end.
Definition do_fix_by (vs : vars) (v : nat) (a : Z) : vars :=
  match v_step (vs v) (VFixBy a) with Some b => set_var vs v b | None => vs end.

(** "bound_ceil > lower && abs(bound_ceil) < BOUND_LIMIT" and the update
    (374-396, 430-442, 494-506); lb and ub are the bounds read before.  The flag
    is is_variable_bound_updated. *)
Definition raise_lower (vs : vars) (v : nat) (q : Q) (lb ub : Z) : outcome (vars * bool) :=
  bind (to_int (Qceiling q)) (fun z =>
  if (lb <? z)%Z then
    if (z =? INT_MIN)%Z then UB
    else if (Z.abs z <? BOUND_LIMIT)%Z then bind (do_set_bound vs v z ub) (fun vs => Ok (vs, true))
    else Ok (vs, false)
  else Ok (vs, false)).
(** "bound_floor < upper && abs(bound_floor) < BOUND_LIMIT" (327-349, 448-460,
    476-488). *)
Definition cut_upper (vs : vars) (v : nat) (q : Q) (lb ub : Z) : outcome (vars * bool) :=
  bind (to_int (Qfloor q)) (fun z =>
  if (z <? ub)%Z then
    if (z =? INT_MIN)%Z then UB
    else if (Z.abs z <? BOUND_LIMIT)%Z then bind (do_set_bound vs v lb z) (fun vs => Ok (vs, true))
    else Ok (vs, false)
  else Ok (vs, false)).

(** setup_mutable_variable_sensitivities (expression.h:182-207).  Coefficient 0
    goes to the "negative" list. *)
Definition mutables (vs : vars) (e : expr) : sens := filter (fun p => negb (va_fixed (vs (fst p)))) (ex_sens e).
Definition positive_mutables (vs : vars) (e : expr) : sens :=
  filter (fun p => if Qlt_le_dec 0 (snd p) then true else false) (mutables vs e).
Definition negative_mutables (vs : vars) (e : expr) : sens :=
  filter (fun p => if Qlt_le_dec 0 (snd p) then false else true) (mutables vs e).

(** The first test (257-265). *)
Definition always_satisfied (c : constr) (L U : Q) : bool :=
  match ct_sense c with
  | Equal => Qeq_bool L 0 && Qeq_bool U 0
  | Less => Qle_bool U 0
  | Greater => Qle_bool 0 L
  end.

(** One mutable variable left (284-412): new variables, disabled?, updated?. *)
Definition tighten_singleton (vs : vars) (c : constr) (v : nat) (a : Q) : outcome (vars * bool * bool) :=
  let lb := va_lower (vs v) in
  let ub := va_upper (vs v) in
  let e := ct_expr c in
  let q := - (inject_Z (e_fixed_term e (vi_of vs)) + ex_const e) / a in
  match ct_sense c with
  | Equal => if Qeq_bool a 0 then UB
             else bind (to_int (Qtrunc q)) (fun z => Ok (do_fix_by vs v z, true, false))
  | Less => if Qlt_le_dec 0 a then bind (cut_upper vs v q lb ub) (fun r => Ok (fst r, true, snd r))
            else if Qlt_le_dec a 0 then bind (raise_lower vs v q lb ub) (fun r => Ok (fst r, true, snd r))
            else Ok (vs, false, false)
  | Greater => if Qlt_le_dec a 0 then bind (cut_upper vs v q lb ub) (fun r => Ok (fst r, true, snd r))
               else if Qlt_le_dec 0 a then bind (raise_lower vs v q lb ub) (fun r => Ok (fst r, true, snd r))
               else Ok (vs, false, false)
  end.

(** Body of the loop over the positive coefficients (418-462); L and U are the
    bounds of the constraint's expression computed at the beginning. *)
Definition tighten_positive (c : constr) (L U : Q) (s : vars * bool) (p : nat * Q) : outcome (vars * bool) :=
  let '(vs, upd) := s in let '(v, a) := p in
  let lb := va_lower (vs v) in
  let ub := va_upper (vs v) in
  bind (if ct_ge c then raise_lower vs v (- (U - a * inject_Z ub) / a) lb ub else Ok (vs, false)) (fun r =>
  bind (if ct_le c then cut_upper (fst r) v (- (L - a * inject_Z lb) / a) lb ub else Ok (fst r, false)) (fun r' =>
  Ok (fst r', upd || snd r || snd r'))).
(** Body of the loop over the other coefficients (464-508). *)
Definition tighten_negative (c : constr) (L U : Q) (s : vars * bool) (p : nat * Q) : outcome (vars * bool) :=
  let '(vs, upd) := s in let '(v, a) := p in
  if Qeq_bool a 0 then UB
  else
  let lb := va_lower (vs v) in
  let ub := va_upper (vs v) in
  bind (if ct_ge c then cut_upper vs v (- (U - a * inject_Z lb) / a) lb ub else Ok (vs, false)) (fun r =>
  bind (if ct_le c then raise_lower (fst r) v (- (L - a * inject_Z ub) / a) lb ub else Ok (fst r, false)) (fun r' =>
  Ok (fst r', upd || snd r || snd r'))).
Fixpoint each {A S} (f : S -> A -> outcome S) (l : list A) (s : S) : outcome S :=
  match l with [] => Ok s | a :: tl => bind (f s a) (each f tl) end.

(** remove_redundant_constraint_with_tightening_variable_bound (212-511): the
    variables afterwards, is_constraint_disabled, is_variable_bound_updated. *)
Definition tighten (vs : vars) (c : constr) : outcome (vars * bool * bool) :=
  let e := ct_expr c in
  let L := e_lower e (vi_of vs) in
  let U := e_upper e (vi_of vs) in
  if always_satisfied c L U then Ok (vs, true, false)
  else match mutables vs e with
       | [(v, a)] => tighten_singleton vs c v a
       | _ => bind (each (tighten_positive c L U) (positive_mutables vs e) (vs, false)) (fun s =>
              bind (each (tighten_negative c L U) (negative_mutables vs e) s) (fun s =>
              Ok (fst s, false, snd s)))
       end.

(** The model as presolve sees it: the number of variables, the variables, the
    constraints in order. *)
Record pstate := mkP { ps_number : nat; ps_vars : vars; ps_cons : list constr }.
Definition disable (c : constr) : constr :=
  mkC (ct_expr c) (ct_sense c) false (ct_only_binary_var c) (ct_only_binary_coef c) (ct_is_integer c)
      (ct_max_abs c) (ct_pen_less c) (ct_pen_greater c) (ct_evalue c) (ct_value c) (ct_positive c)
      (ct_negative c) (ct_violation c) (ct_margin c) (ct_has_margin c).

(** The pass over the enabled constraints (184-209) and the number of newly
    disabled ones. *)
Fixpoint redundant_pass (vs : vars) (cs : list constr) : outcome (vars * list constr * nat) :=
  match cs with
  | [] => Ok (vs, [], O)
  | c :: tl =>
      if ct_enabled c then
        bind (tighten vs c) (fun r => let '(vs', off, _) := r in
        bind (redundant_pass vs' tl) (fun r' => let '(vs'', tl', k) := r' in
        Ok (vs'', (if off then disable c else c) :: tl', if off then S k else k)))
      else bind (redundant_pass vs tl) (fun r' => let '(vs'', tl', k) := r' in Ok (vs'', c :: tl', k))
  end.

(** remove_implicit_fixed_variables (514-560). *)
Definition fix_implicit (s : vars * nat) (v : nat) : vars * nat :=
  let '(vs, k) := s in
  if va_fixed (vs v) then s
  else if (va_lower (vs v) =? va_upper (vs v))%Z then (do_fix_by vs v (va_lower (vs v)), S k) else s.
Definition implicit_pass (n : nat) (vs : vars) : vars * nat := fold_left fix_implicit (seq 0 n) (vs, O).

(** The loop of reduce_problem_size (56-73).  [None]: the fuel is used up. *)
Fixpoint reduce_loop (fuel : nat) (s : pstate) : option (outcome pstate) :=
  match fuel with
  | O => None
  | S fuel' =>
      match redundant_pass (ps_vars s) (ps_cons s) with
      | Throw => Some Throw
      | UB => Some UB
      | Ok (vs, cs, k) =>
          let '(vs', k') := implicit_pass (ps_number s) vs in
          let s' := mkP (ps_number s) vs' cs in
          if Nat.eqb k 0 && Nat.eqb k' 0 then Some (Ok s') else reduce_loop fuel' s'
      end
  end.

(** remove_independent_variable(s) (82-181); [related v]: the variable has related
    constraints (setup_variable_related_constraints, model.h:941-968, looks at
    disabled constraints too), [obj v]: objective_sensitivity. *)
Definition related (cs : list constr) (v : nat) : bool :=
  existsb (fun c => existsb (fun p => Nat.eqb (fst p) v) (ex_sens (ct_expr c))) cs.
Definition independent_value (minimize : bool) (s : Q) (v : var) : Z :=
  if Qlt_le_dec (Qabs s) EPS10 then 0
  else if Qlt_le_dec 0 s then (if minimize then va_lower v else va_upper v)
  else (if minimize then va_upper v else va_lower v).
Definition fix_independent (cs : list constr) (minimize : bool) (obj : nat -> Q) (s : vars * nat) (v : nat) : vars * nat :=
  let '(vs, k) := s in
  if va_fixed (vs v) then s
  else if related cs v then s
  else (do_fix_by vs v (independent_value minimize (obj v) (vs v)), S k).
Definition independent_pass (n : nat) (cs : list constr) (minimize : bool) (obj : nat -> Q) (vs : vars) : vars * nat :=
  fold_left (fix_independent cs minimize obj) (seq 0 n) (vs, O).

(** reduce_problem_size (46-79); [obj]: objective_sensitivity of each variable. *)
Definition reduce_problem_size (fuel : nat) (minimize : bool) (obj : nat -> Q) (s : pstate) : option (outcome pstate) :=
  let '(vs, _) := independent_pass (ps_number s) (ps_cons s) minimize obj (ps_vars s) in
  reduce_loop fuel (mkP (ps_number s) vs (ps_cons s)).

(** update_variable_bounds (model.h:1678-1715) up to the neighbourhoods. *)
Definition update_variable_bounds (n : nat) (minimize primal : bool) (obj : expr) (bound : Q) (is01 : nat -> bool)
  (vs : vars) : outcome vars :=
  let c := c_setup (e_sub_value obj bound) (if minimize && primal then Less else Greater) is01 in
  bind (tighten vs c) (fun r => let '(vs', _, updated) := r in
  Ok (if updated then fst (implicit_pass n vs') else vs')).
