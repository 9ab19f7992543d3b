(** Model of preprocess/dependent_variable_extractor.h (extract, eliminate) and of
    the loop over them in Model::setup (model.h:690-719).  Messages and names of
    the new expressions and constraints are left out, and so is the limit of 100
    groups of expressions or constraints (create_expressions, model.h:336). *)
From Coq Require Import List ZArith QArith Bool Arith.
From Verif Require Import ExprModel ConstraintModel VariableModel TypeModel PresolveModel.
Import ListNotations.
Local Open Scope Q_scope.

(** What the two functions read and write: the variables 0 .. ds_number-1, the
    constraints, the objective's expression, the expressions, and for each
    variable the expression it depends on (dependent_expression_ptr, variable.h:
    577-598) as a position in ds_exprs. *)
Record dstate := mkD {
  ds_number : nat; ds_vars : vars; ds_cons : list constr; ds_obj : expr; ds_exprs : list expr;
  ds_dep : nat -> option nat }.

(** ** extract (40-300) *)

(** The types in the order in which their constraints are collected (75-157). *)
Definition dependent_types : list ctype :=
  [ExclusiveOR; ExclusiveNOR; InvertedIntegers; BalancedIntegers; ConstantSumIntegers;
   ConstantDifferenceIntegers; ConstantRatioIntegers; Intermediate].

(** A constraint of one of these types with its key variable. *)
Record cand := mkCand { ca_index : nat; ca_con : constr; ca_key : nat }.

Definition occurs (v : nat) (e : expr) : bool := match sens_find (ex_sens e) v with Some _ => true | None => false end.
Definition context (names : nat -> nat) (vs : vars) : tctx := mkTctx (vi_of vs) (fun v => va_sense (vs v)) names.
Definition numbered (cs : list constr) : list (nat * constr) := combine (seq 0 (length cs)) cs.

(** The variables of the set partitioning constraints (64-73); the type lists hold
    disabled constraints too. *)
Definition partitioned (x : tctx) (cs : list constr) (v : nat) : bool :=
  existsb (fun c => (if ctype_eq_dec (fst (classify x c)) SetPartitioning then true else false) && occurs v (ct_expr c)) cs.
Definition of_type (x : tctx) (cs : list constr) (t : ctype) : list cand :=
  flat_map (fun ic => let '(i, c) := ic in
    match classify x c with
    | (t', Some key) =>
        if ctype_eq_dec t' t then
          match t with
          | ExclusiveOR | ExclusiveNOR =>
              if existsb (fun p => partitioned x cs (fst p)) (ex_sens (ct_expr c)) then [] else [mkCand i c key]
          | _ => [mkCand i c key]
          end
        else []
    | (_, None) => []      (* these types always have a key *)
    end) (numbered cs).
(** [opt t]: the option is_enabled_extract_dependent_<t>. *)
Definition candidates (opt : ctype -> bool) (x : tctx) (cs : list constr) : list cand :=
  flat_map (fun t => if opt t then of_type x cs t else []) dependent_types.

(** adj[i][j] (166-177) for i <> j, and the flags (178-198): a constraint is
    flagged when it is enabled and no constraint flagged before it forms a pair
    with it in which each holds the other's key. *)
Definition adj (a b : cand) : bool := occurs (ca_key a) (ct_expr (ca_con b)).
Definition flagged (l : list cand) : list cand :=
  fold_left (fun acc c =>
    if ct_enabled (ca_con c) && forallb (fun a => negb (adj a c && adj c a)) acc then acc ++ [c] else acc) l [].
(** key_variable_ptr_counts (200-207): absent becomes 1, present becomes 0. *)
Definition key_counts (l : list cand) : nat -> option nat :=
  fold_left (fun f c v => if Nat.eqb v (ca_key c) then match f v with Some _ => Some 0%nat | None => Some 1%nat end else f v)
            l (fun _ => None).
(** The constraints that are turned into definitions (217-226). *)
Definition picks (opt : ctype -> bool) (names : nat -> nat) (s : dstate) : list cand :=
  let fl := flagged (candidates opt (context names (ds_vars s)) (ds_cons s)) in
  filter (fun c => match key_counts fl (ca_key c) with Some 1%nat => true | _ => false end) fl.

Fixpoint all_some {A} (l : list (option A)) : option (list A) :=
  match l with
  | [] => Some []
  | None :: _ => None
  | Some a :: tl => match all_some tl with Some r => Some (a :: r) | None => None end
  end.

(** The constraints that keep the key within its bounds (237-257).  Their setup
    runs once more when they are copied into the model (288-295), after the
    senses of the keys have changed: [is01] is that of the later moment. *)
Definition bound_constraints (vs : vars) (is01 : nat -> bool) (v : nat) (e : expr) : list constr :=
  let lb := va_lower (vs v) in
  let ub := va_upper (vs v) in
  (if negb (lb =? INT_HALF_MIN)%Z && ltq (e_lower e (vi_of vs)) (inject_Z lb)
   then [c_setup (e_sub_value e (inject_Z lb)) Greater is01] else []) ++
  (if negb (ub =? INT_HALF_MAX)%Z && ltq (inject_Z ub) (e_upper e (vi_of vs))
   then [c_setup (e_sub_value e (inject_Z ub)) Less is01] else []).

(** set_dependent_expression_ptr (variable.h:582-592). *)
Definition make_dependent (vs : vars) (v : nat) : vars :=
  match v_step (vs v) VDependent with Some a => set_var vs v a | None => vs end.
Definition is01_of (vs : vars) (v : nat) : bool := zero_one_sense (va_sense (vs v)).

(** extract (40-300): the number of new dependent variables and the model
    afterwards; [None]: solve failed (at() throws, or a zero coefficient).  No
    variable is ever in dependent_expression_map, which nothing fills: the
    branch 271-273 is dead. *)
Definition extract (opt : ctype -> bool) (names : nat -> nat) (s : dstate) : option (nat * dstate)%type :=
  let ps := picks opt names s in
  match all_some (map (fun c => e_solve (ct_expr (ca_con c)) (ca_key c)) ps) with
  | None => None
  | Some es =>
      let vs' := fold_left (fun vs c => make_dependent vs (ca_key c)) ps (ds_vars s) in
      let dep' := fold_left (fun f ck v => if Nat.eqb v (ca_key (fst ck)) then Some (snd ck) else f v)
                            (combine ps (seq (length (ds_exprs s)) (length ps))) (ds_dep s) in
      Some (length ps,
        mkD (ds_number s) vs'
            (map (fun ic => if existsb (fun c => Nat.eqb (ca_index c) (fst ic)) ps then disable (snd ic) else snd ic)
                 (numbered (ds_cons s)) ++
             flat_map (fun ce => bound_constraints (ds_vars s) (is01_of vs') (ca_key (fst ce)) (snd ce)) (combine ps es))
            (ds_obj s) (ds_exprs s ++ es) dep')
  end.

(** ** eliminate (303-390) *)

(** The dependent variables, binary ones first (309-321). *)
Definition dependents (s : dstate) : list nat :=
  filter (fun v => match va_sense (ds_vars s v) with VDependentBinary => true | _ => false end) (seq 0 (ds_number s)) ++
  filter (fun v => match va_sense (ds_vars s v) with VDependentInteger => true | _ => false end) (seq 0 (ds_number s)).
(** The expression behind dependent_expression_ptr.  The default stands for the
    null pointer, which no variable of a dependent sense has. *)
Definition no_expr : expr := mkExpr [] 0.
Definition definition (dep : nat -> option nat) (es : list expr) (v : nat) : expr :=
  match dep v with Some k => nth k es no_expr | None => no_expr end.

(** Substitution for one variable with the counter. *)
Definition put (here : bool) (f : expr) (v : nat) (r : expr * nat) : expr * nat :=
  if here then (e_substitute (fst r) v f, S (snd r)) else r.
(** Objective (323-343). *)
Definition eliminate_obj (s : dstate) : expr * nat :=
  fold_left (fun r v => put (occurs v (fst r)) (definition (ds_dep s) (ds_exprs s) v) v r) (dependents s) (ds_obj s, O).
(** Constraints (345-365): related_constraint_ptrs was filled by setup_structure
    before the pass, so the test is on the constraint as it was then.  Only the
    expression changes: the flags of Constraint::setup stay. *)
Definition with_expr (c : constr) (e : expr) : constr :=
  mkC e (ct_sense c) (ct_enabled c) (ct_only_binary_var c) (ct_only_binary_coef c) (ct_is_integer c)
      (ct_max_abs c) (ct_pen_less c) (ct_pen_greater c) (ct_evalue c) (ct_value c) (ct_positive c)
      (ct_negative c) (ct_violation c) (ct_margin c) (ct_has_margin c).
Definition eliminate_con (s : dstate) (c : constr) : constr * nat :=
  if ct_enabled c then
    let r := fold_left (fun r v => put (occurs v (ct_expr c)) (definition (ds_dep s) (ds_exprs s) v) v r)
                       (dependents s) (ct_expr c, O) in
    (with_expr c (fst r), snd r)
  else (c, O).
(** Expressions (367-390), in place: one of them is the variable's own. *)
Fixpoint set_nth {A} (k : nat) (a : A) (l : list A) : list A :=
  match l, k with
  | [], _ => []
  | _ :: tl, O => a :: tl
  | b :: tl, S k => b :: set_nth k a tl
  end.
Definition put_at (dep : nat -> option nat) (v : nat) (r : list expr * nat) (j : nat) : list expr * nat :=
  let e := nth j (fst r) no_expr in
  if occurs v e then (set_nth j (e_substitute e v (definition dep (fst r) v)) (fst r), S (snd r)) else r.
Definition eliminate_var (dep : nat -> option nat) (r : list expr * nat) (v : nat) : list expr * nat :=
  fold_left (put_at dep v) (seq 0 (length (fst r))) r.
Definition eliminate_exprs (s : dstate) : list expr * nat :=
  fold_left (eliminate_var (ds_dep s)) (dependents s) (ds_exprs s, O).

(** eliminate (303-390) with the number it returns. *)
Definition eliminate (s : dstate) : dstate * nat :=
  let o := eliminate_obj s in
  let cs := map (eliminate_con s) (ds_cons s) in
  let es := eliminate_exprs s in
  (mkD (ds_number s) (ds_vars s) (map fst cs) (fst o) (fst es) (ds_dep s),
   (snd o + list_sum (map snd cs) + snd es)%nat).

(** The inner loop of Model::setup (model.h:706-712). *)
Fixpoint eliminate_loop (fuel : nat) (s : dstate) : option dstate :=
  match fuel with
  | O => None
  | S fuel => let r := eliminate s in if Nat.eqb (snd r) 0 then Some (fst r) else eliminate_loop fuel (fst r)
  end.

(** The outer loop (model.h:700-717), ended by extract returning 0; [None]: the
    fuel is used up.  Throw also stands for a failing solve. *)
Fixpoint dependent_loop (fuel : nat) (opt : ctype -> bool) (names : nat -> nat) (minimize : bool) (s : dstate)
  : option (outcome dstate) :=
  match fuel with
  | O => None
  | S f =>
      match extract opt names s with
      | None => Some Throw
      | Some (O, s') => Some (Ok s')
      | Some (S _, s') =>
          match eliminate_loop fuel s' with
          | None => None
          | Some s'' =>
              match reduce_problem_size fuel minimize (coef (ex_sens (ds_obj s''))) (mkP (ds_number s'') (ds_vars s'') (ds_cons s'')) with
              | None => None
              | Some Throw => Some Throw
              | Some UB => Some UB
              | Some (Ok p) => dependent_loop f opt names minimize
                                 (mkD (ds_number s'') (ps_vars p) (ps_cons p) (ds_obj s'') (ds_exprs s'') (ds_dep s''))
              end
          end
      end
  end.
