(** Model of preprocess/selection_extractor.h, model_component/selection.h,
    preprocess/verifier.h, the import of a dense solution (model.h:3332-3350) and
    the application of selection moves (selection_move_generator.h:51-96,
    model.h:2451-2457). *)
From Coq Require Import List ZArith QArith Qabs Bool.
From Verif Require Import ExprModel ConstraintModel VariableModel TypeModel EvalModel PresolveModel DuplicateModel.
Import ListNotations.

(** model_component::Selection (selection.h:18-25). *)
Record sel := mkSel { sl_vars : list nat; sl_con : nat; sl_related : list nat; sl_selected : option nat }.

(** Selection::setup (selection.h:46-55). *)
Definition sel_setup (cs : list constr) (i : nat) : sel := mkSel (members cs i) i [] None.

(** extract_raw_selections (selection_extractor.h:19-47); [ptrs]: the
    set-partitioning constraints. *)
Definition all_binary (vs : vars) (l : list nat) : bool :=
  forallb (fun v => match va_sense (vs v) with VBinary => true | _ => false end) l.
Definition raw_selections (vs : vars) (cs : list constr) (ptrs : list nat) : list sel :=
  flat_map (fun i => if is_on cs i then if all_binary vs (members cs i) then [sel_setup cs i] else [] else []) ptrs.

(** The loop over the raw selections (121-145); [taken]: extracted_variable_ptrs. *)
Definition overlaps (l m : list nat) : bool := existsb (fun v => existsb (Nat.eqb v) m) l.
Fixpoint greedy (l : list sel) (taken : list nat) : list sel :=
  match l with
  | [] => []
  | s :: tl => if overlaps (sl_vars s) taken then greedy tl taken else s :: greedy tl (taken ++ sl_vars s)
  end.
(** The loop of extract_by_independent (247-279): position i against all others. *)
Definition independent_of (l : list sel) (i : nat) (s : sel) : bool :=
  forallb (fun j => Nat.eqb j i ||
             match nth_error l j with Some t => negb (overlaps (sl_vars s) (sl_vars t)) | None => true end)
          (seq 0 (length l)).
Definition independents (l : list sel) : list sel :=
  flat_map (fun i => match nth_error l i with
                     | Some s => if independent_of l i s then [s] else []
                     | None => [] end) (seq 0 (length l)).

(** Selection::setup_related_constraint_ptrs (selection.h:57-137); [vname], [cname]:
    ranks of the names.  The stable sorts are applied to lists in order of
    definition. *)
Definition sort_related (cname : nat -> nat) (cs : list constr) (few : bool) (l : list nat) : list nat :=
  let size i := length (members cs i) in
  stable_sort (fun i j => if few then Nat.ltb (size i) (size j) else Nat.ltb (size j) (size i))
              (stable_sort (fun i j => Nat.ltb (cname i) (cname j)) l).
Definition add_new (own : nat) (acc : list nat) (i : nat) : list nat :=
  if Nat.eqb i own then acc else if existsb (Nat.eqb i) acc then acc else acc ++ [i].
Definition setup_related (vname cname : nat -> nat) (cs : list constr) (s : sel) : sel :=
  let total := length (nodup Nat.eq_dec (flat_map (related_list cs) (sl_vars s))) in
  let vars := stable_sort (fun v w => Nat.ltb (length (related_list cs w)) (length (related_list cs v)))
                          (stable_sort (fun v w => Nat.ltb (vname v) (vname w)) (sl_vars s)) in
  let related := fold_left (fun acc v =>
      fold_left (add_new (sl_con s)) (sort_related cname cs (Nat.ltb (length acc) (Nat.div total 2)) (related_list cs v)) acc)
      vars [] in
  mkSel vars (sl_con s) related (sl_selected s).

Inductive selection_mode := Off | Defined | Smaller | Larger | Independent | UserDefined.
(** extract (73-106) with the choice of each mode (109-341); [user i]:
    is_user_defined_selection of constraint i. *)
Definition choose (mode : selection_mode) (user : nat -> bool) (raw : list sel) : list sel :=
  let size s := length (sl_vars s) in
  match mode with
  | Off => []
  | Defined => greedy raw []
  | Smaller => greedy (stable_sort (fun s t => Nat.ltb (size s) (size t)) raw) []
  | Larger => greedy (stable_sort (fun s t => Nat.ltb (size t) (size s)) raw) []
  | Independent => independents raw
  | UserDefined => greedy (filter (fun s => user (sl_con s)) raw) []
  end.
(** The common end of the modes (147-152) and Model::set_selections
    (model.h:1660-1675). *)
Definition extract_selections (vname cname : nat -> nat) (mode : selection_mode) (user : nat -> bool) (vs : vars)
  (cs : list constr) (ptrs : list nat) : vars * list constr * list sel :=
  let chosen := choose mode user (raw_selections vs cs ptrs) in
  let cs' := fold_left disable_at (map sl_con chosen) cs in
  let sels := map (setup_related vname cname cs) chosen in
  (fun v => if existsb (Nat.eqb v) (flat_map sl_vars sels) then v_with_sense (vs v) VSelection else vs v, cs', sels).

(** * Verifier (preprocess/verifier.h) *)

(** set_value_if_mutable (variable.h:166-171). *)
Definition put (vs : vars) (v : nat) (a : Z) : vars :=
  fun w => if Nat.eqb w v then (if va_fixed (vs v) then vs v else v_margin (v_with_value (vs v) a)) else vs w.
Definition put_all (vs : vars) (l : list nat) (a : Z) : vars := fold_left (fun vs v => put vs v a) l vs.

(** The violation a candidate would cause (211-236, 288-313).  [violation] is an
    int: every += truncates.  [sens v]: constraint_sensitivities; [vals]:
    related_constraint_ptr_values.  Overflow of int is not modelled. *)
Definition candidate_violation (cs : list constr) (sens : nat -> list (nat * Q)) (vals : nat -> Q) (v : nat) : Z :=
  fold_left (fun acc p =>
      match nth_error cs (fst p) with
      | None => acc
      | Some c =>
          let x := (vals (fst p) + snd p + ex_const (ct_expr c))%Q in
          let d := match ct_sense c with Less => qmax x 0 | Equal => Qabs x | Greater => qmax (- x) 0 end in
          Qtrunc (inject_Z acc + d)
      end) (sens v) 0%Z.
(** The search for the best candidate: strictly below the best so far, starting
    from INT_MAX with no candidate (207-242, 281-319). *)
Definition best_candidate (score : nat -> Z) (l : list nat) : option nat :=
  fst (fold_left (fun best v => if (score v <? snd best)%Z then (Some v, score v) else best) l (None, INT_MAX)).
(** The chosen variable's contribution (190-194, 264-268, 332-336). *)
Definition add_sens (sens : nat -> list (nat * Q)) (vals : nat -> Q) (v : nat) : nat -> Q :=
  fold_left (fun vals p => fun i => if Nat.eqb i (fst p) then (vals i + snd p)%Q else vals i) (sens v) vals.

(** One selection (96-340); [None]: std::logic_error. *)
Definition verify_selection (correct : bool) (cs : list constr) (sens : nat -> list (nat * Q))
  (st : vars * (nat -> Q)) (s : sel) : option (vars * (nat -> Q) * sel) :=
  let '(vs, vals) := st in
  let value v := va_value (vs v) in
  let selected := filter (fun v => Z.eqb (value v) 1) (sl_vars s) in
  let invalid := filter (fun v => negb (Z.eqb (value v) 0) && negb (Z.eqb (value v) 1)) (sl_vars s) in
  let fixed_selected := filter (fun v => va_fixed (vs v)) selected in
  let fixed_invalid := filter (fun v => va_fixed (vs v)) invalid in
  if Nat.ltb 0 (length fixed_invalid) then None
  else if Nat.ltb 1 (length fixed_selected) then None
  else if Nat.ltb 0 (length invalid) && negb correct then None
  else
    let vs := put_all vs invalid 0 in
    let keep v := put (put_all vs (filter (fun w => negb (Nat.eqb w v)) selected) 0) v 1 in
    match fixed_selected with
    | v :: _ =>
        if negb correct && Nat.leb 2 (length selected) then None
        else Some (keep v, add_sens sens vals v, s)
    | [] =>
        match selected with
        | [v] => Some (vs, vals, mkSel (sl_vars s) (sl_con s) (sl_related s) (Some v))
        | _ :: _ =>
            if negb correct then None
            else match best_candidate (candidate_violation cs sens vals) selected with
                 | None => None
                 | Some v => Some (keep v, add_sens sens vals v, s)
                 end
        | [] =>
            if negb correct then None
            else match best_candidate (candidate_violation cs sens vals)
                         (filter (fun v => negb (va_fixed (vs v))) (sl_vars s)) with
                 | None => None
                 | Some v => Some (put vs v 1, add_sens sens vals v, s)
                 end
        end
    end.
(** All selections (77-343). *)
Fixpoint verify_selections (correct : bool) (cs : list constr) (sens : nat -> list (nat * Q))
  (st : vars * (nat -> Q)) (l : list sel) : option (vars * list sel) :=
  match l with
  | [] => Some (fst st, [])
  | s :: tl =>
      match verify_selection correct cs sens st s with
      | None => None
      | Some (vs, vals, s') =>
          match verify_selections correct cs sens (vs, vals) tl with
          | None => None
          | Some (vs', tl') => Some (vs', s' :: tl')
          end
      end
  end.

Definition clamp (v : var) : Z :=
  (if va_value v <? va_lower v then va_lower v else if va_upper v <? va_value v then va_upper v else va_value v)%Z.
(** The loops over binary (346-383) and integer (386-426) variables; [fine] is the
    test that skips a variable. *)
Fixpoint verify_values (fine : var -> bool) (correct : bool) (vs : vars) (l : list nat) : option vars :=
  match l with
  | [] => Some vs
  | v :: tl =>
      if fine (vs v) then verify_values fine correct vs tl
      else if va_fixed (vs v) then None
      else if negb correct then None
      else verify_values fine correct (put vs v (clamp (vs v))) tl
  end.
Definition fine_binary (v : var) : bool := Z.eqb (va_value v) 0 || Z.eqb (va_value v) 1.
Definition fine_integer (v : var) : bool := Z.leb (va_lower v) (va_value v) && Z.leb (va_value v) (va_upper v).

(** The variables of one sense (categorize_variables, model.h:1029-1075). *)
Definition vsense_eqb (a b : vsense) : bool :=
  match a, b with
  | VBinary, VBinary | VInteger, VInteger | VSelection, VSelection
  | VDependentBinary, VDependentBinary | VDependentInteger, VDependentInteger => true
  | _, _ => false end.
Definition of_sense (s : vsense) (n : nat) (vs : vars) : list nat :=
  filter (fun v => vsense_eqb (va_sense (vs v)) s) (seq 0 n).
(** The three verifications in order (model.h:780-791, 3343-3350). *)
Definition verify (correct : bool) (n : nat) (cs : list constr) (sens : nat -> list (nat * Q)) (vs : vars) (sels : list sel)
  : option (vars * list sel) :=
  match verify_selections correct cs sens (vs, fun _ => 0%Q) sels with
  | None => None
  | Some (vs1, sels') =>
      match verify_values fine_binary correct vs1 (of_sense VBinary n vs) with
      | None => None
      | Some vs2 =>
          match verify_values fine_integer correct vs2 (of_sense VInteger n vs) with
          | None => None
          | Some vs3 => Some (vs3, sels')
          end
      end
  end.

(** import_solution(DenseSolution) (model.h:3332-3350). *)
Definition import_dense (n : nat) (cs : list constr) (sens : nat -> list (nat * Q)) (x : nat -> Z) (vs : vars) (sels : list sel)
  : option (vars * list sel) :=
  verify false n cs sens (fold_left (fun vs v => put vs v (x v)) (seq 0 n) vs) sels.

(** * Selection moves *)

(** The two alterations of the move towards variable [v] of selection [s]
    (selection_move_generator.h:89-96); the null pointer is [None]. *)
Definition selection_alterations (s : sel) (v : nat) : option (alterations) :=
  match sl_selected s with None => None | Some u => Some [(u, 0%Z); (v, 1%Z)] end.
(** The flag of the move when all moves are accepted (103-112). *)
Definition selection_flag (s : sel) (v : nat) : bool :=
  match sl_selected s with None => true | Some u => negb (Nat.eqb u v) end.
(** Writing the alterations (model.h:2451-2453) and select() (2455-2457).
    Selection [k] is the one of variable v; [None] is the null dereference. *)
Definition set_selected (sels : list sel) (k v : nat) : list sel :=
  map (fun p => if Nat.eqb (fst p) k then mkSel (sl_vars (snd p)) (sl_con (snd p)) (sl_related (snd p)) (Some v) else snd p)
      (combine (seq 0 (length sels)) sels).
Definition apply_selection_move (vs : vars) (sels : list sel) (k v : nat) : option (vars * list sel) :=
  match nth_error sels k with
  | None => None
  | Some s =>
      match selection_alterations s v with
      | None => None
      | Some m => Some (fold_left (fun vs a => put vs (fst a) (snd a)) m vs, set_selected sels k v)
      end
  end.
