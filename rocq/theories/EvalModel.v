(** Model of the evaluation and update functions of model/model.h
    (2353-2460, 2585-3020), and of the related-constraint lists they use. *)
From Coq Require Import List ZArith QArith Qabs Bool.
From Verif Require Import ExprModel ConstraintModel.
Import ListNotations.
Local Open Scope Q_scope.

(** SolutionScore (solution_score.h:11-24). *)
Record score := mkScore {
  sc_objective : Q; sc_improvement : Q; sc_violation : Q;
  sc_local : Q; sc_global : Q; sc_local_aug : Q; sc_global_aug : Q;
  sc_feasible : bool; sc_obj_improvable : bool; sc_feas_improvable : bool }.

(** The members of Model read by the evaluators.  Constraints are identified by
    their position.  [md_sign] is sign() (model.h:4027). *)
Record model := mkM {
  md_defined : bool; md_sign : Q;
  md_obj : expr; md_obj_evalue : Q; md_obj_value : Q;
  md_cons : list constr; md_gpen : Q }.

(** The common tail of the evaluators (model.h:2674-2702, 2754-2778, 2918-2943,
    2994-3019).  Under _PRINTEMPS_MPS_SOLVER the objective is not multiplied by
    the sign and is always considered defined: md_defined = true, md_sign = 1. *)
Definition finish (md : model) (x : nat -> Z) (m : alterations) (tv lp : Q) (fi : bool) : score :=
  let objective := if md_defined md then e_eval_move (md_obj md) (md_obj_evalue md) x m * md_sign md else 0 in
  let improvement := if md_defined md then md_obj_value md * md_sign md - objective else 0 in
  let gp := tv * md_gpen md in
  mkScore objective improvement tv lp gp (objective + lp) (objective + gp)
    (negb (if Qlt_le_dec EPS tv then true else false))
    (if Qlt_le_dec EPS improvement then true else false) fi.

(** evaluate(move) (model.h:2624-2703). *)
Definition eval_full_step (x : nat -> Z) (m : alterations) (acc : Q * Q * bool) (c : constr) : Q * Q * bool :=
  if ct_enabled c then
    let '(tv, lp, fi) := acc in
    let v := c_eval_move c x m in
    let p := qmax v 0 in
    let n := qmax (- v) 0 in
    let '(tv1, lp1, fi1) :=
      if ct_le c then (tv + p, lp + p * ct_pen_less c,
                       fi || (if Qlt_le_dec (p + EPS) (ct_positive c) then true else false))
      else (tv, lp, fi) in
    if ct_ge c then (tv1 + n, lp1 + n * ct_pen_greater c,
                     fi1 || (if Qlt_le_dec (n + EPS) (ct_negative c) then true else false))
    else (tv1, lp1, fi1)
  else acc.
Definition evaluate (md : model) (x : nat -> Z) (m : alterations) : score :=
  let '(tv, lp, fi) := fold_left (eval_full_step x m) (md_cons md) (0, 0, false) in
  finish md x m tv lp fi.

(** setup_variable_constraint_sensitivities (model.h:978-1003) for one variable,
    before the final stable_sort by constraint name: the evaluators take any
    permutation of it. *)
Definition constraint_sensitivities (cons : list constr) (v : nat) : list (nat * Q) :=
  flat_map (fun ic =>
    map (fun p => (fst ic, snd p)) (filter (fun p => Nat.eqb (fst p) v) (ex_sens (ct_expr (snd ic)))))
    (combine (seq 0 (length cons)) cons).

(** The violation change used by evaluate_single (model.h:2730-2751). *)
Definition single_step (skip : constr -> bool) (cons : list constr) (diff : Z)
  (acc : Q * Q) (s : nat * Q) : Q * Q :=
  match nth_error cons (fst s) with
  | None => acc
  | Some c =>
      if skip c then acc
      else
        let '(tv, lp) := acc in
        let v := ct_value c + snd s * inject_Z diff in
        let '(tv1, lp1) :=
          if ct_le c then let d := qmax v 0 - ct_positive c in (tv + d, lp + d * ct_pen_less c)
          else (tv, lp) in
        if ct_ge c then let d := qmin v 0 + ct_negative c in (tv1 - d, lp1 - d * ct_pen_greater c)
        else (tv1, lp1)
  end.

(** evaluate_single (model.h:2706-2779); [cs] is variable_ptr's
    constraint_sensitivities. *)
Definition evaluate_single (md : model) (x : nat -> Z) (a : nat * Z) (cs : list (nat * Q)) (cur : score) : score :=
  let '(tv, lp) := fold_left (single_step c_ignorable (md_cons md) (snd a - x (fst a))) cs
                             (sc_violation cur, sc_local cur) in
  finish md x [a] tv lp true.

(** Body of the loop of evaluate_multi (model.h:2960-2991), also used by
    evaluate_selection (model.h:2876-2914). *)
Definition multi_step (cons : list constr) (x : nat -> Z) (m : alterations)
  (acc : Q * Q * bool) (i : nat) : Q * Q * bool :=
  match nth_error cons i with
  | None => acc
  | Some c =>
      if ct_enabled c then
        let '(tv, lp, fi) := acc in
        let v := c_eval_move c x m in
        if Qlt_le_dec (Qabs (v - ct_value c)) EPS10 then acc
        else
          let dp := if ct_le c then qmax v 0 - ct_positive c else 0 in
          let dn := if ct_ge c then qmax (- v) 0 - ct_negative c else 0 in
          let d := dp + dn in
          (tv + d, lp + (dp * ct_pen_less c + dn * ct_pen_greater c),
           fi || (if Qlt_le_dec d (- EPS) then true else false))
      else acc
  end.

(** evaluate_multi (model.h:2947-3020). *)
Definition evaluate_multi (md : model) (x : nat -> Z) (m : alterations) (related : list nat) (cur : score) : score :=
  let '(tv, lp, fi) := fold_left (multi_step (md_cons md) x m) related (sc_violation cur, sc_local cur, false) in
  finish md x m tv lp fi.

(** related_constraint_ptrs of a variable (model.h:941-968), before sorting. *)
Definition related_constraints (cons : list constr) (v : nat) : list nat :=
  map fst (constraint_sensitivities cons v).
Definition occurs (c : constr) (v : nat) : bool := existsb (fun p => Nat.eqb (fst p) v) (ex_sens (ct_expr c)).

(** setup_related_selection_constraint_ptr_index (variable.h:679-710): smallest
    / largest position in the selection's list of an enabled constraint the
    variable occurs in; -1 if there is none. *)
Fixpoint index_min (cons : list constr) (v : nat) (related : list nat) (i : Z) : Z :=
  match related with
  | [] => -1
  | k :: tl =>
      match nth_error cons k with
      | Some c => if ct_enabled c && occurs c v then i else index_min cons v tl (i + 1)
      | None => index_min cons v tl (i + 1)
      end
  end.
Fixpoint index_max (cons : list constr) (v : nat) (related : list nat) (i : Z) (best : Z) : Z :=
  match related with
  | [] => best
  | k :: tl =>
      match nth_error cons k with
      | Some c => index_max cons v tl (i + 1) (if ct_enabled c && occurs c v then i else best)
      | None => index_max cons v tl (i + 1) best
      end
  end.

(** The choice of the range (model.h:2810-2829). *)
Definition join_index (pick : Z -> Z -> Z) (a b : Z) : Z :=
  if ((a =? -1) && (0 <=? b))%Z then b
  else if ((0 <=? a) && (b =? -1))%Z then a
  else if ((0 <=? a) && (0 <=? b))%Z then pick a b else (-1)%Z.

(** RELATED_CONSTRAINT_PTRS[lo..hi]. *)
Definition slice (l : list nat) (lo hi : Z) : list nat :=
  firstn (Z.to_nat (hi - lo + 1)) (skipn (Z.to_nat lo) l).

(** evaluate_selection (model.h:2782-2944).  [a0], [a1] are the two alterations,
    [cs0], [cs1] their variables' constraint_sensitivities, [related] the
    selection's related constraints. *)
Definition evaluate_selection (md : model) (x : nat -> Z) (a0 a1 : nat * Z)
  (cs0 cs1 : list (nat * Q)) (related : list nat) (cur : score) : score :=
  let cons := md_cons md in
  let mn0 := index_min cons (fst a0) related 0 in
  let mx0 := index_max cons (fst a0) related 0 (-1) in
  let mn1 := index_min cons (fst a1) related 0 in
  let mx1 := index_max cons (fst a1) related 0 (-1) in
  let imin := join_index Z.min mn0 mn1 in
  let imax := join_index Z.max mx0 mx1 in
  let m := [a0; a1] in
  if ((0 <=? imin) && (0 <=? imax))%Z then
    if ((mx0 <? mn1) || (mx1 <? mn0))%Z then
      let acc0 := fold_left (single_step (fun c => negb (ct_enabled c)) cons (snd a0 - x (fst a0))) cs0
                            (sc_violation cur, sc_local cur) in
      let '(tv, lp) := fold_left (single_step (fun c => negb (ct_enabled c)) cons (snd a1 - x (fst a1))) cs1 acc0 in
      finish md x m tv lp true
    else
      let '(tv, lp, fi) := fold_left (multi_step cons x m) (slice related imin imax)
                                     (sc_violation cur, sc_local cur, false) in
      finish md x m tv lp fi
  else finish md x m (sc_violation cur) (sc_local cur) false.

(** Selection::setup_related_constraint_ptrs (selection.h:55-137): every
    constraint related to a variable of the selection except the selection
    constraint itself, once each.  The heuristic order is left open: users of the
    list take any permutation. *)
Definition selection_related (cons : list constr) (own : nat) (vars : list nat) : list nat :=
  nodup Nat.eq_dec (filter (fun i => negb (Nat.eqb i own)) (flat_map (related_constraints cons) vars)).

(** stable_sort by name followed by std::unique on the pointers
    (move.h:246-257, variable.h:506-517).  [name i] is constraint i's name;
    names are compared in a total order, here that of [nat]. *)
Fixpoint insert_by (name : nat -> nat) (i : nat) (l : list nat) : list nat :=
  match l with
  | [] => [i]
  | j :: tl => if Nat.leb (name i) (name j) then i :: l else j :: insert_by name i tl
  end.
Definition stable_sort_by (name : nat -> nat) (l : list nat) : list nat := fold_right (insert_by name) [] l.
Fixpoint unique_adjacent (l : list nat) : list nat :=
  match l with
  | [] => []
  | i :: tl => match unique_adjacent tl with
               | j :: tl' => if Nat.eqb i j then j :: tl' else i :: j :: tl'
               | [] => [i]
               end
  end.
Definition sort_and_unique (name : nat -> nat) (l : list nat) : list nat :=
  unique_adjacent (stable_sort_by name l).

(** related_constraint_ptrs of a move on several variables, as the generators
    and Move::operator+ assemble it (move.h:262-286). *)
Definition move_related (name : nat -> nat) (cons : list constr) (m : alterations) : list nat :=
  sort_and_unique name (flat_map (fun a => related_constraints cons (fst a)) m).

(** ** Updating the whole model *)
Record mstate := mkMs {
  ms_model : model;
  ms_exprs : list (expr * bool * Q);      (* named expressions: enabled flag, m_value *)
  ms_deps : list (nat * nat);             (* dependent variable, position of its expression *)
  ms_x : nat -> Z; ms_fixed : nat -> bool;
  ms_user_defined : bool;                 (* neighborhood.user_defined().is_enabled() *)
  ms_violative : list nat; ms_feasible : bool }.

(** update_violative_constraint_ptrs_and_feasibility (model.h:2585-2599). *)
Definition violative (cons : list constr) : list nat :=
  map fst (filter (fun ic => ct_enabled (snd ic) && negb (c_is_feasible (snd ic)))
                  (combine (seq 0 (length cons)) cons)).
Definition with_violative (s : mstate) : mstate :=
  let v := violative (md_cons (ms_model s)) in
  mkMs (ms_model s) (ms_exprs s) (ms_deps s) (ms_x s) (ms_fixed s) (ms_user_defined s) v
       (Nat.eqb (length v) 0).

(** update() (model.h:2353-2386): expressions, dependent variables, constraints,
    objective.  A dependent variable takes the value of its expression converted
    to int (variable.h:490-492). *)
Definition ms_update (s : mstate) : mstate :=
  let md := ms_model s in
  let exprs := map (fun p : expr * bool * Q => (fst p, e_eval (fst (fst p)) (ms_x s))) (ms_exprs s) in
  let x := fold_left (fun y d => set_val y (fst d)
             (match nth_error exprs (snd d) with Some p => Qtrunc (snd p) | None => y (fst d) end))
             (ms_deps s) (ms_x s) in
  let cons := map (fun c => c_update c x) (md_cons md) in
  let ov := if md_defined md then e_eval (md_obj md) x else md_obj_value md in
  let oe := if md_defined md then e_eval (md_obj md) x else md_obj_evalue md in
  with_violative (mkMs (mkM (md_defined md) (md_sign md) (md_obj md) oe ov cons (md_gpen md))
    exprs (ms_deps s) x (ms_fixed s) (ms_user_defined s) [] false).

(** Constraint::update(move) on the constraints of a list, in order. *)
Fixpoint update_nth (l : list constr) (i : nat) (f : constr -> constr) : list constr :=
  match l, i with
  | [], _ => []
  | c :: tl, O => f c :: tl
  | c :: tl, S j => c :: update_nth tl j f
  end.

(** set_value_if_mutable on every alteration (model.h:2448-2453,
    variable.h:166-177). *)
Definition write_mutable (fixed : nat -> bool) (x : nat -> Z) (m : alterations) : nat -> Z :=
  fold_left (fun y a => if fixed (fst a) then y else set_val y (fst a) (snd a)) m x.

(** update(move) (model.h:2417-2460). *)
Definition ms_update_move (s : mstate) (m : alterations) (related : list nat) : mstate :=
  let md := ms_model s in
  let x := ms_x s in
  let oe := if md_defined md then e_eval_move (md_obj md) (md_obj_evalue md) x m else md_obj_evalue md in
  let ov := if md_defined md then oe else md_obj_value md in
  let cons :=
    if ms_user_defined s
    then map (fun c => if ct_enabled c then c_update_move c x m else c) (md_cons md)
    else fold_left (fun l i => update_nth l i (fun c => c_update_move c x m)) related (md_cons md) in
  let exprs := map (fun p : expr * bool * Q => if snd (fst p) then (fst p, e_eval_move (fst (fst p)) (snd p) x m) else p) (ms_exprs s) in
  with_violative (mkMs (mkM (md_defined md) (md_sign md) (md_obj md) oe ov cons (md_gpen md))
    exprs (ms_deps s) (write_mutable (ms_fixed s) x m) (ms_fixed s) (ms_user_defined s) [] false).

Definition ms_run (s : mstate) (ms : list (alterations * list nat)) : mstate :=
  fold_left (fun st ml => ms_update_move st (fst ml) (snd ml)) ms s.
