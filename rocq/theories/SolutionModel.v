(** Incumbents, solution archive and choice of the best score
    (printemps/solution/). *)
From Coq Require Import List ZArith QArith Bool.
From Verif Require Import ConstraintModel EvalModel.
Import ListNotations.
Local Open Scope Q_scope.

(** ** incumbent_holder.h *)

(** One of the three incumbents: its objective (None is DEFAULT_OBJECTIVE, the
    infinite HUGE_VALF, incumbent_holder.h:13) and the stored solution and score
    (None: default constructed).  [S] is the type of dense solutions. *)
Record slot (S : Type) := mkSlot { sl_obj : option Q; sl_stored : option (S * score) }.
Arguments mkSlot {S}. Arguments sl_obj {S}. Arguments sl_stored {S}.

Record holder (S : Type) := mkHolder {
  ho_found : bool; ho_local : slot S; ho_global : slot S; ho_feasible : slot S; ho_dual : Q }.
Arguments mkHolder {S}. Arguments ho_found {S}. Arguments ho_local {S}.
Arguments ho_global {S}. Arguments ho_feasible {S}. Arguments ho_dual {S}.

(** initialize (incumbent_holder.h:54-68). *)
Definition ho_init (S : Type) : holder S :=
  mkHolder false (mkSlot None None) (mkSlot None None) (mkSlot None None) 0.

(** "value + EPSILON < incumbent" (incumbent_holder.h:81-82,93-94,108-109). *)
Definition improves (v : Q) (o : option Q) : bool :=
  match o with None => true | Some q => if Qlt_le_dec (v + EPS) q then true else false end.
Definition try_slot {S} (v : Q) (sol : S) (sc : score) (sl : slot S) : slot S * bool :=
  if improves v (sl_obj sl) then (mkSlot (Some v) (Some (sol, sc)), true) else (sl, false).

(** try_update_incumbent (incumbent_holder.h:71-115); the overload taking a model
    (118-184) does the same with the solution exported from the model.  The status
    is the sum of 1 (local), 2 (global), 4 (feasible). *)
Definition try_update {S} (h : holder S) (sol : S) (sc : score) : holder S * Z :=
  let '(l, bl) := try_slot (sc_local_aug sc) sol sc (ho_local h) in
  let '(g, bg) := try_slot (sc_global_aug sc) sol sc (ho_global h) in
  let '(f, bf) := if sc_feasible sc then try_slot (sc_objective sc) sol sc (ho_feasible h) else (ho_feasible h, false) in
  (mkHolder (ho_found h || sc_feasible sc) l g f (ho_dual h),
   ((if bl then 1 else 0) + (if bg then 2 else 0) + (if bf then 4 else 0))%Z).

(** reset_local_augmented_incumbent (incumbent_holder.h:187-190): only the
    objective is reset. *)
Definition reset_local {S} (h : holder S) : holder S :=
  mkHolder (ho_found h) (mkSlot None (sl_stored (ho_local h))) (ho_global h) (ho_feasible h) (ho_dual h).

(** update_dual_bound as the controllers call it
    (lagrange_dual_controller.h:164-179, pdlp_controller.h:191-206): [b] is the
    bound found for the minimisation form. *)
Definition offer_dual {S} (minimize : bool) (h : holder S) (b : Q) : holder S :=
  let d := if minimize then (if Qlt_le_dec (ho_dual h) b then b else ho_dual h)
           else (if Qlt_le_dec (- b) (ho_dual h) then - b else ho_dual h) in
  mkHolder (ho_found h) (ho_local h) (ho_global h) (ho_feasible h) d.

Inductive h_event (S : Type) := Offer (sol : S) (sc : score) | ResetLocal | OfferDual (b : Q).
Arguments Offer {S}. Arguments ResetLocal {S}. Arguments OfferDual {S}.
Definition h_step {S} (minimize : bool) (h : holder S) (e : h_event S) : holder S :=
  match e with
  | Offer sol sc => fst (try_update h sol sc)
  | ResetLocal => reset_local h
  | OfferDual b => offer_dual minimize h b
  end.

(** ** solution_archive.h *)

(** SparseSolution (sparse_solution.h:12-25): [so_vars] is the map from names to
    values in a canonical order, so that equality of maps is equality of lists. *)
Record ssol := mkSol { so_vars : list (nat * Z); so_obj : Q; so_feasible : bool }.
Inductive sort_mode := SortOff | Ascending | Descending.

Fixpoint vars_eqb (a b : list (nat * Z)) : bool :=
  match a, b with
  | [], [] => true
  | (i, x) :: a', (j, y) :: b' => Nat.eqb i j && Z.eqb x y && vars_eqb a' b'
  | _, _ => false
  end.

(** Comparison of the sort mode (solution_archive.h:82-99). *)
Definition before (m : sort_mode) (a b : ssol) : bool :=
  match m with
  | Ascending => if Qlt_le_dec (so_obj a) (so_obj b) then true else false
  | Descending => if Qlt_le_dec (so_obj b) (so_obj a) then true else false
  | SortOff => false
  end.
(** std::stable_sort: insertion sort, stable. *)
Fixpoint sol_insert (m : sort_mode) (s : ssol) (l : list ssol) : list ssol :=
  match l with
  | [] => [s]
  | t :: tl => if before m t s then t :: sol_insert m s tl else s :: l
  end.
Definition sol_sort (m : sort_mode) (l : list ssol) : list ssol := fold_right (sol_insert m) [] l.

(** std::unique: keeps the first of every run of equal variables. *)
Fixpoint uniq_after (p : list (nat * Z)) (l : list ssol) : list ssol :=
  match l with
  | [] => []
  | s :: tl => if vars_eqb p (so_vars s) then uniq_after p tl else s :: uniq_after (so_vars s) tl
  end.
Definition uniq (l : list ssol) : list ssol :=
  match l with [] => [] | s :: tl => s :: uniq_after (so_vars s) tl end.

(** push of a vector (solution_archive.h:81-126). *)
Definition archive_push (max : Z) (m : sort_mode) (arch new : list ssol) : list ssol :=
  let l := arch ++ new in
  let l := match m with SortOff => l | _ => sol_sort m l end in
  let l := uniq l in
  if ((0 <? max) && (max <? Z.of_nat (length l)))%Z then
    match m with
    | SortOff => skipn (length l - Z.to_nat max) l
    | _ => firstn (Z.to_nat max) l
    end
  else l.
Definition archive_run (max : Z) (m : sort_mode) (pushes : list (list ssol)) : list ssol :=
  fold_left (archive_push max m) pushes [].

(** ** solution_score.h *)

(** argmin_index_* (solution_score.h:42-114): the five functions differ only in
    the field [f]; undefined on an empty vector. *)
Fixpoint argmin_loop {A} (f : A -> Q) (l : list A) (i : nat) (best : nat) (bv : Q) : nat :=
  match l with
  | [] => best
  | a :: tl => if Qlt_le_dec (f a) bv then argmin_loop f tl (S i) i (f a) else argmin_loop f tl (S i) best bv
  end.
Definition argmin_index {A} (f : A -> Q) (l : list A) : option nat :=
  match l with [] => None | a :: tl => Some (argmin_loop f tl 1 0 (f a)) end.
(** argmax_index_objective_improvement (solution_score.h:27-39). *)
Fixpoint argmax_loop {A} (f : A -> Q) (l : list A) (i : nat) (best : nat) (bv : Q) : nat :=
  match l with
  | [] => best
  | a :: tl => if Qlt_le_dec bv (f a) then argmax_loop f tl (S i) i (f a) else argmax_loop f tl (S i) best bv
  end.
Definition argmax_index {A} (f : A -> Q) (l : list A) : option nat :=
  match l with [] => None | a :: tl => Some (argmax_loop f tl 1 0 (f a)) end.
