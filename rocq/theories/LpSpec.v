(** Specification for C62 and C63. *)
From Coq Require Import List ZArith QArith Qabs Bool Permutation.
From Verif Require ExprModel ExprSpec ConstraintModel VariableModel TypeSpec PresolveModel PresolveSpec.
From Verif Require Import SparseModel SparseSpec LpModel.
Import ListNotations.
Local Open Scope Q_scope.

(** A linear program in the form the solver expects: sizes agree, [lp_At] is the
    transpose of [lp_A], entries listed by rows, bounds in order, multipliers of
    inequalities at least 0 and others free. *)
Definition zero_or_free (o : option Q) : Prop := match o with None => True | Some q => q == 0 end.
Record lp_wf (l : lp) : Prop := mkWf {
  wf_A : exists m, PresolveModel.Ok m = m_setup [] (mt_values (lp_A l)) (mt_rows (lp_A l)) (mt_cols (lp_A l)) (lp_rows l) (lp_cols l) /\ mt_ptrs m = mt_ptrs (lp_A l);
  wf_sorted : by_rows (mt_rows (lp_A l));
  wf_dims : mt_nrows (lp_A l) = lp_rows l /\ mt_ncols (lp_A l) = lp_cols l /\ length (mt_row_scaler (lp_A l)) = lp_rows l /\ length (mt_col_scaler (lp_A l)) = lp_cols l;
  wf_At : m_transpose (lp_A l) = PresolveModel.Ok (lp_At l);
  wf_cols : length (lp_c l) = lp_cols l /\ length (lp_lo l) = lp_cols l /\ length (lp_hi l) = lp_cols l /\ length (lp_x0 l) = lp_cols l /\
            length (lp_lo_open l) = lp_cols l /\ length (lp_hi_open l) = lp_cols l;
  wf_rows : length (lp_b l) = lp_rows l /\ length (lp_dlo l) = lp_rows l /\ length (lp_dhi l) = lp_rows l /\ length (lp_y0 l) = lp_rows l;
  wf_order : forall j, (j < lp_cols l)%nat -> nth j (lp_lo l) 0 <= nth j (lp_hi l) 0;
  wf_start : forall j, (j < lp_cols l)%nat -> nth j (lp_lo l) 0 <= nth j (lp_x0 l) 0 <= nth j (lp_hi l) 0;
  wf_ranges : forall i, (i < lp_rows l)%nat -> nth i (lp_dlo l) None <> None <->
    (fst (lp_less l) <= i < snd (lp_less l) \/ fst (lp_greater l) <= i < snd (lp_greater l))%nat;
  wf_signs : (forall o, In o (lp_dlo l) -> zero_or_free o) /\ (forall o, In o (lp_dhi l) -> o = None) /\ (forall q, In q (lp_y0 l) -> q == 0) }.

(** x lies within the bounds; x satisfies the rows: row i is [>=] when its multiplier is
    restricted, [=] when it is free. *)
Definition within (l : lp) (x : list Q) : Prop :=
  length x = lp_cols l /\ forall j, (j < lp_cols l)%nat -> nth j (lp_lo l) 0 <= nth j x 0 <= nth j (lp_hi l) 0.
Definition lhs (l : lp) (x : list Q) (i : nat) : Q := sum_below (lp_cols l) (fun j => coefficient (lp_A l) i j * nth j x 0).
Definition rows_hold (l : lp) (x : list Q) : Prop :=
  forall i, (i < lp_rows l)%nat -> match nth i (lp_dlo l) None with Some _ => nth i (lp_b l) 0 <= lhs l x i | None => lhs l x i == nth i (lp_b l) 0 end.
Definition lp_feasible (l : lp) (x : list Q) : Prop := within l x /\ rows_hold l x.
Definition lp_objective (l : lp) (x : list Q) : Q := sum_below (lp_cols l) (fun j => nth j (lp_c l) 0 * nth j x 0) + lp_offset l.
(** No variable counts as unbounded. *)
Definition all_bounded (l : lp) : Prop := forall j, (j < lp_cols l)%nat -> nth j (lp_lo_open l) false = false /\ nth j (lp_hi_open l) false = false.
(** Multipliers of inequalities are at least 0. *)
Definition signs (l : lp) (y : list Q) : Prop :=
  length y = lp_rows l /\ forall i, (i < lp_rows l)%nat -> match nth i (lp_dlo l) None with Some _ => 0 <= nth i y 0 | None => True end.

(** What is asked of the abstract functions: a norm is at least every component; the
    powers stay in the ranges of (k+1)^a for negative a. *)
Definition norm_like (nrm : list Q -> Q) : Prop := forall v, 0 <= nrm v /\ forall q, In q v -> Qabs q <= nrm v.
Definition powers (red ext : nat -> Q) : Prop := forall n, (0 < n)%nat -> 0 < red n < 1 /\ 0 < ext n.
(** (1 - red (n+1)) * ... * (1 - red (n+m)); it gets as small as one likes. *)
Fixpoint shrink (red : nat -> Q) (n m : nat) : Q := match m with O => 1 | S m => (1 - red (S n)) * shrink red (S n) m end.
Definition vanishing (red : nat -> Q) : Prop := forall n eps, 0 < eps -> exists m, shrink red n m < eps.
(** The same clock, restarts and weights; only the model's limit of trials differs. *)
Definition same_env (e e' : penv) : Prop := pe_time_over e' = pe_time_over e /\ pe_restart e' = pe_restart e /\ pe_weight e' = pe_weight e.

(** ** What the model hands over (C62) *)
(** [order] lists the variables of the relaxation and [fixed] the fixed ones, each once;
    every variable of the objective is in its list; the constraints are listed by sense. *)
Record lists_ok (obj : ExprModel.expr) (vs : PresolveModel.vars) (order fixed : list nat) (less sels equals greater : list ConstraintModel.constr) : Prop := mkLists {
  lo_order : NoDup order; lo_fixed : NoDup fixed; lo_are_fixed : forall v, In v fixed -> VariableModel.va_fixed (vs v) = true;
  lo_objective : ExprSpec.wf obj;
  lo_listed : forall v, In v (ExprSpec.keys obj) -> if VariableModel.va_fixed (vs v) then In v fixed else In v order;
  lo_less : forall c, In c less -> ConstraintModel.ct_sense c = ConstraintModel.Less;
  lo_equal : forall c, In c (sels ++ equals) -> ConstraintModel.ct_sense c = ConstraintModel.Equal;
  lo_greater : forall c, In c greater -> ConstraintModel.ct_sense c = ConstraintModel.Greater }.
(** y respects bounds and fixings and satisfies all enabled constraints and the
    constraints of the selections (which are disabled when the selections are used). *)
Definition admitted (vs : PresolveModel.vars) (less sels equals greater : list ConstraintModel.constr) (y : nat -> Z) : Prop :=
  PresolveSpec.legal vs y /\ (forall c, In c (less ++ equals ++ greater) -> ConstraintModel.ct_enabled c = true -> TypeSpec.satisfies c y) /\
  forall c, In c sels -> TypeSpec.satisfies c y.
(** No variable counts as unbounded: the bounds lie within the quarter range of int. *)
Definition moderate_range (vs : PresolveModel.vars) (order : list nat) : Prop :=
  forall v, In v order -> VariableModel.va_fixed (vs v) = false -> (-536870912 <= VariableModel.va_lower (vs v) /\ VariableModel.va_upper (vs v) <= 536870911)%Z.
