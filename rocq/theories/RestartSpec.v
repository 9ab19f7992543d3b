(** Specification for C87. *)
From Coq Require Import List ZArith QArith.
From Verif Require Import PresolveModel SparseModel LpModel RestartModel.
Local Open Scope Q_scope.

(** A square root up to a factor of 2. *)
Definition root_like (sq : Q -> Q) : Prop :=
  forall q a, 0 < q -> 0 < a -> (a * a <= q -> a / 2 <= sq q) /\ (q <= a * a -> sq q <= 2 * a).
(** The same clock and the same limit of trials. *)
Definition same_clock (e : renv) (p : penv) : Prop := pe_time_over p = re_time_over e /\ pe_trials p = re_trials e.
(** Only the limit of trials differs. *)
Definition same_renv (e e' : renv) : Prop := re_time_over e' = re_time_over e /\ re_average e' = re_average e /\ re_current e' = re_current e.
(** Comparing doubles: nothing is less or greater than NaN. *)
Definition less (a b : dbl) : Prop :=
  match a, b with
  | Fin x, Fin y => x < y
  | NInf, Fin _ | NInf, PInf | Fin _, PInf => True
  | _, _ => False
  end.
(** A positive multiple. *)
Definition scaled (q : Q) (d : dbl) : dbl := match d with Fin x => Fin (q * x) | _ => d end.
(** The reasons for a restart when the gap is g: after the first restart, a gap well
    below the one kept, or a gap somewhat below it that has grown since the last check;
    or a long time without a restart. *)
Definition reason (o : roption) (s : rstate) (outer inner total : nat) (g : dbl) : Prop :=
  (outer <> O /\ less g (scaled (ro_sufficient o) (rs_outer_prev s))) \/
  (outer <> O /\ less g (scaled (ro_necessary o) (rs_outer_prev s)) /\ less (rs_inner s) g) \/
  ro_artificial o * inject_Z (Z.of_nat total) < inject_Z (Z.of_nat inner).
(** The states a run goes through. *)
Inductive reached (nrm : vec -> Q) (red ext : nat -> Q) (sq : Q -> Q) (o : roption) (l : lp) : rstate -> Prop :=
| first s : r_start nrm l = Ok s -> reached nrm red ext sq o l s
| later e s s' : reached nrm red ext sq o l s -> r_iterate nrm red ext sq o l e s = Some s' -> reached nrm red ext sq o l s'.
(** The weight after a restart: the square root of the old one times the quotient of the
    dual and primal distance d and p gone, unless one of these is not between 1e-5 and
    1e5. *)
Definition moderate (d : Q) : Prop := 1 # 100000 < d /\ d < 100000.
Definition reweighted (sq : Q -> Q) (w p d w' : Q) : Prop :=
  (moderate p /\ moderate d -> w' = sq (d / p * w)) /\ (~ (moderate p /\ moderate d) -> w' = w).
