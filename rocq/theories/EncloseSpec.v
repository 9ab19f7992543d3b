(** Specification for C88: what is asked of the functions used by the solver of the
    linear relaxation. *)
From Coq Require Import List QArith.
From Verif Require Import LpModel LpSpec.
Local Open Scope Q_scope.

(** Functions with the properties of a norm, of powers and of a square root, and
    positive weights. *)
Definition solvable (nrm : list Q -> Q) (red ext : nat -> Q) (sq : Q -> Q) (envs : list penv) : Prop :=
  powers red ext /\ norm_like nrm /\ (forall q, 0 < q -> 0 < sq q) /\ (forall e, In e envs -> 0 < pe_weight e).
