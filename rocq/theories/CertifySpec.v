(** Specification for C85: what is asked of an MPS file whose linear relaxation is
    solved. *)
From Coq Require Import List ZArith QArith String.
From Verif Require Import LpModel LpSpec MpsModel MpsSpec.
Local Open Scope Q_scope.

(** Functions with the properties of a norm, of powers and of a square root, positive
    weights, and bounds of the columns within the quarter range of int. *)
Definition file_relaxable (nrm : list Q -> Q) (red ext : nat -> Q) (sq : Q -> Q) (f : content) (envs : list penv) : Prop :=
  powers red ext /\ norm_like nrm /\ (forall q, 0 < q -> 0 < sq q) /\ (forall e, In e envs -> 0 < pe_weight e) /\
  forall n, In n (columns f) -> (-536870912 <= fst (interval f n) /\ snd (interval f n) <= 536870911)%Z.
