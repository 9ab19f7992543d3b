(** * Specification of the overlap of a chain move *)
From Coq Require Import List ZArith QArith.
Import ListNotations.

(** [l] is the set of all [x] with [P x]. *)
Definition is_set_of (P : nat -> Prop) (l : list nat) : Prop := NoDup l /\ forall x, In x l <-> P x.

(** The constraints all variables occur in, and those some variable occurs in. *)
Definition in_all (related : nat -> list nat) (vs : list nat) (c : nat) : Prop := forall v, In v vs -> In c (related v).
Definition in_some (related : nat -> list nat) (vs : list nat) (c : nat) : Prop := exists v, In v vs /\ In c (related v).
