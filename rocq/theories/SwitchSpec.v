(** * Specification of the moves on offer

    Independent of how the program switches the kinds of moves: in terms of what
    was seen before, the latest event first. *)
From Coq Require Import List Bool Permutation.
From Verif Require Import SwitchModel.
Import ListNotations.

(** The kinds that are on offer all the time. *)
Definition ordinary (k : kind) : Prop := k = Binary \/ k = Integer \/ k = Selection \/ k = UserDefined.

(** The search has stagnated and still does: a round used up its iterations
    without a better solution, and [recent], all that was seen since, has neither
    a round with a better solution nor another such round. *)
Definition stagnant (past recent old : list event) : Prop :=
  past = recent ++ Ended false true :: old /\
  forall improved full, In (Ended improved full) recent -> improved = false /\ full = false.

(** Sorting, removing duplicates and shuffling give some of the moves, each as
    often as before at most. *)
Definition selects (f : list (nat * bool) -> list (nat * bool)) : Prop :=
  forall l, exists rest, Permutation l (f l ++ rest).

Definition tidy (i : input) : Prop :=
  match i with Iterate _ _ _ => True | Finish arrange shuffle _ _ => selects arrange /\ selects shuffle end.

(** The chain moves are only put into another order. *)
Definition reorders (i : input) : Prop :=
  match i with
  | Iterate _ _ _ => True
  | Finish arrange shuffle _ _ => (forall l, Permutation l (arrange l)) /\ (forall l, Permutation l (shuffle l))
  end.

(** The number of chain moves built. *)
Definition built (l : list event) : nat := length (filter (fun e => match e with Built _ => true | _ => false end) l).
