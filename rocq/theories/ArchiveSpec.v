(** Words of C91, independent of how solutions are gathered. *)
From Coq Require Import List ZArith QArith Sorting.Sorted.
From Verif Require Import ExprModel ExprSpec PresolveModel DependentModel DependentSpec PrepareModel PrepareSpec SolutionModel EvalModel.
Import ListNotations.

(** q lists the variables that x gives another value than 0, with these values, each
    once and in the order of the variables (n: their number). *)
Definition lists (n : nat) (x : nat -> Z) (q : ssol) : Prop :=
  (forall v a, In (v, a) (so_vars q) <-> (v < n)%nat /\ x v = a /\ a <> 0%Z) /\ StronglySorted lt (map fst (so_vars q)).
(** q is a solution of the model s, with its objective (if the model has one), and says
    that it is feasible. *)
Definition true_record (s : dstate) (defined : bool) (q : ssol) : Prop :=
  exists x, solves s x /\ lists (ds_number s) x q /\ so_feasible q = true /\ (defined = true -> so_obj q == e_eval (ds_obj s) x).
(** The best first. *)
Definition best_first (minimize : bool) (l : list ssol) : Prop :=
  StronglySorted (fun a b => if minimize then so_obj a <= so_obj b else so_obj b <= so_obj a) l.
(** The values other than 0 of x. *)
Definition nonzeros (n : nat) (x : nat -> Z) : list (nat * Z) := filter (fun p => negb (snd p =? 0)%Z) (map (fun v => (v, x v)) (seq 0 n)).
(** The solutions of the list that are feasible, as they are recorded (if they
    are to be stored). *)
Definition recorded (store : bool) (n : nat) (vs : list ((nat -> Z) * score)) : list (list (nat * Z)) :=
  if store then map (fun q : (nat -> Z) * score => nonzeros n (fst q)) (filter (fun q => sc_feasible (snd q)) vs) else [].
