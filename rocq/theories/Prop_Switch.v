(** * C95: which kinds of moves are on offer, and when *)
From Coq Require Import List Bool Arith Permutation.
From Verif Require Import SwitchModel SwitchSpec SwitchProof SwitchProof2 SwitchProof3 SwitchProof4.
Import ListNotations.

(** In every iteration, the moves of the binary, integer and selection variables
    and the user's own moves are on offer exactly if the option asks for the kind
    and the test of the iteration lets the move pass. *)
Theorem C95_ordinary : forall wanted good found iteration_max capacity inputs later flag moves past k m,
  run wanted good found iteration_max capacity inputs = later ++ Offered flag moves :: past ->
  ordinary k ->
  (In (k, m) moves <-> wanted k = true /\ In m (found k) /\ flag k m = true).
Proof. exact run_ordinary. Qed.
Print Assumptions C95_ordinary.

(** A move of a special kind other than Chain is on offer exactly if, moreover,
    the search stagnates and the move was not taken since it was last found to
    stagnate. *)
Theorem C95_special : forall wanted good found iteration_max capacity inputs later flag moves past k m,
  run wanted good found iteration_max capacity inputs = later ++ Offered flag moves :: past ->
  ~ ordinary k -> k <> Chain ->
  (In (k, m) moves <->
   wanted k = true /\ In m (found k) /\ flag k m = true /\
   exists recent old, stagnant past recent old /\ ~ In (Took k m) recent).
Proof. exact run_special. Qed.
Print Assumptions C95_special.

(** A chain move is on offer only if the option asks for them, the model has
    constraints they are good for, the search stagnates, the move was not taken
    since, and it was built before, with no better solution found in between. *)
Theorem C95_chain : forall wanted good found iteration_max capacity inputs later flag moves past m,
  Forall tidy inputs ->
  run wanted good found iteration_max capacity inputs = later ++ Offered flag moves :: past ->
  In (Chain, m) moves ->
  wanted Chain = true /\ good = true /\ flag Chain m = true /\
  exists recent old, stagnant past recent old /\ ~ In (Took Chain m) recent /\
    exists after older, old = after ++ Built m :: older /\ forall full, ~ In (Ended true full) after.
Proof. exact run_chain. Qed.
Print Assumptions C95_chain.

(** The other direction, if there were no duplicates to remove and the capacity
    was enough: every such chain move is on offer. *)
Theorem C95_chain_all : forall wanted found iteration_max capacity inputs later flag moves past m recent old after older,
  Forall reorders inputs ->
  (built (run wanted true found iteration_max capacity inputs) <= capacity)%nat ->
  run wanted true found iteration_max capacity inputs = later ++ Offered flag moves :: past ->
  wanted Chain = true -> flag Chain m = true ->
  stagnant past recent old -> ~ In (Took Chain m) recent ->
  old = after ++ Built m :: older -> (forall full, ~ In (Ended true full) after) ->
  In (Chain, m) moves.
Proof. exact run_chain_all. Qed.
Print Assumptions C95_chain_all.

(** Only moves on offer are taken. *)
Theorem C95_taken : forall wanted good found iteration_max capacity inputs later k m past,
  run wanted good found iteration_max capacity inputs = later ++ Took k m :: past ->
  exists flag moves past', past = Offered flag moves :: past' /\ In (k, m) moves.
Proof. exact run_taken. Qed.
Print Assumptions C95_taken.

(** A special move is not taken twice unless a round that used up its iterations
    without a better solution ended in between: in particular not twice in a
    round. *)
Theorem C95_once : forall wanted good found iteration_max capacity inputs later between past k m,
  Forall tidy inputs -> ~ ordinary k ->
  run wanted good found iteration_max capacity inputs = later ++ Took k m :: between ++ Took k m :: past ->
  In (Ended false true) between.
Proof. exact run_once. Qed.
Print Assumptions C95_once.

(** A run of six rounds.  Two binary variables, an exclusive-or constraint and a
    precedence constraint; the user does not want precedence moves. *)
Definition ex_wanted (k : kind) : bool := match k with Precedence => false | _ => true end.
Definition ex_found (k : kind) : list nat := match k with Binary => [0; 1] | ExclusiveOr => [5; 6] | Precedence => [7] | _ => [] end.
Definition ex_flag (k : kind) (m : nat) : bool := negb (Nat.eqb m 6).
Definition same (l : list (nat * bool)) : list (nat * bool) := l.
Definition ex_inputs : list input :=
  [Iterate ex_flag 0 0; Iterate ex_flag 1 1; Finish same same false 10;   (* stagnates; a chain move was built *)
   Iterate ex_flag 2 1; Iterate ex_flag 2 0; Finish same same false 4;    (* takes the exclusive-or and the chain move; a short round *)
   Iterate ex_flag 0 0; Finish same same false 10;                        (* stagnates again *)
   Iterate ex_flag 2 0; Finish same same true 3;                          (* takes it again; a better solution *)
   Iterate ex_flag 0 0; Finish same same false 10;
   Iterate ex_flag 9 0].
Definition shown (l : list event) : list (list (kind * nat)) :=
  flat_map (fun e => match e with Offered _ ms => [ms] | _ => [] end) (rev l).

Example C95_example :
  Forall tidy ex_inputs /\ (Forall reorders ex_inputs /\ built (run ex_wanted true ex_found 10 100 ex_inputs) = 2) /\
  shown (run ex_wanted true ex_found 10 100 ex_inputs) =
  [[(Binary, 0); (Binary, 1)]; [(Binary, 0); (Binary, 1)];
   [(Binary, 0); (Binary, 1); (ExclusiveOr, 5); (Chain, 0)];
   [(Binary, 0); (Binary, 1); (Chain, 0)];
   [(Binary, 0); (Binary, 1)];
   [(Binary, 0); (Binary, 1); (ExclusiveOr, 5); (Chain, 0); (Chain, 1)];
   [(Binary, 0); (Binary, 1)];
   [(Binary, 0); (Binary, 1); (ExclusiveOr, 5)]] /\
  exists later between past,
    run ex_wanted true ex_found 10 100 ex_inputs = later ++ Took ExclusiveOr 5 :: between ++ Took ExclusiveOr 5 :: past.
Proof.
  split; [|split; [|split]].
  - assert (S : selects same) by (intro l; exists []; rewrite app_nil_r; apply Permutation_refl).
    unfold ex_inputs; repeat (apply Forall_cons; [cbn; try exact I; try (split; exact S)|]); apply Forall_nil.
  - split; [|vm_compute; reflexivity].
    unfold ex_inputs; repeat (apply Forall_cons; [cbn; try exact I; try (split; intro l; apply Permutation_refl)|]); apply Forall_nil.
  - vm_compute; reflexivity.
  - set (r := run ex_wanted true ex_found 10 100 ex_inputs).
    exists (firstn 5 r), (skipn 6 (firstn 14 r)), (skipn 15 r). vm_compute; reflexivity.
Qed.
