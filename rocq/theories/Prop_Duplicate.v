(** C28, C29, C30, C49: duplicated constraints, implicit equalities, redundant set constraints and set variables. *)
From Coq Require Import List ZArith NArith QArith Bool Permutation Lia.
From Verif Require Import ExprModel ExprSpec ConstraintModel ConstraintSpec VariableModel TypeModel TypeSpec PresolveModel PresolveSpec
  DuplicateModel DuplicateSpec.
From Verif Require DuplicateProof DuplicateProof2 DuplicateProof3 DuplicateProof4.
Import ListNotations.
Local Open Scope nat_scope.

(** C28: constraints are only switched off, every constraint that was on has an equal one that stays on, and the
    solution set is unchanged; whatever the addresses, the names and the types of the constraints. *)
Theorem C28_duplicates_keep_solutions (addr : nat -> N) (x : tctx) (cs : list constr) : well_formed cs ->
  let cs' := remove_duplicated_constraints addr (type_refs x cs) cs in
  only_disables cs cs' /\
  (forall i c, nth_error cs i = Some c -> ct_enabled c = true ->
     exists k d, nth_error cs' k = Some d /\ ct_enabled d = true /\ same_constraint c d) /\
  forall y, satisfies_all cs y <-> satisfies_all cs' y.
Proof. exact (DuplicateProof.remove_duplicated_spec addr (type_refs x cs) cs (DuplicateProof2.type_refs_nodup x cs)). Qed.
Print Assumptions C28_duplicates_keep_solutions.

(** C28: in a list in which equal hashes mean equal constraints, at most one constraint of each kind stays on. *)
Theorem C28_no_duplicate_left (addr : nat -> N) (cs : list constr) (l : list nat) : NoDup l -> well_formed cs ->
  (forall i j c d, In i l -> In j l -> nth_error cs i = Some c -> nth_error cs j = Some d ->
     expr_hash addr (ct_expr c) = expr_hash addr (ct_expr d) -> rewritten c d) ->
  (forall i, In i l -> i < length cs) ->
  let cs' := remove_duplicates_in addr cs l in
  forall i j c d, In i l -> In j l -> i <> j -> nth_error cs' i = Some c -> nth_error cs' j = Some d ->
    ct_enabled c = true -> ct_enabled d = true -> ~ rewritten c d.
Proof. exact (DuplicateProof4.no_rewritten_left addr cs l). Qed.
Print Assumptions C28_no_duplicate_left.

(** C28: the hash only sees which variables occur, so that constraint x + y <= 1 in the list keeps the pair of equal
    constraints x + 2 y <= 3 both on, at whatever addresses. *)
Theorem C28_shielded_duplicate_refuted : exists cs l, NoDup l /\ well_formed cs /\ (forall i, In i l -> is_on cs i = true) /\
  (exists i j, In i l /\ In j l /\ i <> j /\ nth_error cs i = nth_error cs j) /\
  forall addr, remove_duplicates_in addr cs l = cs.
Proof.
  exists DuplicateProof4.shield, [0; 1; 2]. split; [repeat constructor; cbn; intuition discriminate|].
  split; [intros c H; repeat (destruct H as [<-|H]; [repeat constructor; cbn; intuition discriminate|]); destruct H|].
  split; [intros i H; repeat (destruct H as [<-|H]; [reflexivity|]); destruct H|].
  split; [exists 1, 2; cbn; intuition|]. exact DuplicateProof4.shielded_duplicate.
Qed.
Print Assumptions C28_shielded_duplicate_refuted.

(** C28: duplicated knapsack constraints are never removed. *)
Theorem C28_knapsack_refuted : exists name vs c,
  fst (classify (vctx name vs) c) = Knapsack /\ ct_enabled c = true /\
  forall addr, remove_duplicated_constraints addr (type_refs (vctx name vs) [c; c]) [c; c] = [c; c].
Proof.
  exists DuplicateProof4.rank, DuplicateProof4.ghost_vars, (hd (DuplicateProof4.plain [] 0 Less) DuplicateProof4.sack).
  split; [vm_compute; reflexivity|]. split; [reflexivity|]. exact DuplicateProof4.sack_kept.
Qed.
Print Assumptions C28_knapsack_refuted.

(** C29: replacing opposite inequalities by equalities leaves the solution set unchanged. *)
Theorem C29_implicit_equalities_keep_solutions (addr : nat -> N) (is01 : nat -> bool) (refs : ctype -> list nat) (cs : list constr) (y : nat -> Z) :
  well_formed cs -> (satisfies_all cs y <-> satisfies_all (extract_implicit_equalities addr is01 refs cs) y).
Proof. intros W. exact (DuplicateProof.implicit_spec addr is01 refs cs W y). Qed.
Print Assumptions C29_implicit_equalities_keep_solutions.

(** C29: and a pair of opposite inequalities is replaced, general linear inequalities included. *)
Theorem C29_pair_becomes_equality (addr : nat -> N) (is01 : nat -> bool) (refs : ctype -> list nat) (cs : list constr) (i j : nat) (c d : constr) :
  well_formed cs -> flat_map refs equality_types ++ filter (an_inequality cs) (refs GeneralLinear) = [i; j] ->
  nth_error cs i = Some c -> nth_error cs j = Some d -> ct_enabled c = true -> ct_enabled d = true ->
  ct_sense c <> Equal -> opposite addr c d = true ->
  extract_implicit_equalities addr is01 refs cs = disable_at (disable_at cs i) j ++ [c_setup (ct_expr c) Equal is01].
Proof. exact (DuplicateProof4.pair_extracted addr is01 refs cs i j c d). Qed.
Print Assumptions C29_pair_becomes_equality.

(** C30: when all constraints are enabled, every solution stays one, and if there is a solution the solution sets
    are the same. *)
Theorem C30_set_domination_keeps_solutions (name : nat -> nat) (vs : vars) (cs : list constr) (n : nat) : proper_senses (vctx name vs) ->
  (forall c, In c cs -> ct_enabled c = true /\ truthful_flags (vctx name vs) c /\ NoDup (variables c)) ->
  let r := remove_redundant_set_constraints (type_refs (vctx name vs) cs) vs cs in
  (forall y, solution (mkP n vs cs) y -> solution (mkP n (fst r) (snd r)) y) /\
  ((exists y0, solution (mkP n vs cs) y0) -> forall y, solution (mkP n vs cs) y <-> solution (mkP n (fst r) (snd r)) y).
Proof. exact (DuplicateProof2.redundant_set_typed name vs cs n). Qed.
Print Assumptions C30_set_domination_keeps_solutions.

(** C30, for any lists of constraints that mean "exactly one". *)
Theorem C30_exactly_one_lists (refs : ctype -> list nat) (vs : vars) (cs : list constr) (n : nat) :
  NoDup (refs ExclusiveOR ++ refs SetPartitioning) ->
  (forall i, In i (refs ExclusiveOR ++ refs SetPartitioning) -> exists c, nth_error cs i = Some c /\ ct_enabled c = true /\ exactly_one vs c) ->
  let r := remove_redundant_set_constraints refs vs cs in
  (forall y, solution (mkP n vs cs) y -> solution (mkP n (fst r) (snd r)) y) /\
  ((exists y0, solution (mkP n vs cs) y0) -> forall y, solution (mkP n vs cs) y <-> solution (mkP n (fst r) (snd r)) y).
Proof. exact (DuplicateProof2.redundant_set_spec refs vs cs n). Qed.
Print Assumptions C30_exactly_one_lists.

(** C30: a variable the user fixed at 1 is fixed at 0 instead, and an infeasible problem becomes feasible. *)
Theorem C30_fixed_overruled_refuted : exists name vs cs n,
  let r := remove_redundant_set_constraints (type_refs (vctx name vs) cs) vs cs in
  (forall c, In c cs -> ct_enabled c = true) /\ (forall y, ~ solution (mkP n vs cs) y) /\ exists y, solution (mkP n (fst r) (snd r)) y.
Proof.
  exists DuplicateProof4.rank, DuplicateProof4.overrule_vars, DuplicateProof4.overrule, 3. cbv zeta.
  split; [intros c [<-|[<-|[]]]; reflexivity|]. exact DuplicateProof4.overrule_gains.
Qed.
Print Assumptions C30_fixed_overruled_refuted.

(** C30: a constraint the user has disabled still removes a larger enabled one; a feasible problem gains solutions. *)
Theorem C30_disabled_refuted : exists name vs cs n,
  let r := remove_redundant_set_constraints (type_refs (vctx name vs) cs) vs cs in
  (exists y, solution (mkP n vs cs) y) /\ exists y, solution (mkP n (fst r) (snd r)) y /\ ~ solution (mkP n vs cs) y.
Proof. exists DuplicateProof4.rank, DuplicateProof4.ghost_vars, DuplicateProof4.ghost, 3. exact DuplicateProof4.ghost_gains. Qed.
Print Assumptions C30_disabled_refuted.

(** C49: fixing redundant set variables at 0 adds no solution and keeps, for every solution, one that is as good;
    only free variables change, and they get fixed at 0. *)
Theorem C49_set_variables_keep_an_optimum (n : nat) (minimize : bool) (obj : expr) (cs : list constr) (vs : vars) :
  wf obj -> unit_bounds n vs -> set_problem vs cs -> worth_zero n minimize obj vs cs -> no_fixed_twin n vs cs ->
  forall (caddr : nat -> N) (refs : ctype -> list nat) (name : nat -> nat),
  let vs' := remove_redundant_set_variables caddr refs minimize (coef (ex_sens obj)) name n cs vs in
  (forall v, vs' v = vs v \/ v < n /\ va_fixed (vs v) = false /\ va_fixed (vs' v) = true /\ va_value (vs' v) = 0%Z) /\
  (forall y, legal vs' y -> legal vs y) /\
  forall y, legal vs y -> satisfies_all cs y ->
    exists y', legal vs' y' /\ satisfies_all cs y' /\ as_good minimize (e_eval obj y') (e_eval obj y).
Proof.
  intros W UB SP WZ NT caddr refs name.
  exact (DuplicateProof3.redundant_variables_spec n minimize obj cs vs W UB SP WZ NT caddr refs name).
Qed.
Print Assumptions C49_set_variables_keep_an_optimum.

(** C49: minimizing - x0 - x1 under x0 + x1 + x2 >= 1, the optimum is lost. *)
Theorem C49_covering_refuted : exists name vs obj cs n, unit_bounds n vs /\
  forall caddr, exists y, legal vs y /\ satisfies_all cs y /\
  forall y', legal (remove_redundant_set_variables caddr (type_refs (vctx name vs) cs) true (coef (ex_sens obj)) name n cs vs) y' ->
    ~ as_good true (e_eval obj y') (e_eval obj y).
Proof.
  exists DuplicateProof4.rank, DuplicateProof4.ghost_vars, DuplicateProof4.gain, DuplicateProof4.cover, 3.
  split; [intros v _ _; split; reflexivity|]. exact DuplicateProof4.covering_loses.
Qed.
Print Assumptions C49_covering_refuted.

(** C49: a variable the user fixed at 1 is set to 0. *)
Theorem C49_fixed_overwritten_refuted : exists name vs obj cs n v, forall caddr,
  let vs' := remove_redundant_set_variables caddr (type_refs (vctx name vs) cs) true obj name n cs vs in
  (va_fixed (vs v) = true /\ va_value (vs v) = 1%Z) /\ (va_fixed (vs' v) = true /\ va_value (vs' v) = 0%Z).
Proof.
  exists DuplicateProof4.rank, DuplicateProof4.settled, (fun v => inject_Z (Z.of_nat v)), DuplicateProof4.pair_cs, 2, 1.
  exact DuplicateProof4.settled_overwritten.
Qed.
Print Assumptions C49_fixed_overwritten_refuted.

(** * Examples *)
Definition unit_var (f : bool) (z : Z) : var := mkVar z 0 1 true f VBinary (0 <? z)%Z (z <? 1)%Z.
Definition ex_free : vars := fun _ => unit_var false 0.
Definition ones_of (l : list nat) (s : csense) : constr := c_setup (mkExpr (map (fun v => (v, 1%Q)) l) (-(1))) s (fun _ => true).
Definition ex_addr (v : nat) : N := N.of_nat (4096 + 640 * v).

(** Two of four constraints are duplicates. *)
Definition ex_dup : list constr := [ones_of [0; 1; 2] Less; ones_of [3; 4; 5] Less; ones_of [2; 0; 1] Less; ones_of [3; 5; 4] Greater].
Example ex_dup_wf : well_formed ex_dup.
Proof. intros c H. repeat (destruct H as [<-|H]; [repeat constructor; cbn; intuition discriminate|]). destruct H. Qed.
Example ex_dup_removed :
  map ct_enabled (remove_duplicated_constraints ex_addr (type_refs (vctx (fun v => v) ex_free) ex_dup) ex_dup) = [true; true; false; true].
Proof. vm_compute. reflexivity. Qed.
Example ex_no_collision : forall i j c d, In i [0; 1; 2] -> In j [0; 1; 2] -> nth_error ex_dup i = Some c -> nth_error ex_dup j = Some d ->
  expr_hash ex_addr (ct_expr c) = expr_hash ex_addr (ct_expr d) -> rewritten c d.
Proof.
  assert (P : Permutation [2; 0; 1] [0; 1; 2]).
  { apply NoDup_Permutation; [repeat constructor; cbn; intuition discriminate|repeat constructor; cbn; intuition discriminate|cbn; intuition]. }
  intros i j c d Ii Ij Ei Ej H.
  repeat (destruct Ii as [<-|Ii]; [injection Ei as <-|]); try destruct Ii; repeat (destruct Ij as [<-|Ij]; [injection Ej as <-|]); try destruct Ij;
  try (vm_compute in H; discriminate H); (split; [reflexivity|split; [|reflexivity]]); cbn [ct_expr ones_of c_setup ex_sens];
  apply Permutation_map; first [reflexivity|exact P|symmetry; exact P].
Qed.

(** A pair of opposite inequalities. *)
Definition ex_opp : list constr := [ones_of [0; 1; 2] Less; ones_of [0; 1; 2] Greater; ones_of [1; 2; 3] Less].
Example ex_opp_merged : map (fun c => (ct_sense c, ct_enabled c))
  (extract_implicit_equalities ex_addr (fun _ => true) (type_refs (vctx (fun v => v) ex_free) ex_opp) ex_opp)
  = [(Less, false); (Greater, false); (Less, true); (Equal, true)].
Proof. vm_compute. reflexivity. Qed.

(** Nested set partitioning constraints. *)
Definition ex_set : list constr := [ones_of [0; 1; 2; 3] Equal; ones_of [1; 2] Equal; ones_of [2; 4; 5] Equal].
Example ex_set_ready : proper_senses (vctx (fun v => v) ex_free) /\
  (forall c, In c ex_set -> ct_enabled c = true /\ truthful_flags (vctx (fun v => v) ex_free) c /\ NoDup (variables c)) /\
  exists y, solution (mkP 6 ex_free ex_set) y.
Proof.
  split; [intros v _; cbn; lia|]. split.
  - intros c H. repeat (destruct H as [<-|H]; [split; [reflexivity|]; split; [split; [intros _ v a I; cbn in I; repeat (destruct I as [I|I]; [injection I as <- <-; reflexivity|]); destruct I|intros _ v _; now left]|repeat constructor; cbn; intuition discriminate]|]). destruct H.
  - exists (fun v => if v =? 2 then 1%Z else 0%Z). split; [intros v; split; [discriminate|]; intros _; cbn; destruct (v =? 2); lia|].
    intros c H _. repeat (destruct H as [<-|H]; [cbv; reflexivity|]). destruct H.
Qed.
Example ex_set_reduced : let r := remove_redundant_set_constraints (type_refs (vctx (fun v => v) ex_free) ex_set) ex_free ex_set in
  map ct_enabled (snd r) = [false; true; true] /\ map (fun v => va_fixed (fst r v)) (seq 0 6) = [true; false; false; true; false; false].
Proof. vm_compute. split; reflexivity. Qed.

(** A set problem in which x1 dominates x0, and x2 dominates x3. *)
Definition ex_cover : list constr := [ones_of [0; 1; 2; 3] Equal; ones_of [2; 3; 4] Less; ones_of [0; 1; 4] Greater].
Definition ex_cost : expr := mkExpr [(0, 3%Q); (1, 1%Q); (2, 2%Q); (3, 2%Q); (4, 1%Q)] 0.
Example ex_cover_ready : wf ex_cost /\ unit_bounds 5 ex_free /\ set_problem ex_free ex_cover /\ worth_zero 5 true ex_cost ex_free ex_cover /\
  no_fixed_twin 5 ex_free ex_cover.
Proof.
  split; [repeat constructor; cbn; intuition discriminate|]. split; [intros v _ _; split; reflexivity|]. split; [|split].
  - intros c H _. destruct H as [<-|[<-|[<-|[]]]]; [left; apply (DuplicateProof4.unit_plain ex_free [0; 1; 2; 3] Equal)|
      right; left; apply (DuplicateProof4.unit_plain ex_free [2; 3; 4] Less)|right; right; apply (DuplicateProof4.unit_plain ex_free [0; 1; 4] Greater)];
    try (repeat constructor; cbn; intuition discriminate); intros v _; (split; [intros _; split; reflexivity|discriminate]).
  - intros v L _. left. do 5 (destruct v as [|v]; [cbv; discriminate|]). lia.
  - intros i j _ _ _ F. discriminate F.
Qed.
Example ex_cover_reduced :
  let vs := remove_redundant_set_variables ex_addr (type_refs (vctx (fun v => v) ex_free) ex_cover) true (coef (ex_sens ex_cost)) (fun v => v) 5 ex_cover ex_free in
  map (fun v => va_fixed (vs v)) (seq 0 5) = [true; false; false; true; false].
Proof. vm_compute. reflexivity. Qed.
