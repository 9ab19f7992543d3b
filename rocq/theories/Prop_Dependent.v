(** C64: extracting defined variables and eliminating them. *)
From Coq Require Import List ZArith QArith Bool Lia.
From Verif Require Import ExprModel ExprSpec ConstraintModel ConstraintSpec VariableModel TypeModel TypeSpec PresolveModel
  DependentModel DependentSpec DependentProof DependentProof2 DependentProof3 DependentProof4 DependentProof5 DependentProof6 DependentProof7 DependentProof8.
Import ListNotations.
Local Open Scope Q_scope.

(** C64: on consistent data extraction always succeeds: every chosen equation can be solved for its key. *)
Theorem C64_extraction_succeeds (opt : ctype -> bool) (names : nat -> nat) (s : dstate) : coherent s -> extract opt names s <> None.
Proof. exact (DependentProof4.extract_total opt names s). Qed.
Print Assumptions C64_extraction_succeeds.

(** C64: the only constraints it touches are enabled equations of a type whose option is on; they are disabled.  An
    exclusive or (nor) of a variable that also occurs in a set partitioning is left alone. *)
Theorem C64_chosen (opt : ctype -> bool) (names : nat -> nat) (s s' : dstate) (k i : nat) (c c' : constr) :
  extract opt names s = Some (k, s') -> nth_error (ds_cons s) i = Some c -> nth_error (ds_cons s') i = Some c' ->
  c' = c \/
  c' = disable c /\ ct_enabled c = true /\ ct_sense c = Equal /\
    (exists t, opt t = true /\ fst (classify (context names (ds_vars s)) c) = t /\ In t dependent_types) /\
    (In (fst (classify (context names (ds_vars s)) c)) [ExclusiveOR; ExclusiveNOR] ->
     forall d v, In d (ds_cons s) -> fst (classify (context names (ds_vars s)) d) = SetPartitioning -> In v (keys (ct_expr d)) -> ~ In v (keys (ct_expr c))).
Proof. exact (DependentProof8.chosen_stmt opt names s k s' i c c'). Qed.
Print Assumptions C64_chosen.

(** C64: three passes eliminate every defined variable from the objective, the enabled constraints and the
    definitions, even when the definitions form a ring. *)
Theorem C64_three_passes (s : dstate) (fuel : nat) : coherent s -> (3 <= fuel)%nat ->
  exists s', eliminate_loop fuel s = Some s' /\ clean s'.
Proof. intros C. exact (DependentProof.loop_ends s fuel (DependentProof2.coherent_tidy s C)). Qed.
Print Assumptions C64_three_passes.

(** C64: a round of extraction and elimination keeps every solution, adds none and keeps the objective, if no
    definition leads back to itself. *)
Theorem C64_round_keeps_solutions (opt : ctype -> bool) (names : nat -> nat) (s s' : dstate) (k fuel : nat) :
  coherent s -> clean s -> extract opt names s = Some (k, s') -> acyclic s' -> (3 <= fuel)%nat ->
  exists s'', eliminate_loop fuel s' = Some s'' /\ coherent s'' /\ clean s'' /\
  (forall v, ds_dep s'' v = ds_dep s' v) /\ (forall v, ds_vars s'' v = ds_vars s' v) /\
  forall x, ordinary x -> (solves s x <-> solves s'' x) /\ (solves s x -> e_eval (ds_obj s'') x == e_eval (ds_obj s) x).
Proof. exact (DependentProof5.round_keeps opt names s k s' fuel). Qed.
Print Assumptions C64_round_keeps_solutions.

(** C64: with only the two-variable types whose key is the variable of the smaller name, no definition leads back to itself. *)
Theorem C64_pairs_acyclic (opt : ctype -> bool) (names : nat -> nat) (s s' : dstate) (k : nat) :
  coherent s -> clean s -> pair_types opt ->
  (forall v w, (v < ds_number s)%nat -> (w < ds_number s)%nat -> names v = names w -> v = w) ->
  extract opt names s = Some (k, s') -> acyclic s'.
Proof. exact (DependentProof5.pairs_acyclic opt names s k s'). Qed.
Print Assumptions C64_pairs_acyclic.

(** C64: with integer data the value a defined variable gets, the truncated value of its definition, is the value of
    the definition. *)
Theorem C64_definition_exact (opt : ctype -> bool) (names : nat -> nat) (s s' : dstate) (k v m : nat) (x : nat -> Z) :
  coherent s -> clean s -> extract opt names s = Some (k, s') ->
  (forall c, In c (ds_cons s) -> ct_enabled c = true -> whole (ct_expr c)) ->
  ds_dep s v = None -> ds_dep s' v = Some m ->
  inject_Z (Qtrunc (e_eval (nth m (ds_exprs s') no_expr) x)) == e_eval (nth m (ds_exprs s') no_expr) x.
Proof. exact (DependentProof5.definition_truncates opt names s k s' v m x). Qed.
Print Assumptions C64_definition_exact.

(** C64: the loop of extraction, elimination and presolve ends on every model. *)
Theorem C64_loop_ends (opt : ctype -> bool) (names : nat -> nat) (minimize : bool) (s : dstate) : coherent s -> clean s ->
  exists F r, forall fuel, (F <= fuel)%nat -> dependent_loop fuel opt names minimize s = Some r.
Proof. exact (DependentProof6.outer_ends opt names minimize _ s (Nat.lt_succ_diag_r _)). Qed.
Print Assumptions C64_loop_ends.

(** C64: it leaves consistent data in which no defined variable is used. *)
Theorem C64_loop_leaves_clean (opt : ctype -> bool) (names : nat -> nat) (minimize : bool) (fuel : nat) (s s' : dstate) :
  coherent s -> clean s -> dependent_loop fuel opt names minimize s = Some (Ok s') -> coherent s' /\ clean s'.
Proof. exact (DependentProof6.loop_invariant opt names minimize fuel s s'). Qed.
Print Assumptions C64_loop_leaves_clean.

(** C64: x = 2y + 1, y = 2z + 1, z = 2x + 1 over unbounded integers: the solution x = y = z = -1 is lost and a
    false one appears. *)
Theorem C64_ring_refuted : exists s s' s'' x, coherent s /\ clean s /\ extract default_types same s = Some (3%nat, s') /\
  eliminate_loop 3 s' = Some s'' /\ clean s'' /\ ordinary x /\ solves s x /\ ~ solves s'' x /\
  exists y, ordinary y /\ solves s'' y /\ ~ solves s y.
Proof. exact DependentProof7.ring_lost. Qed.
Print Assumptions C64_ring_refuted.

(** C64: x + y = 1/2 has no solution; after the round all that is checked holds. *)
Theorem C64_fraction_refuted : exists s s' s'' x, coherent s /\ clean s /\ extract default_types same s = Some (1%nat, s') /\
  eliminate_loop 3 s' = Some s'' /\ (forall y, ~ solves s y) /\
  (forall v, ds_dep s'' v = None -> within (ds_vars s'' v) (x v)) /\
  (forall c, In c (ds_cons s'') -> ct_enabled c = true -> satisfies c x) /\
  (forall v k, ds_dep s'' v = Some k -> x v = Qtrunc (e_eval (nth k (ds_exprs s'') no_expr) x)).
Proof. exact DependentProof7.half_accepted. Qed.
Print Assumptions C64_fraction_refuted.

(** C64: after elimination the reported constraint type can be wrong: y + z - w = 1 is a set partitioning. *)
Theorem C64_type_refuted : exists s s' s'' c, coherent s /\ clean s /\ extract default_types same s = Some (1%nat, s') /\
  eliminate_loop 3 s' = Some s'' /\ In c (ds_cons s'') /\ ct_enabled c = true /\
  classify (context same (ds_vars s'')) c = (SetPartitioning, None) /\
  ~ type_meaning (context same (ds_vars s'')) c SetPartitioning None.
Proof. exact DependentProof7.typed_wrong. Qed.
Print Assumptions C64_type_refuted.

(** C64: and so can the margin test of the incremental evaluation: z <= 2w is skipped at z = w = 1. *)
Theorem C64_margin_refuted : exists s s' s'' c x y v, coherent s /\ clean s /\ extract default_types same s = Some (2%nat, s') /\
  eliminate_loop 3 s' = Some s'' /\ In c (ds_cons s'') /\ c_ignorable (c_update c x) = true /\
  (forall w, (0 <= x w <= 1)%Z /\ (0 <= y w <= 1)%Z) /\ (forall w, w <> v -> y w = x w) /\ satisfies c x /\ ~ satisfies c y.
Proof. exact DependentProof7.slack_wrong. Qed.
Print Assumptions C64_margin_refuted.

(** C64: a coefficient that cancels makes the presolve of the loop divide by zero. *)
Theorem C64_cancellation_refuted : exists s, coherent s /\ clean s /\ dependent_loop 5 default_types same true s = Some UB.
Proof. exact DependentProof7.cancel_undefined. Qed.
Print Assumptions C64_cancellation_refuted.

(** ** The hypotheses are met: d = x + y, e = 2d + 1, d + e + z <= 9, minimize d + e + z over 0..10. *)
Definition ex_chain : dstate := plain 5 (bounded 0 10)
  [c_setup (mkExpr [(0%nat, 1); (1%nat, -(1)); (2%nat, -(1))] 0) Equal int01;
   c_setup (mkExpr [(3%nat, 1); (0%nat, -(2))] (-(1))) Equal int01;
   c_setup (mkExpr [(0%nat, 1); (3%nat, 1); (4%nat, 1)] (-(9))) Less int01] (mkExpr [(0%nat, 1); (3%nat, 1); (4%nat, 1)] 0).
Example ex_chain_ok : coherent ex_chain /\ clean ex_chain.
Proof. start. Qed.
Example ex_chain_extract : extract default_types same ex_chain = Some (2%nat, extracted ex_chain).
Proof. vm_compute. reflexivity. Qed.
(** x3 is defined by x0, which is defined by x1 and x2. *)
Example ex_chain_definitions : map (ds_dep (extracted ex_chain)) [0; 1; 2; 3; 4]%nat = [Some 0; None; None; Some 1; None]%nat /\
  ds_exprs (extracted ex_chain) = [mkExpr [(1%nat, 1); (2%nat, 1)] 0; mkExpr [(0%nat, 2)] 1].
Proof. split; vm_compute; reflexivity. Qed.
Example ex_chain_acyclic : acyclic (extracted ex_chain).
Proof.
  exists (fun v => match v with 3%nat => 1%nat | _ => 0%nat end). intros v k w E K D.
  destruct v as [|[|[|[|v]]]]; vm_compute in E; try discriminate E; injection E as <-; vm_compute in K.
  - destruct K as [<-|[<-|[]]]; vm_compute in D; contradiction.
  - destruct K as [<-|[]]. apply Nat.lt_0_1.
Qed.
Example ex_chain_solution : solves ex_chain (fun v => match v with 0%nat => 2 | 1%nat => 1 | 2%nat => 1 | 3%nat => 5 | _ => 0 end%Z) /\
  ordinary (fun v => match v with 0%nat => 2 | 1%nat => 1 | 2%nat => 1 | 3%nat => 5 | _ => 0 end%Z).
Proof.
  split; [constructor|].
  - intros v _. destruct v as [|[|[|[|v]]]]; vm_compute; split; discriminate.
  - intros c I _. cbn in I. repeat destruct I as [<-|I]; try contradiction; vm_compute; try reflexivity; discriminate.
  - intros v k E. discriminate.
  - intros v. destruct v as [|[|[|[|v]]]]; vm_compute; split; discriminate.
Qed.
Example ex_chain_loop : exists s', dependent_loop 20 default_types same true ex_chain = Some (Ok s') /\
  ds_exprs s' = [mkExpr [(1%nat, 1); (2%nat, 1)] 0; mkExpr [(1%nat, 2); (2%nat, 2)] 1] /\
  ds_obj s' = mkExpr [(4%nat, 1); (1%nat, 3); (2%nat, 3)] 1 /\
  map ct_enabled (ds_cons s') = [false; false; true; false; false].
Proof.
  set (r := dependent_loop 20 default_types same true ex_chain).
  assert (E : match r with Some (Ok t) => Some (ds_exprs t, ds_obj t, map ct_enabled (ds_cons t)) | _ => None end =
    Some ([mkExpr [(1%nat, 1); (2%nat, 1)] 0; mkExpr [(1%nat, 2); (2%nat, 2)] 1], mkExpr [(4%nat, 1); (1%nat, 3); (2%nat, 3)] 1,
          [false; false; true; false; false])) by (vm_compute; reflexivity).
  destruct r as [[t| |]|]; try discriminate. exists t. split; [reflexivity|]. split; [congruence|]. split; congruence.
Qed.
Example ex_pairs : pair_types (fun t => match t with ExclusiveOR => true | _ => false end).
Proof. intros [] H; try discriminate H; simpl; auto. Qed.
(** x0 + x1 = 1, x2 + x3 = 1 and x3 + x4 + x5 = 1 over 0/1: only the first is chosen, because x3 is partitioned. *)
Definition ex_part : dstate := plain 6 (bounded 0 1)
  [c_setup (mkExpr [(0%nat, 1); (1%nat, 1)] (-(1))) Equal bin01;
   c_setup (mkExpr [(2%nat, 1); (3%nat, 1)] (-(1))) Equal bin01;
   c_setup (mkExpr [(3%nat, 1); (4%nat, 1); (5%nat, 1)] (-(1))) Equal bin01] (mkExpr [(1%nat, 1)] 0).
Example ex_part_chosen : extract default_types same ex_part = Some (1%nat, extracted ex_part) /\
  map (fun c => fst (classify (context same (ds_vars ex_part)) c)) (ds_cons ex_part) = [ExclusiveOR; ExclusiveOR; SetPartitioning] /\
  map ct_enabled (ds_cons (extracted ex_part)) = [false; true; true].
Proof. split; [|split]; vm_compute; reflexivity. Qed.
