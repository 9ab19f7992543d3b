(** C70: the archive of incumbents and the search tree. *)
From Coq Require Import List ZArith QArith Bool Sorted Lia.
From Verif Require Import PresolveModel UnionFindModel UnionFindSpec SearchTreeModel SearchTreeSpec SearchTreeProof SearchTreeProof2 SearchTreeProof3.
Import ListNotations.

(** For every initial solution and every history of offered incumbents, all different:
    nothing undefined happens and the archive holds all of them, except the infeasible
    ones offered before the first feasible one; after an offer the solutions shown are
    those of a minimum spanning tree of the archive under the number of differing
    values: as frontier those with one edge, as locally optimal those without a better
    neighbour, in order of arrival, each with its distance to the incumbent. *)
Theorem C70_history : forall (init : tsol) (hist : list (list tsol * tsol)),
  NoDup (map ts_vars (init :: concat (map fst hist))) ->
  (forall s, In s (init :: concat (map fst hist)) -> sparse (ts_vars s)) ->
  (forall sols inc, In (sols, inc) hist -> sparse (ts_vars inc)) ->
  exists g, gs_run (gs_start init) hist = Ok g /\ gs_archive g = retained [init] (map fst hist) /\
    forall h sols inc, hist = h ++ [(sols, inc)] -> sols <> [] ->
      exists es t, complete (gs_archive g) es /\ minimum_tree t es /\
        listed (gs_archive g) inc (leaf t) (tr_frontier (gs_tree g)) /\
        listed (gs_archive g) inc (no_better (gs_archive g) t) (tr_local (gs_tree g)).
Proof.
  intros init hist N SP SI. destruct (history init hist N SP SI) as (g & A & B & _ & _ & C).
  exists g. exact (conj A (conj B C)).
Qed.
Print Assumptions C70_history.

(** A best solution of the archive is always shown as locally optimal. *)
Theorem C70_best : forall sols inc t l s i, listed sols inc (no_better sols t) l -> nth_error sols i = Some s ->
  (forall r, In r sols -> (ts_aug s <= ts_aug r)%Q) -> exists d, In (s, d) l.
Proof. exact best_local. Qed.
Print Assumptions C70_best.

(** Once the archive has two solutions, at least two are shown as frontier. *)
Theorem C70_frontier : forall sols inc es t l, complete sols es -> minimum_tree t es -> listed sols inc (leaf t) l ->
  (2 <= length sols)%nat -> (2 <= length l)%nat.
Proof. exact two_leaves. Qed.
Print Assumptions C70_frontier.

(** An exported solution stores its values without the zeros, so that absent names are
    0, and its augmented objective is the objective plus the weighted violation. *)
Theorem C70_export : forall values obj viol penalty feasible, StronglySorted lt (map fst values) ->
  let s := export_solution values obj viol penalty feasible in
  sparse (ts_vars s) /\ (forall k, value (ts_vars s) k = value values k) /\ ts_aug s = (obj + penalty * viol)%Q.
Proof. exact export_sparse. Qed.
Print Assumptions C70_export.

Definition ex_sol (values : list (nat * Z)) (obj : Q) (viol : Q) (f : bool) : tsol := export_solution values obj viol 100 f.
Definition ex_a := ex_sol [(0%nat, 0%Z); (1%nat, 0%Z); (2%nat, 0%Z)] 9 1 false.
Definition ex_b := ex_sol [(0%nat, 1%Z); (1%nat, 0%Z); (2%nat, 0%Z)] 8 0 true.
Definition ex_c := ex_sol [(0%nat, 1%Z); (1%nat, 2%Z); (2%nat, 0%Z)] 7 0 true.
Definition ex_d := ex_sol [(0%nat, 1%Z); (1%nat, 2%Z); (2%nat, 5%Z)] 6 0 true.
Definition ex_e := ex_sol [(0%nat, 4%Z); (1%nat, 0%Z); (2%nat, 0%Z)] 5 0 true.

Example C70_example :
  let hist := [([ex_b], ex_b); ([], ex_b); ([ex_c; ex_d], ex_d); ([ex_e], ex_e)] in
  NoDup (map ts_vars (ex_a :: concat (map fst hist))) /\
  (forall s, In s (ex_a :: concat (map fst hist)) -> sparse (ts_vars s)) /\
  exists g, gs_run (gs_start ex_a) hist = Ok g /\ gs_archive g = [ex_b; ex_c; ex_d; ex_e] /\
    map (fun e => (e_fst e, e_snd e)) (match spanning_tree (tr_graph (gs_tree g)) with Some t => g_edges t | None => [] end)
      = [(0, 1); (1, 2); (0, 3)]%nat /\
    tr_frontier (gs_tree g) = [(ex_d, 3%Z); (ex_e, 0%Z)] /\ tr_local (gs_tree g) = [(ex_d, 3%Z); (ex_e, 0%Z)].
Proof.
  cbv zeta. split; [|split].
  - cbn. repeat constructor; cbn; intuition discriminate.
  - cbn [concat map fst app In]. intros s H. repeat destruct H as [<-|H]; try contradiction;
      (apply C70_export; cbn; repeat constructor; lia).
  - eexists. split; [vm_compute; reflexivity|]. vm_compute. repeat split; reflexivity.
Qed.

(** If a solution is offered again, the archive can shrink under the tree, and the tree
    then reads past the end of the archive. *)
Theorem C70_repeated_refuted : exists init hist,
  (forall s, In s (init :: concat (map fst hist)) -> sparse (ts_vars s)) /\ gs_run (gs_start init) hist = UB.
Proof.
  exists ex_b, [([ex_a; ex_b], ex_b); ([ex_b], ex_b)]. split; [|vm_compute; reflexivity].
  cbn [concat map fst app In]. intros s H. repeat destruct H as [<-|H]; try contradiction;
    (apply C70_export; cbn; repeat constructor; lia).
Qed.
Print Assumptions C70_repeated_refuted.

(** The exported augmented objective ignores the direction of the optimization: of two
    feasible solutions of a maximization, the tree shows the worse one as locally
    optimal and not the better one. *)
Theorem C70_maximize_refuted : exists (worse better : tsol) g,
  worse = export_solution [(0%nat, 1%Z)] 5 0 100 true /\ better = export_solution [(0%nat, 2%Z)] 7 0 100 true /\
  (ts_obj worse < ts_obj better)%Q /\
  gs_run (gs_start worse) [([better], better)] = Ok g /\ map fst (tr_local (gs_tree g)) = [worse].
Proof.
  exists (export_solution [(0%nat, 1%Z)] 5 0 100 true), (export_solution [(0%nat, 2%Z)] 7 0 100 true).
  eexists. split; [reflexivity|]. split; [reflexivity|]. split; [reflexivity|]. split; vm_compute; reflexivity.
Qed.
Print Assumptions C70_maximize_refuted.
