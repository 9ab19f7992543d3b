(** C16, C17 and C46: incumbents, archive, choice of the best score. *)
From Coq Require Import List ZArith QArith Bool.
From Verif Require Import ConstraintModel EvalModel SolutionModel SolutionSpec SolutionProof.
Import ListNotations.
Local Open Scope Q_scope.

Definition sc (obj laug gaug : Q) (feas : bool) : score := mkScore obj 0 0 0 0 laug gaug feas false false.

(** ** C16 *)

(** After any history of offers, resets of the local incumbent and dual bounds:
    a feasible solution is reported found iff one was offered, and each incumbent
    is a best offer up to the tolerance (the local one among the offers since its
    last reset). *)
Theorem C16_incumbents_hold_best_offers : forall (S : Type) (minimize : bool) (es : list (h_event S)),
  let h := fold_left (h_step minimize) es (ho_init S) in
  (ho_found h = true <-> exists sol s, In (sol, s) (offered es) /\ sc_feasible s = true) /\
  holds_best sc_objective (filter (fun p : S * score => sc_feasible (snd p)) (offered es)) (ho_feasible h) /\
  holds_best sc_global_aug (offered es) (ho_global h) /\
  holds_best sc_local_aug (since_reset es) (ho_local h).
Proof. exact @h_inv_run. Qed.
Print Assumptions C16_incumbents_hold_best_offers.

(** The returned status says exactly which incumbents were replaced by the offer;
    the others are untouched. *)
Theorem C16_status_reports_changes : forall (S : Type) (h : holder S) (sol : S) (s : score),
  let h' := fst (try_update h sol s) in
  let status := snd (try_update h sol s) in
  let changed (f : Q) (old new : slot S) (bit : bool) :=
    (bit = true -> new = mkSlot (Some f) (Some (sol, s)) /\
                   match sl_obj old with Some q => f + (1 # 100000) < q | None => True end) /\
    (bit = false -> new = old) in
  (0 <= status < 8)%Z /\
  changed (sc_local_aug s) (ho_local h) (ho_local h') (Z.testbit status 0) /\
  changed (sc_global_aug s) (ho_global h) (ho_global h') (Z.testbit status 1) /\
  changed (sc_objective s) (ho_feasible h) (ho_feasible h') (Z.testbit status 2) /\
  (Z.testbit status 2 = true -> sc_feasible s = true).
Proof. exact @try_update_status. Qed.
Print Assumptions C16_status_reports_changes.

(** Nothing gets worse along a history: incumbents, and the dual bound as the
    controllers update it. *)
Theorem C16_never_worse : forall (S : Type) (minimize : bool) (es : list (h_event S)) (h : holder S),
  let h' := fold_left (h_step minimize) es h in
  not_worse (sl_obj (ho_feasible h)) (sl_obj (ho_feasible h')) /\
  not_worse (sl_obj (ho_global h)) (sl_obj (ho_global h')) /\
  (ho_found h = true -> ho_found h' = true) /\
  (if minimize then ho_dual h <= ho_dual h' else ho_dual h' <= ho_dual h).
Proof. exact @incumbents_monotone. Qed.
Print Assumptions C16_never_worse.

(** The dual bound: the best of 0, with which a new holder starts, and the bounds
    offered (for the minimization form; negated when maximizing). *)
Theorem C16_dual_bound : forall (S : Type) (es : list (h_event S)),
  let d minimize := ho_dual (fold_left (h_step minimize) es (ho_init S)) in
  ((d true = 0 \/ In (OfferDual (d true)) es) /\ 0 <= d true /\ (forall b, In (OfferDual b) es -> b <= d true)) /\
  ((d false = 0 \/ exists b, In (OfferDual b) es /\ d false = - b) /\ d false <= 0 /\ (forall b, In (OfferDual b) es -> d false <= - b)).
Proof. intros S es. exact (dual_run S es (ho_init S)). Qed.
Print Assumptions C16_dual_bound.

Example C16_example :
  let es := [Offer 1%nat (sc 5 9 9 false); Offer 2%nat (sc 6 6 6 true); OfferDual 2; ResetLocal;
             Offer 3%nat (sc 4 7 8 true); OfferDual 1; Offer 4%nat (sc 4 6 4 true)] in
  let h := fold_left (h_step true) es (ho_init nat) in
  ho_found h = true /\ option_map fst (sl_stored (ho_feasible h)) = Some 3%nat /\
  option_map fst (sl_stored (ho_global h)) = Some 4%nat /\ option_map fst (sl_stored (ho_local h)) = Some 4%nat /\
  ho_dual h == 2 /\ snd (try_update h 5%nat (sc 3 6 3 true)) = 6%Z.
Proof. vm_compute. repeat split; reflexivity. Qed.

(** ** C17 *)

(** Sorted archives: bounded, only pushed solutions, in order, without adjacent
    duplicates; and every solution ever pushed is represented by a kept solution
    with the same variables that is at least as good, unless the archive is full
    of solutions at least as good as it. *)
Theorem C17_sorted_archive_keeps_best : forall (max : Z) (m : sort_mode) (pushes : list (list ssol)),
  m <> SortOff ->
  let arch := archive_run max m pushes in
  ((0 < max)%Z -> (Z.of_nat (length arch) <= max)%Z) /\ incl arch (concat pushes) /\
  in_order m arch /\ no_adjacent_duplicates arch /\
  forall s, In s (concat pushes) ->
    (exists r, In r arch /\ so_vars r = so_vars s /\ rank m r <= rank m s) \/
    ((0 < max)%Z /\ Z.of_nat (length arch) = max /\ forall r, In r arch -> rank m r <= rank m s).
Proof. exact arch_run_inv. Qed.
Print Assumptions C17_sorted_archive_keeps_best.

(** Unsorted archives: the last [max] of the pushed solutions that differ from
    their predecessor. *)
Theorem C17_unsorted_archive_keeps_latest : forall (max : Z) (pushes : list (list ssol)),
  (0 < max)%Z ->
  archive_run max SortOff pushes = last_n (Z.to_nat max) (without_repeats (concat pushes)).
Proof. exact archive_off_spec. Qed.
Print Assumptions C17_unsorted_archive_keeps_latest.

Example C17_example :
  let a := mkSol [(0%nat, 1%Z)] 5 true in let b := mkSol [(0%nat, 2%Z)] 3 true in
  let c := mkSol [(0%nat, 3%Z)] 4 true in let d := mkSol [(0%nat, 4%Z)] 9 true in
  archive_run 2 Ascending [[a]; [b; d]; [b]; [c]] = [b; c] /\
  archive_run 2 Descending [[a]; [b; d]; [c]] = [d; a] /\
  archive_run 2 SortOff [[a]; [b; b]; [b]; [c]] = [b; c] /\ Ascending <> SortOff.
Proof. cbv zeta. repeat split; try (vm_compute; reflexivity). discriminate. Qed.

(** Duplicates that are not adjacent stay: with equal objectives the same
    solution can be archived twice. *)
Theorem C17_duplicate_kept_refuted : exists pushes, 
  ~ NoDup (map so_vars (archive_run 5 Ascending pushes)).
Proof.
  exists [[mkSol [(0%nat, 1%Z)] 5 true]; [mkSol [(0%nat, 2%Z)] 5 true]; [mkSol [(0%nat, 1%Z)] 5 true]].
  vm_compute. intros H. inversion H as [|? ? H1 H2]. apply H1. cbn. auto.
Qed.
Print Assumptions C17_duplicate_kept_refuted.

(** ** C46 *)

(** The index chosen is that of the first smallest (largest) entry. *)
Theorem C46_argmin_is_first_minimum : forall (A : Type) (f : A -> Q) (l : list A),
  l <> [] -> exists i, argmin_index f l = Some i /\
  exists a, nth_error l i = Some a /\ (forall k c, nth_error l k = Some c -> f a <= f c) /\
  (forall k c, (k < i)%nat -> nth_error l k = Some c -> f a < f c).
Proof. exact @argmin_index_total. Qed.
Print Assumptions C46_argmin_is_first_minimum.

Theorem C46_argmax_is_first_maximum : forall (A : Type) (f : A -> Q) (l : list A),
  l <> [] -> exists i, argmax_index f l = Some i /\
  exists a, nth_error l i = Some a /\ (forall k c, nth_error l k = Some c -> f c <= f a) /\
  (forall k c, (k < i)%nat -> nth_error l k = Some c -> f c < f a).
Proof. exact @argmax_index_total. Qed.
Print Assumptions C46_argmax_is_first_maximum.

Example C46_example : argmin_index (fun q : Q => q) [3; 1; 2; 1] = Some 1%nat /\
  argmax_index (fun q : Q => q) [3; 1; 2; 3] = Some 0%nat.
Proof. split; vm_compute; reflexivity. Qed.
