(** C91: the archive of feasible solutions. *)
From Coq Require Import List NArith ZArith QArith Bool.
From Verif Require Import ExprModel ExprSpec ConstraintModel VariableModel TypeModel PresolveModel DependentModel DependentSpec SelectionModel SelectionSpec PrepareModel PrepareSpec
  EvalModel SolutionModel MoveModel TabuModel LoopModel LocalModel LagrangeModel ControllerSpec SolverModel SolverSpec WholeModel WholeSpec RelaxModel RelaxSpec OfferModel OfferSpec ParityModel
  ParitySpec ArchiveModel ArchiveSpec.
From Verif Require PrepareProof6 WholeProof4 RelaxProof5 OfferProof6 ParityProof3 ArchiveProof3 ArchiveProof4 ArchiveProof5.
Import ListNotations.
Local Open Scope nat_scope.

(** C91: for every proper, feasible model to which the GF(2) step does nothing (C79), all options, neighborhoods, random
    numbers and clocks, whatever the capacity: every solution in the archive of solve() is a solution of the user's
    model (its values other than 0, each once), has the objective of that solution and is marked as feasible. *)
Theorem C91_stored (fuel : nat) (order : list nat -> list nat) (sw : switches) (su : surroundings) (on : ctype -> bool) (pairs : list (nat * nat)) (o : search_options)
  (nrm : list Q -> Q) (red ext : nat -> Q) (sq : Q -> Q) (lg : Z -> Q) (root : Q -> Q) (minimize : bool) (x : relaxations) (a : ninputs) (capacity : Z)
  (s : dstate) (r : dstate * list sel) (b : option Q) :
  proper_model s -> (exists y, solves s y) -> calm_rounds sw su minimize s -> calm_sets sw su minimize s ->
  prepare fuel sw su minimize s = Some (Ok r) -> prepare_parities order sw su r = r -> settled r -> searchable su r -> flippable_pairs r pairs -> driven r a ->
  (forall go late clock, rx_lagrange x = Some (go, late, clock) -> (1 <= go_queue go)%Z) -> pdlp_phase nrm red ext sq x minimize r = Ok b ->
  exists l, solve_archive fuel order sw su on pairs o nrm red ext sq lg root minimize x a capacity s = Some (Ok l) /\ forall q, In q l -> true_record s (wo_defined o) q.
Proof. exact (ArchiveProof3.archive_model fuel order sw su on pairs o nrm red ext sq lg root minimize x a capacity s r b). Qed.
Print Assumptions C91_stored.

(** C91: the best solutions come first, and there are no more than the capacity (if it is positive). *)
Theorem C91_order (fuel : nat) (order : list nat -> list nat) (sw : switches) (su : surroundings) (on : ctype -> bool) (pairs : list (nat * nat)) (o : search_options)
  (nrm : list Q -> Q) (red ext : nat -> Q) (sq : Q -> Q) (lg : Z -> Q) (root : Q -> Q) (minimize : bool) (x : relaxations) (a : ninputs) (capacity : Z) (s : dstate) (l : list ssol) :
  solve_archive fuel order sw su on pairs o nrm red ext sq lg root minimize x a capacity s = Some (Ok l) ->
  ((0 < capacity)%Z -> (Z.of_nat (length l) <= capacity)%Z) /\ best_first minimize l.
Proof. exact (ArchiveProof3.archive_order fuel order sw su on pairs o nrm red ext sq lg root minimize x a capacity s l). Qed.
Print Assumptions C91_order.

(** C91: if no search is told to store feasible solutions, the archive is empty. *)
Theorem C91_off (fuel : nat) (order : list nat -> list nat) (sw : switches) (su : surroundings) (on : ctype -> bool) (pairs : list (nat * nat)) (o : search_options)
  (nrm : list Q -> Q) (red ext : nat -> Q) (sq : Q -> Q) (lg : Z -> Q) (root : Q -> Q) (minimize : bool) (x : relaxations) (a : ninputs) (capacity : Z) (s : dstate) (l : list ssol) :
  (forall go late clock, rx_lagrange x = Some (go, late, clock) -> go_store go = false) -> (forall o late ds, ni_local a = Some (o, late, ds) -> so_store o = false) ->
  (forall g, In g (ni_rounds a) -> lo_store (gd_options g) = false) ->
  solve_archive fuel order sw su on pairs o nrm red ext sq lg root minimize x a capacity s = Some (Ok l) -> l = [].
Proof. exact (ArchiveProof4.archive_off fuel order sw su on pairs o nrm red ext sq lg root minimize x a capacity s l). Qed.
Print Assumptions C91_off.

(** C91: what a search hands over is, in the order of the iterations, each feasible solution its iterations visit, and
    nothing else (the solutions visited before the first iteration, those of the initial modifications among them,
    are not handed over): the tabu search, the local search and the Lagrange dual search. *)
Theorem C91_tabu (n : nat) (o : loptions) (s : mstate) (h : holder (nat -> Z)) (m : memory) (mods : list (tmove * (nat -> Z))) (es : list env) (l1 : loop) :
  resolved s -> (forall i, (0 <= mm_vcount m i)%Z) -> l_modify o mods (l_setup o s h m) = Some l1 ->
  exists vs, lp_visited (fst (l_search o s h m mods es)) = lp_visited l1 ++ vs /\ map so_vars (l_collect n o s h m mods es) = recorded (lo_store o) n vs.
Proof. exact (ArchiveProof4.l_exact n o s h m mods es l1). Qed.
Print Assumptions C91_tabu.
Theorem C91_local (n : nat) (o : soptions) (s : mstate) (h : holder (nat -> Z)) (m : memory) (es : list senv) :
  resolved s -> (forall i, (0 <= mm_vcount m i)%Z) ->
  exists vs, sl_visited (fst (s_search o s h m es)) = sl_visited (s_setup s h m) ++ vs /\ map so_vars (s_collect n o s h m es) = recorded (so_store o) n vs.
Proof. exact (ArchiveProof4.s_exact n o s h m es). Qed.
Print Assumptions C91_local.
Theorem C91_lagrange (n : nat) (o : goptions) (minimize : bool) (vars : list nat) (lo hi : nat -> Z) (s : mstate) (h : holder (nat -> Z)) (clock : list bool) :
  resolved s ->
  exists vs, gl_visited (fst (g_search o minimize vars lo hi s h clock)) = gl_visited (g_setup o (length vars) s h) ++ vs /\
    map so_vars (g_collect n o minimize vars lo hi s h clock) = recorded (go_store o) n vs.
Proof. exact (ArchiveProof4.g_exact n o minimize vars lo hi s h clock). Qed.
Print Assumptions C91_lagrange.

(** The runs of C77: two rounds of tabu search, and both relaxations with a local search. *)
Example C91_example : ArchiveProof5.o_archive = Some (Ok ArchiveProof5.o_expected) /\ ArchiveProof5.q_archive = Some (Ok ArchiveProof5.q_expected).
Proof. split; vm_compute; reflexivity. Qed.
Example C91_example_contents : map (fun q => (so_vars q, Qred (so_obj q), so_feasible q)) ArchiveProof5.o_expected =
    [([(1, 1%Z); (3, 1%Z); (5, 2%Z); (6, 1%Z)], 2%Q, true); ([(1, 1%Z); (3, 1%Z); (5, 3%Z)], 3%Q, true)] /\
  map (fun q => Qred (so_obj q)) ArchiveProof5.q_expected = [2; 3; 11; 20]%Q.
Proof. split; vm_compute; reflexivity. Qed.
Example C91_example_hypotheses :
  let s := PrepareProof6.p_model in let r := PrepareProof6.p_result in
  proper_model s /\ solves s PrepareProof6.p_start /\ calm_rounds PrepareProof6.p_switches PrepareProof6.p_around true s /\ calm_sets PrepareProof6.p_switches PrepareProof6.p_around true s /\
  prepare 10 PrepareProof6.p_switches PrepareProof6.p_around true s = Some (Ok r) /\
  prepare_parities (fun l => l) PrepareProof6.p_switches PrepareProof6.p_around r = r /\
  settled r /\ searchable PrepareProof6.p_around r /\ flippable_pairs r OfferProof6.o_pairs /\ driven r OfferProof6.o_inputs.
Proof.
  cbv zeta. split; [exact PrepareProof6.p_proper|]. split; [exact PrepareProof6.p_feasible|]. split; [exact PrepareProof6.p_calm_rounds|]. split; [exact PrepareProof6.p_calm_sets|].
  split; [exact (proj1 PrepareProof6.p_result_eq)|]. split; [exact ArchiveProof5.o_idle|]. split; [exact WholeProof4.p_settled|]. split; [exact OfferProof6.p_searchable|].
  split; [exact OfferProof6.p_pairs|exact OfferProof6.p_driven].
Qed.

(** C91 is wrong if the GF(2) step fixes variables (the generators, set up before it, go on moving them, C79): the
    archive of this proper and feasible model holds, marked as feasible, what is not a solution of it. *)
Theorem C91_stale_refuted : exists s r a q, proper_model s /\ (exists y, solves s y) /\ calm_rounds ParityProof3.g_switches PrepareProof6.p_around true s /\
  calm_sets ParityProof3.g_switches PrepareProof6.p_around true s /\
  prepare 10 ParityProof3.g_switches PrepareProof6.p_around true s = Some (Ok r) /\ settled r /\ searchable PrepareProof6.p_around r /\ driven r a /\
  keys_apart (parity_items PrepareProof6.p_around (fst r)) /\ all_plus (parity_items PrepareProof6.p_around (fst r)) /\ in_force (fst r) (parity_items PrepareProof6.p_around (fst r)) /\
  solve_archive 10 (fun l => l) ParityProof3.g_switches PrepareProof6.p_around (fun _ => true) [] WholeProof4.w_options (fun _ => 1%Q) (fun _ => 1%Q) (fun _ => 1%Q) (fun q => q)
    WholeProof4.w_lg (fun q => q) true (mkRx None None) a 10 s = Some (Ok [q]) /\
  so_feasible q = true /\ forall x, lists (ds_number s) x q -> ~ solves s x.
Proof.
  assert (A : 1%Z = 1%Z \/ 1%Z = (-1)%Z) by (left; reflexivity).
  exists (ParityProof3.g_model 1), (ParityProof3.g_result 1), (ParityProof3.g_inputs [0; 0; 4; 7]), ArchiveProof5.g_wrong.
  split; [exact (ParityProof3.g_proper 1 A)|]. split; [exists (ParityProof3.g_point 1); exact (ParityProof3.g_feasible 1 A)|]. split; [exact (proj1 (ParityProof3.g_calm 1 A))|]. split; [exact (proj2 (ParityProof3.g_calm 1 A))|].
  split; [exact (ParityProof3.g_result_eq 1 A)|]. split; [exact (ParityProof3.g_settled 1 A)|]. split; [exact (ParityProof3.g_searchable 1 A)|]. split; [exact (ParityProof3.g_driven _)|].
  split; [exact (ParityProof3.g_apart 1 A)|]. split; [exact ParityProof3.g_plus|]. split; [exact (ParityProof3.g_force 1 A)|].
  split; [exact ArchiveProof5.g_archived|]. split; [reflexivity|exact ArchiveProof5.g_no_solution].
Qed.
Print Assumptions C91_stale_refuted.

(** The answer of solve() need not be in the archive, even if there is room for it: solutions visited before the first
    iteration of a search are not handed over.  In the run of C91_example the answer has the objective 1. *)
Theorem C91_answer_refuted : exists an rn, OfferProof6.o_solved = Some (Ok (Done (an, rn))) /\ an_feasible an = true /\
  ArchiveProof5.o_archive = Some (Ok ArchiveProof5.o_expected) /\ (Z.of_nat (length ArchiveProof5.o_expected) < 10)%Z /\ forall q, In q ArchiveProof5.o_expected -> ~ lists 7 (an_x an) q.
Proof.
  destruct (ArchiveProof5.missing_ok 7 _ _ ArchiveProof5.o_missing) as (an & rn & E & F & N). exists an, rn. split; [exact E|]. split; [exact F|].
  split; [vm_compute; reflexivity|]. split; [reflexivity|exact N].
Qed.
Print Assumptions C91_answer_refuted.
