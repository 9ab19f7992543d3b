(** The archive of incumbents and the search tree printed from it: solver/search_tree.h,
    utility/graph/graph.h, solver/abstract_solver_controller.h. *)
From Coq Require Import List ZArith QArith Bool.
From Verif Require Import PresolveModel UnionFindModel SolutionModel.
Import ListNotations.
Local Open Scope Q_scope.

(** SparseSolution (sparse_solution.h:12-25).  [ts_vars]: the map from names to values in
    a canonical order, as in SolutionModel. *)
Record tsol := mkTs { ts_vars : list (nat * Z); ts_obj : Q; ts_viol : Q; ts_aug : Q; ts_feasible : bool }.

(** export_sparse_solution (model.h:3249-3277), export_dense_solution and to_sparse
    (model.h:3208-3246, dense_solution.h:62-84): zero values are left out, and the
    objective enters the augmented objective with its own sign, also when maximizing. *)
Definition export_solution (values : list (nat * Z)) (obj viol penalty : Q) (feasible : bool) : tsol :=
  mkTs (filter (fun kv => negb (snd kv =? 0)%Z) values) obj viol (obj + penalty * viol) feasible.

Definition lookup (k : nat) (m : list (nat * Z)) : option Z :=
  option_map snd (find (fun kv => Nat.eqb (fst kv) k) m).

(** One turn of the loops of distance_l0 (unordered_map_utility.h:72-80). *)
Definition l0_turn (other : list (nat * Z)) (r : Z) (kv : nat * Z) : Z :=
  match lookup (fst kv) other with
  | None => (r + 1)%Z
  | Some v => if (snd kv =? v)%Z then (r - 1)%Z else r
  end.
(** distance_l0 (unordered_map_utility.h:66-95). *)
Definition distance_l0 (a b : list (nat * Z)) : Z :=
  if Nat.ltb (length a) (length b) then fold_left (l0_turn b) a (Z.of_nat (length b))
  else fold_left (l0_turn a) b (Z.of_nat (length a)).

(** Graph (graph.h:13-16).  [g_nodes] is the map from keys to the edge indices of the
    node; weights of nodes are never read. *)
Record graph := mkGr { g_nodes : list (nat * list nat); g_edges : list edge }.
Definition graph_init : graph := mkGr [] [].

(** m_nodes[key] = node (an existing entry is replaced). *)
Fixpoint set_node (k : nat) (v : list nat) (m : list (nat * list nat)) : list (nat * list nat) :=
  match m with
  | [] => [(k, v)]
  | (k', v') :: tl => if Nat.eqb k' k then (k, v) :: tl else (k', v') :: set_node k v tl
  end.
Definition get_node (k : nat) (m : list (nat * list nat)) : option (list nat) :=
  option_map snd (find (fun kv => Nat.eqb (fst kv) k) m).

(** add_node (graph.h:82-94). *)
Definition add_node (g : graph) (k : nat) : graph := mkGr (set_node k [] (g_nodes g)) (g_edges g).

(** Insertion into a std::unordered_set<int>. *)
Definition set_insert (x : nat) (l : list nat) : list nat := if existsb (Nat.eqb x) l then l else l ++ [x].

(** m_nodes[key].m_edge_indices.insert(index), after the check that adds a missing node. *)
Definition touch (m : list (nat * list nat)) (k index : nat) : list (nat * list nat) :=
  match get_node k m with
  | None => set_node k [index] m
  | Some v => set_node k (set_insert index v) m
  end.

(** add_edge (graph.h:28-79). *)
Definition add_edge (g : graph) (e : edge) : graph :=
  let index := length (g_edges g) in
  mkGr (touch (touch (g_nodes g) (e_fst e) index) (e_snd e) index) (g_edges g ++ [e]).

(** minimum_spanning_tree (graph.h:97-142); [None]: the recursion of union-find did not
    end within the number of edges. *)
Definition spanning_tree (g : graph) : option graph :=
  match mst (S (length (g_edges g))) (map fst (g_nodes g)) (g_edges g) with
  | None => None
  | Some T => Some (fold_left add_edge T (fold_left add_node (map fst (g_nodes g)) graph_init))
  end.

(** The edge of two solutions (search_tree.h:65-74); reading past the end of the vector
    is undefined. *)
Definition link (sols : list tsol) (i j : nat) : outcome edge :=
  match nth_error sols i, nth_error sols j with
  | Some a, Some b => Ok (mkEdge i j (inject_Z (distance_l0 (ts_vars a) (ts_vars b))))
  | _, _ => UB
  end.
Fixpoint add_links (sols : list tsol) (g : graph) (ijs : list (nat * nat)) : outcome graph :=
  match ijs with
  | [] => Ok g
  | (i, j) :: tl => bind (link sols i j) (fun e => add_links sols (add_edge g e) tl)
  end.

(** The pairs visited by the two nested loops (search_tree.h:65-75). *)
Definition new_pairs (old new : nat) : list (nat * nat) :=
  flat_map (fun i => map (fun j => (i, j)) (seq old (new - old))) (seq 0 old) ++
  flat_map (fun i => map (fun j => (i, j)) (seq (S i) (new - S i))) (seq old (new - old)).

(** Is there a better neighbour in the tree (search_tree.h:92-113)? *)
Definition worse_than (sols : list tsol) (i k : nat) : outcome bool :=
  if Nat.eqb k i then Ok false
  else match nth_error sols i, nth_error sols k with
       | Some a, Some b => Ok (if Qlt_le_dec (ts_aug b) (ts_aug a) then true else false)
       | _, _ => UB
       end.
Fixpoint better_neighbour (sols : list tsol) (es : list edge) (i : nat) (indices : list nat) : outcome bool :=
  match indices with
  | [] => Ok false
  | x :: tl =>
      match nth_error es x with
      | None => UB
      | Some e =>
          bind (worse_than sols i (e_fst e)) (fun b => if b then Ok true else
          bind (worse_than sols i (e_snd e)) (fun b => if b then Ok true else better_neighbour sols es i tl))
      end
  end.

(** The loop over the solutions (search_tree.h:81-119): frontier and locally optimal
    solutions, each with its distance to the incumbent. *)
Fixpoint classify (sols : list tsol) (t : graph) (inc : tsol) (is_ : list nat) : outcome (list (tsol * Z) * list (tsol * Z)) :=
  match is_ with
  | [] => Ok ([], [])
  | i :: tl =>
      match nth_error sols i with
      | None => UB
      | Some s =>
          let d := distance_l0 (ts_vars s) (ts_vars inc) in
          match get_node i (g_nodes t) with
          | None => Throw
          | Some indices =>
              bind (better_neighbour sols (g_edges t) i indices) (fun better =>
              bind (classify sols t inc tl) (fun p =>
              Ok ((if Nat.eqb (length indices) 1 then [(s, d)] else []) ++ fst p,
                  (if better then [] else [(s, d)]) ++ snd p)))
          end
      end
  end.

(** SearchTree (search_tree.h:14-20). *)
Record tree := mkTree { tr_graph : graph; tr_frontier : list (tsol * Z); tr_local : list (tsol * Z) }.
Definition tree_init : tree := mkTree graph_init [] [].

(** SearchTree::setup (search_tree.h:52-120), also called by update (42-48). *)
Definition tree_update (t : tree) (sols : list tsol) (inc : tsol) : outcome tree :=
  let new := length sols in
  let old := length (g_nodes (tr_graph t)) in
  let g := fold_left add_node (seq old (new - old)) (tr_graph t) in
  bind (add_links sols g (new_pairs old new)) (fun g =>
  match spanning_tree g with
  | None => UB
  | Some m => bind (classify sols m inc (seq 0 new)) (fun p => Ok (mkTree g (fst p) (snd p)))
  end).

(** push of the archive of incumbents, which is unsorted and unbounded
    (solution_archive.h:81-126, solver.h:387-392). *)
Fixpoint distinct_after (p : list (nat * Z)) (l : list tsol) : list tsol :=
  match l with
  | [] => []
  | s :: tl => if vars_eqb p (ts_vars s) then distinct_after p tl else s :: distinct_after (ts_vars s) tl
  end.
Definition distinct (l : list tsol) : list tsol :=
  match l with [] => [] | s :: tl => s :: distinct_after (ts_vars s) tl end.

(** The parts of GlobalState involved: archive, m_has_feasible_solution, search tree. *)
Record gstate := mkGs { gs_archive : list tsol; gs_found : bool; gs_tree : tree }.
(** The end of Solver::preprocess (solver.h:387-409): the initial solution is pushed. *)
Definition gs_start (init : tsol) : gstate := mkGs (distinct [init]) false tree_init.

(** update_incumbent_solution_archive_and_search_tree (abstract_solver_controller.h:123-148).
    [inc]: the global augmented incumbent. *)
Definition gs_update (g : gstate) (sols : list tsol) (inc : tsol) : outcome gstate :=
  match sols with
  | [] => Ok g
  | _ =>
      let arch := distinct (gs_archive g ++ sols) in
      let first := negb (gs_found g) && existsb ts_feasible sols in
      let arch := if first then filter ts_feasible arch else arch in
      let t := if first then tree_init else gs_tree g in
      bind (tree_update t arch inc) (fun t => Ok (mkGs arch (gs_found g || first) t))
  end.
Fixpoint gs_run (g : gstate) (hist : list (list tsol * tsol)) : outcome gstate :=
  match hist with [] => Ok g | (sols, inc) :: tl => bind (gs_update g sols inc) (fun g => gs_run g tl) end.
