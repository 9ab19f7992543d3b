(** Models of utility/union_find.h and of the minimum spanning tree routine of
    utility/graph/graph.h. *)
From Coq Require Import List ZArith QArith Bool.
Import ListNotations.

(** UnionFind (union_find.h:14-16).  Keys are [nat] (the code only tests
    equality).  Each unordered_map accessed with operator[] is a total function
    whose value at untouched keys is the default-constructed one (false, 0);
    m_parents is only read where m_has_parent is true. *)
Record uf := mkUf { uf_parent : nat -> nat; uf_has : nat -> bool; uf_size : nat -> Z }.

Definition upd {V} (f : nat -> V) (k : nat) (v : V) : nat -> V :=
  fun x => if Nat.eqb x k then v else f x.

(** initialize (union_find.h:30-34). *)
Definition uf_init : uf := mkUf (fun _ => O) (fun _ => false) (fun _ => 0%Z).

(** setup (union_find.h:37-43), elements in iteration order. *)
Definition uf_setup (els : list nat) : uf :=
  fold_left (fun u e => mkUf (upd (uf_parent u) e e) (upd (uf_has u) e false) (upd (uf_size u) e 1%Z))
            els uf_init.

(** root (union_find.h:46-52) with path compression.  The recursion is given
    [fuel]; [None] means the recursion is deeper than [fuel]. *)
Fixpoint uf_root (fuel : nat) (u : uf) (x : nat) : option (nat * uf) :=
  match fuel with
  | O => None
  | S f =>
      if uf_has u x
      then match uf_root f u (uf_parent u x) with
           | None => None
           | Some (r, u') => Some (r, mkUf (upd (uf_parent u') x r) (uf_has u') (uf_size u'))
           end
      else Some (x, u)
  end.

(** is_same (union_find.h:55-57). *)
Definition uf_is_same (fuel : nat) (u : uf) (x y : nat) : option (bool * uf) :=
  match uf_root fuel u x with
  | None => None
  | Some (rx, u1) =>
      match uf_root fuel u1 y with
      | None => None
      | Some (ry, u2) => Some (Nat.eqb rx ry, u2)
      end
  end.

(** unite (union_find.h:60-76).  The sizes consulted and updated are those of
    the two arguments, not of their roots, as in the code. *)
Definition uf_unite (fuel : nat) (u : uf) (x y : nat) : option (bool * uf) :=
  match uf_root fuel u x with
  | None => None
  | Some (rx, u1) =>
      match uf_root fuel u1 y with
      | None => None
      | Some (ry, u2) =>
          if Nat.eqb rx ry then Some (false, u2)
          else
            let swap := Z.ltb (uf_size u2 x) (uf_size u2 y) in
            let r1 := if swap then ry else rx in
            let r2 := if swap then rx else ry in
            Some (true, mkUf (upd (uf_parent u2) r2 r1) (upd (uf_has u2) r2 true)
                             (upd (uf_size u2) x (uf_size u2 x + uf_size u2 y)%Z))
      end
  end.

(** A client history: calls of the public operations, with their results. *)
Inductive uf_op := OpRoot (x : nat) | OpIsSame (x y : nat) | OpUnite (x y : nat).
Inductive uf_res := RRoot (r : nat) | RBool (b : bool).

Definition uf_step (fuel : nat) (u : uf) (o : uf_op) : option (uf_res * uf) :=
  match o with
  | OpRoot x => match uf_root fuel u x with Some (r, u') => Some (RRoot r, u') | None => None end
  | OpIsSame x y => match uf_is_same fuel u x y with Some (b, u') => Some (RBool b, u') | None => None end
  | OpUnite x y => match uf_unite fuel u x y with Some (b, u') => Some (RBool b, u') | None => None end
  end.

Fixpoint uf_run (fuel : nat) (u : uf) (ops : list uf_op) : option (list uf_res * uf) :=
  match ops with
  | [] => Some ([], u)
  | o :: tl =>
      match uf_step fuel u o with
      | None => None
      | Some (r, u') =>
          match uf_run fuel u' tl with
          | None => None
          | Some (rs, u'') => Some (r :: rs, u'')
          end
      end
  end.

(** Edge (graph/edge.h): the two end nodes and the weight. *)
Record edge := mkEdge { e_fst : nat; e_snd : nat; e_weight : Q }.

(** std::stable_sort by weight (graph.h:100-104) as a stable insertion sort. *)
Fixpoint insert_edge (e : edge) (l : list edge) : list edge :=
  match l with
  | [] => [e]
  | f :: tl => if Qlt_le_dec (e_weight f) (e_weight e) then f :: insert_edge e tl else e :: l
  end.
Fixpoint sort_edges (l : list edge) : list edge :=
  match l with [] => [] | e :: tl => insert_edge e (sort_edges tl) end.

(** The Kruskal loop (graph.h:113-127).  [n] is total_node_keys.size(), [added]
    is added_edge_ptrs in insertion order.  The comparison
    size() == total.size()-1 is in unsigned arithmetic; it is evaluated only
    after an insertion, hence with [n >= 1]. *)
Fixpoint kruskal (fuel : nat) (n : nat) (u : uf) (added : list edge) (es : list edge) : option (list edge) :=
  match es with
  | [] => Some added
  | e :: tl =>
      match uf_is_same fuel u (e_fst e) (e_snd e) with
      | None => None
      | Some (true, u1) => kruskal fuel n u1 added tl
      | Some (false, u1) =>
          match uf_unite fuel u1 (e_fst e) (e_snd e) with
          | None => None
          | Some (_, u2) =>
              if Nat.eqb (S (length added)) (n - 1) then Some (added ++ [e])
              else kruskal fuel n u2 (added ++ [e]) tl
          end
      end
  end.

(** minimum_spanning_tree (graph.h:94-137): the edges of the returned graph.
    [nodes] are the keys of m_nodes in iteration order. *)
Definition mst (fuel : nat) (nodes : list nat) (es : list edge) : option (list edge) :=
  kruskal fuel (length nodes) (uf_setup nodes) [] (sort_edges es).
