(** What the archive of incumbents and the search tree are meant to hold. *)
From Coq Require Import List ZArith QArith Bool Sorted.
From Verif Require Import UnionFindModel UnionFindSpec SearchTreeModel.
Import ListNotations.

(** A sparse solution: names in order, each once, and no zeros. *)
Definition sparse (m : list (nat * Z)) : Prop :=
  StronglySorted lt (map fst m) /\ forall k v, In (k, v) m -> v <> 0%Z.

(** Value of a name; names that are not stored are 0. *)
Definition value (m : list (nat * Z)) (k : nat) : Z :=
  match find (fun kv => Nat.eqb (fst kv) k) m with Some (_, v) => v | None => 0%Z end.

(** [hamming a b n]: the values of [n] names differ. *)
Definition hamming (a b : list (nat * Z)) (n : Z) : Prop :=
  exists l, NoDup l /\ (forall k, In k l <-> value a k <> value b k) /\ n = Z.of_nat (length l).

(** The archive: all solutions, but those before the first feasible one is offered are
    dropped when infeasible. *)
Fixpoint retained (acc : list tsol) (batches : list (list tsol)) : list tsol :=
  match batches with
  | [] => acc
  | b :: tl => if existsb ts_feasible b then filter ts_feasible (acc ++ b) ++ concat tl else retained (acc ++ b) tl
  end.

(** [es] are the edges of the complete graph on the positions of [sols], weighted with
    the distances. *)
Definition complete (sols : list tsol) (es : list edge) : Prop :=
  NoDup es /\
  (forall e, In e es -> (e_fst e < e_snd e)%nat /\ exists a b n, nth_error sols (e_fst e) = Some a /\
     nth_error sols (e_snd e) = Some b /\ hamming (ts_vars a) (ts_vars b) n /\ e_weight e = inject_Z n) /\
  (forall i j, (i < j < length sols)%nat -> exists e, In e es /\ e_fst e = i /\ e_snd e = j).

(** A minimum spanning tree of the edges. *)
Definition minimum_tree (t es : list edge) : Prop :=
  spanning_forest t es /\ forall f, spanning_forest f es -> (weight t <= weight f)%Q.

(** Edges of a tree at a position, and neighbours. *)
Definition at_node (i : nat) (e : edge) : bool := Nat.eqb (e_fst e) i || Nat.eqb (e_snd e) i.
Definition degree (t : list edge) (i : nat) : nat := length (filter (at_node i) t).
Definition adjacent (t : list edge) (i k : nat) : Prop :=
  exists e, In e t /\ ((e_fst e = i /\ e_snd e = k) \/ (e_fst e = k /\ e_snd e = i)).

(** [l] lists, in order, the solutions at the positions with a property, each with its
    distance to the incumbent. *)
Definition listed (sols : list tsol) (inc : tsol) (prop : nat -> Prop) (l : list (tsol * Z)) : Prop :=
  exists is_, StronglySorted lt is_ /\ (forall i, In i is_ <-> (i < length sols)%nat /\ prop i) /\
    Forall2 (fun i sd => nth_error sols i = Some (fst sd) /\ hamming (ts_vars (fst sd)) (ts_vars inc) (snd sd)) is_ l.

(** Frontier: positions with exactly one edge.  Locally optimal: no neighbour has a
    smaller augmented objective. *)
Definition leaf (t : list edge) (i : nat) : Prop := degree t i = 1%nat.
Definition no_better (sols : list tsol) (t : list edge) (i : nat) : Prop :=
  forall k a b, adjacent t i k -> nth_error sols i = Some a -> nth_error sols k = Some b -> (ts_aug a <= ts_aug b)%Q.
