(** C19 (union-find) and C20 (minimum spanning tree). *)
From Coq Require Import List ZArith QArith Permutation Lia.
From Verif Require Import UnionFindModel UnionFindSpec UnionFindProof MstProof.
Import ListNotations.

(** For every element set and every history of root / is_same / unite calls the
    run terminates (recursion depth at most the number of calls), is_same
    answers connectivity by the pairs united before it, unite returns true iff
    its arguments were not yet connected, and root returns a connected element. *)
Theorem C19_union_find_history :
  forall (els : list nat) (ops : list uf_op),
  exists rs u, uf_run (S (length ops)) (uf_setup els) ops = Some (rs, u) /\
    length rs = length ops /\
    (forall i x y, nth_error ops i = Some (OpIsSame x y) ->
       exists b, nth_error rs i = Some (RBool b) /\ (b = true <-> conn (united (firstn i ops)) x y)) /\
    (forall i x y, nth_error ops i = Some (OpUnite x y) ->
       exists b, nth_error rs i = Some (RBool b) /\ (b = true <-> ~ conn (united (firstn i ops)) x y)) /\
    (forall i x, nth_error ops i = Some (OpRoot x) ->
       exists r, nth_error rs i = Some (RRoot r) /\ conn (united (firstn i ops)) x r).
Proof. exact uf_history. Qed.
Print Assumptions C19_union_find_history.

(** After any history, root answers the same representative for two elements
    iff they are connected. *)
Theorem C19_root_canonical :
  forall (els : list nat) (ops : list uf_op) (x y : nat),
  exists rs u rx u1 ry u2,
    uf_run (S (length ops)) (uf_setup els) ops = Some (rs, u) /\
    uf_root (S (length ops)) u x = Some (rx, u1) /\
    uf_root (S (length ops)) u1 y = Some (ry, u2) /\
    (rx = ry <-> conn (united ops) x y).
Proof. exact uf_root_canonical. Qed.
Print Assumptions C19_root_canonical.

Example C19_example :
  let ops := [OpUnite 1 2; OpUnite 4 5; OpUnite 3 2; OpUnite 1 3; OpIsSame 1 3; OpIsSame 1 5; OpUnite 5 3; OpIsSame 1 4]%nat in
  option_map fst (uf_run (S (length ops)) (uf_setup [1;2;3;4;5]%nat) ops) =
    Some [RBool true; RBool true; RBool true; RBool false; RBool true; RBool false; RBool true; RBool true].
Proof. reflexivity. Qed.

(** For every graph (distinct nodes, edges between them, rational weights,
    parallel edges and loops allowed, connected or not) the result is a
    spanning forest and no spanning forest is lighter. *)
Theorem C20_minimum_spanning_tree :
  forall (nodes : list nat), NoDup nodes ->
  forall (es : list edge), (forall e, In e es -> In (e_fst e) nodes /\ In (e_snd e) nodes) ->
    exists T, mst (S (length es)) nodes es = Some T /\ spanning_forest T es /\
      forall F, spanning_forest F es -> (weight T <= weight F)%Q.
Proof. exact mst_correct. Qed.
Print Assumptions C20_minimum_spanning_tree.

Example C20_example :
  let es := [mkEdge 1 2 5; mkEdge 2 3 (-1); mkEdge 1 3 (1#2); mkEdge 3 3 0; mkEdge 4 5 2]%Q in
  NoDup [1;2;3;4;5]%nat /\ (forall e, In e es -> In (e_fst e) [1;2;3;4;5]%nat /\ In (e_snd e) [1;2;3;4;5]%nat) /\
  mst 6 [1;2;3;4;5]%nat es = Some [mkEdge 2 3 (-1); mkEdge 1 3 (1#2); mkEdge 4 5 2]%Q.
Proof.
  split; [|split; [|reflexivity]].
  - repeat constructor; simpl; intuition discriminate.
  - simpl. intros e H. intuition (subst; simpl; auto 8).
Qed.
