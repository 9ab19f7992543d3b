(** Specification for C19 and C20: connectivity of a set of pairs. *)
From Coq Require Import List ZArith QArith Permutation.
From Verif Require Import UnionFindModel.
Import ListNotations.

(** [conn ps x y]: x and y are linked by a path of pairs from [ps] (either direction). *)
Inductive conn (ps : list (nat * nat)) : nat -> nat -> Prop :=
| conn_refl x : conn ps x x
| conn_pair x y : In (x, y) ps -> conn ps x y
| conn_sym x y : conn ps x y -> conn ps y x
| conn_trans x y z : conn ps x y -> conn ps y z -> conn ps x z.

(** The pairs a history of calls has united. *)
Definition united (ops : list uf_op) : list (nat * nat) :=
  flat_map (fun o => match o with OpUnite x y => [(x, y)] | _ => [] end) ops.

(** End nodes and total weight of a list of edges. *)
Definition ends (es : list edge) : list (nat * nat) := map (fun e => (e_fst e, e_snd e)) es.
Fixpoint weight (es : list edge) : Q :=
  match es with [] => 0%Q | e :: tl => (e_weight e + weight tl)%Q end.

(** No edge lies on a cycle: its end nodes are not connected by the other edges. *)
Definition acyclic (es : list edge) : Prop :=
  forall l1 e l2, es = l1 ++ e :: l2 -> ~ conn (ends (l1 ++ l2)) (e_fst e) (e_snd e).

(** [f] uses edges of [es] only, each at most as often as it occurs there. *)
Definition sub_edges (f es : list edge) : Prop := exists rest, Permutation (f ++ rest) es.

(** A spanning forest of [es]: acyclic, and connects what [es] connects. *)
Definition spanning_forest (f es : list edge) : Prop :=
  sub_edges f es /\ acyclic f /\ forall x y, conn (ends f) x y <-> conn (ends es) x y.
