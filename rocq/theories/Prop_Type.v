(** C07, C08: structural types of constraints. *)
From Coq Require Import List ZArith QArith Qabs Bool Permutation Lia.
From Verif Require Import ExprModel ExprSpec ConstraintModel ConstraintSpec VariableModel TypeModel TypeSpec TypeSpec2.
From Verif Require TypeProof TypeProof2 TypeProof3 TypeProof4.
Import ListNotations.
Local Open Scope Q_scope.

(** C07: whatever the flags were before, setup leaves exactly one flag set, and type() reports it. *)
Theorem C07_exactly_one_type (x : tctx) (c : constr) (st : tstate) : exists t,
  (forall u, ty_flag (setup_type x c st) u = true <-> u = t) /\ type_name (setup_type x c st) = Some t.
Proof. exact (TypeProof.exactly_one x c st). Qed.
Print Assumptions C07_exactly_one_type.

(** C07: the type and the key variable do not depend on the traversal order of the coefficient map nor on
    the earlier flags, as long as the constraint's variables have distinct names. *)
Theorem C07_order_independent (x : tctx) (c c' : constr) (st st' : tstate) :
  reordered c c' -> NoDup (variables c) ->
  (forall u v, In u (variables c) -> In v (variables c) -> tx_name x u = tx_name x v -> u = v) ->
  type_name (setup_type x c st) = type_name (setup_type x c' st') /\
  ty_key (setup_type x c st) = ty_key (setup_type x c' st').
Proof. exact (TypeProof3.setup_order x c c' st st'). Qed.
Print Assumptions C07_order_independent.

(** C07: equal names make the key variable depend on the order. *)
Theorem C07_key_equal_names_refuted : exists x c c', reordered c c' /\ NoDup (variables c) /\ classify x c <> classify x c'.
Proof. exact TypeProof3.key_order_refuted. Qed.
Print Assumptions C07_key_equal_names_refuted.

(** C08: the type describes the solution set, for every constraint and assignment; for the trinomial type only when
    the constant term is zero. *)
Theorem C08_type_meaning (x : tctx) (c : constr) (st : tstate) (t : ctype) :
  proper_senses x -> truthful_flags x c -> NoDup (variables c) ->
  type_name (setup_type x c st) = Some t -> type_meaning x c t (ty_key (setup_type x c st)).
Proof. exact (TypeProof3.named_meaning x c st t). Qed.
Print Assumptions C08_type_meaning.

(** C08: a trinomial exclusive-nor constraint can have a nonzero constant; its solutions then are not the
    assignments where the three variables agree. *)
Theorem C08_trinomial_refuted : exists x c u v w, proper_senses x /\ truthful_flags x c /\ NoDup (variables c) /\
  variables c = [u; v; w] /\
  (forall st, type_name (setup_type x c st) = Some TrinomialExclusiveNOR /\ ty_key (setup_type x c st) = Some w) /\
  exists y, admissible (tx_vi x) y /\ satisfies c y /\ ~ (y u = y w /\ y v = y w).
Proof. exact TypeProof3.trinomial_refuted. Qed.
Print Assumptions C08_trinomial_refuted.

(** C08: the senses and the freedom of the variables that each type requires. *)
Theorem C08_type_requires (x : tctx) (c : constr) (st : tstate) (t : ctype) :
  type_name (setup_type x c st) = Some t -> type_requires x c t (ty_key (setup_type x c st)).
Proof. exact (TypeProof4.named_req x c st t). Qed.
Print Assumptions C08_type_requires.

(** C08: the flag "integer" of a new constraint: all its numbers are within 1e-10
    above an integer. *)
Theorem C08_integer_flag (e : expr) (s : csense) (is01 : nat -> bool) :
  ct_is_integer (c_setup e s is01) = true <-> nearly_whole (ex_const e) /\ forall v a, In (v, a) (ex_sens e) -> nearly_whole a.
Proof. exact (TypeProof4.setup_whole e s is01). Qed.
Print Assumptions C08_integer_flag.

(** C08: sums of three or more binary variables compared with 1, or with 2 and more,
    are recognized. *)
Theorem C08_sums_recognized (x : tctx) (vs : list nat) (s : csense) (k : Q) (is01 : nat -> bool) :
  (3 <= length vs)%nat -> (forall v, In v vs -> is01 v = true) -> (k == 1 \/ 2 <= k) ->
  classify x (sum_constraint vs s k is01) =
  (if Qeq_bool k 1 then match s with Equal => SetPartitioning | Less => SetPacking | Greater => SetCovering end
   else match s with Equal => Cardinality | Less => InvariantKnapsack | Greater => MultipleCovering end, None).
Proof. exact (TypeProof4.sum_recognized x vs s k is01). Qed.
Print Assumptions C08_sums_recognized.

(** ** The hypotheses are met by ordinary constraints *)
Definition ex_ctx : tctx := mkTctx (fun v => if Nat.ltb v 4 then mkVinfo 0 1 false 0 else mkVinfo (-3) 9 false 2)
  (fun v => if Nat.ltb v 4 then VBinary else VInteger) (fun v => v).
(** x0 + x1 + x2 = 1. *)
Definition ex_part : constr := c_setup (mkExpr [(0%nat, 1); (1%nat, 1); (2%nat, 1)] (-(1))) Equal (fun v => Nat.ltb v 4).
(** x1 + 3 x2 <= z4, with z4 an integer. *)
Definition ex_minmax : constr := c_setup (mkExpr [(1%nat, 1); (2%nat, 3); (4%nat, -(1))] 0) Less (fun v => Nat.ltb v 4).

Example ex_proper : proper_senses ex_ctx.
Proof. intros v. cbn [ex_ctx tx_sense tx_vi]. destruct (Nat.ltb v 4); intros [H|[H|H]]; try discriminate H. cbn. split; [lia|discriminate]. Qed.
Example ex_part_ok : truthful_flags ex_ctx ex_part /\ NoDup (variables ex_part) /\
  forall st, type_name (setup_type ex_ctx ex_part st) = Some SetPartitioning.
Proof.
  split; [|split].
  - split.
    + intros _ v a [H|[H|[H|[]]]]; injection H as <- <-; reflexivity.
    + intros _ v [<- |[<- |[<- |[]]]]; left; reflexivity.
  - repeat constructor; cbn; intuition congruence.
  - intros st. destruct (TypeProof.exactly_one ex_ctx ex_part st) as (t & T & ->). assert (A := proj2 (T t) eq_refl).
    rewrite TypeProof.setup_one in A. now subst t.
Qed.
Example ex_minmax_ok : truthful_flags ex_ctx ex_minmax /\ NoDup (variables ex_minmax) /\ classify ex_ctx ex_minmax = (MinMax, Some 4%nat).
Proof.
  split; [|split]; [|repeat constructor; cbn; intuition congruence|reflexivity]. split; discriminate.
Qed.
Example ex_reordered : reordered ex_minmax
  (c_setup (mkExpr [(1%nat, 1); (4%nat, -(1)); (2%nat, 3)] 0) Less (fun v => Nat.ltb v 4)).
Proof. repeat split. cbn. apply perm_skip, perm_swap. Qed.
