(** Specification for C23-C25. *)
From Coq Require Import List ZArith QArith Bool Arith.
From Coq Require Import Relations.Relation_Operators.
From Verif Require Import ExprModel BinMatModel.
Import ListNotations.
Local Open Scope nat_scope.

(** Linear algebra over GF(2): vectors of length n are [nat -> bool] read below n;
    [vs 0], ..., [vs (m-1)] are m vectors. *)
Definition combination (m : nat) (c : nat -> bool) (vs : mat) (j : nat) : bool :=
  xsum m (fun t => c t && vs t j).
Definition in_span (n m : nat) (vs : mat) (v : nat -> bool) : Prop :=
  exists c, forall j, j < n -> v j = combination m c vs j.
Definition independent (n m : nat) (vs : mat) : Prop :=
  forall c, (forall j, j < n -> combination m c vs j = false) -> forall t, t < m -> c t = false.

(** The rows of the n x n matrix A span a space of dimension r. *)
Definition has_rank (n : nat) (A : mat) (r : nat) : Prop :=
  exists basis : mat, independent n r basis /\ forall v, in_span n n A v <-> in_span n r basis v.

(** A * B is the identity. *)
Definition product_is_identity (n : nat) (A B : mat) : Prop :=
  forall i j, i < n -> j < n -> xsum n (fun k => A i k && B k j) = (i =? j).

(** Non-empty paths in the graph of the matrix. *)
Definition edge (n : nat) (M : mat) (i j : nat) : Prop := i < n /\ j < n /\ M i j = true.
Definition path (n : nat) (M : mat) : nat -> nat -> Prop := clos_trans nat (edge n M).

(** A parity equation: key with coefficient +-2, every other variable with
    coefficient 1, constant 0, 1 or -1. *)
Definition parity_equation (c : gf2c) : Prop :=
  NoDup (map fst (ex_sens (fst c))) /\
  (In (snd c, 2%Q) (ex_sens (fst c)) \/ In (snd c, (-2)%Q) (ex_sens (fst c))) /\
  (forall v q, In (v, q) (ex_sens (fst c)) -> v <> snd c -> q == 1)%Q /\
  (ex_const (fst c) = 0 \/ ex_const (fst c) = 1 \/ ex_const (fst c) = -1)%Q.

(** The value of an expression at an assignment. *)
Definition value_at (e : expr) (x : nat -> Z) : Q :=
  (fold_right (fun p a => snd p * inject_Z (x (fst p)) + a) 0 (ex_sens e) + ex_const e)%Q.
