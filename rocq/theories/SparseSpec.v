(** Specification for C61: matrices as functions of row and column. *)
From Coq Require Import List ZArith QArith Qabs Bool Sorting.Sorted.
From Verif Require Import SparseModel.
Import ListNotations.
Local Open Scope Q_scope.

Fixpoint total (l : list Q) : Q := match l with [] => 0 | q :: tl => q + total tl end.
(** The sum over i < n. *)
Definition sum_below (n : nat) (f : nat -> Q) : Q := total (map f (seq 0 n)).
(** The matrix that lists of rows, columns and values describe: listed values at the
    same place add up. *)
Fixpoint value_at (rows cols : list nat) (values : list Q) (i j : nat) : Q :=
  match rows, cols, values with
  | r :: rows, c :: cols, v :: values => (if Nat.eqb r i && Nat.eqb c j then v else 0) + value_at rows cols values i j
  | _, _, _ => 0
  end.
(** The entries are listed row after row. *)
Definition by_rows (rows : list nat) : Prop := StronglySorted le rows.
(** The coefficient of a stored matrix at row i, column j. *)
Definition coefficient (m : matrix) (i j : nat) : Q := value_at (mt_rows m) (mt_cols m) (mt_values m) i j.
(** v is a matrix with coefficients a and nc columns, times x. *)
Definition is_product (v : list Q) (nr nc : nat) (a : nat -> nat -> Q) (x : list Q) : Prop :=
  length v = nr /\ forall i, (i < nr)%nat -> nth i v 0 == sum_below nc (fun j => a i j * nth j x 0).
(** The sum of the absolute values listed in column j. *)
Fixpoint column_weight (cols : list nat) (values : list Q) (j : nat) : Q :=
  match cols, values with
  | c :: cols, v :: values => (if Nat.eqb c j then Qabs v else 0) + column_weight cols values j
  | _, _ => 0
  end.
