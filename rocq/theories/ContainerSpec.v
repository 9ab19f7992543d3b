(** Specification vocabulary for C21 and C22. *)
From Coq Require Import List ZArith QArith.
Import ListNotations.

(** The last [n] elements of a list (all of it when shorter). *)
Definition last_n {A} (n : nat) (l : list A) : list A := skipn (length l - n) l.

(** [x] is a smallest / largest member of [l]. *)
Definition is_minimum (x : Q) (l : list Q) : Prop := In x l /\ forall y, In y l -> (x <= y)%Q.
Definition is_maximum (x : Q) (l : list Q) : Prop := In x l /\ forall y, In y l -> (y <= x)%Q.

Fixpoint sumQ (l : list Q) : Q := match l with [] => 0%Q | x :: tl => (x + sumQ tl)%Q end.
