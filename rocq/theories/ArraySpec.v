(** C67: slices of arrays. *)
From Coq Require Import List ZArith QArith Bool String.
From Verif Require Import ExprModel ArrayModel.
Import ListNotations.
Local Open Scope Z_scope.

(** The multi-indices of an array that match a pattern, in lexicographic order; [All]
    matches every position. *)
Fixpoint upto (n : nat) (k : Z) : list Z := match n with 0%nat => [] | S n' => k :: upto n' (k + 1) end.
Fixpoint slice (shape pat : list Z) : list (list Z) :=
  match shape, pat with
  | n :: shape', p :: pat' => flat_map (fun k => if (p =? All) || (p =? k) then map (cons k) (slice shape' pat') else []) (upto (Z.to_nat n) 0)
  | [], [] => [[]]
  | _, _ => []
  end.
Fixpoint total (l : list Q) : Q := match l with [] => 0 | q :: tl => q + total tl end.
Fixpoint weighted (l c : list Q) : Q := match l, c with q :: l', a :: c' => q * a + weighted l' c' | _, _ => 0 end.
(** A shape that can be created: at least one dimension, no empty one. *)
Definition good_shape (shape : list Z) : Prop := shape <> [] /\ Forall (fun n => 0 < n) shape.
(** The operation gives element [i] of array [a] another identity. *)
Definition replaces (a : nat) (o : a_op) : Prop :=
  match o with AExpr b _ _ | ACopy b _ _ _ => b = a | _ => False end.

(** The arguments of a scalar product over a slice fit. *)
Definition dot_ok (shape pat : list Z) (coefs : list Q) : Prop :=
  List.length pat = List.length shape /\ (count_occ Z.eq_dec pat All <= 1)%nat /\ List.length coefs = List.length (slice shape pat).
Definition no_copy (o : a_op) : Prop := match o with ACopy _ _ _ _ => False | _ => True end.
Definition given (name label : string) : string := match name with EmptyString => label | s => s end.

(** The operation is meant to change element [j] of array [b]; the value of the element
    at [x] after it, from its value before it, and, for a copy, the element copied.  Assigning a scalar array
    of expressions drops its constant. *)
Definition changes (b j : nat) (o : a_op) : bool :=
  match o with
  | ANew _ _ | AName _ _ _ => false
  | AExpr a i _ | ACopy a i _ _ | AValue a i _ | ALike a i _ | AAdd a i _ | ASub a i _ | AAddV a i _ | ASubV a i _ | AMul a i _ | ADiv a i _ => Nat.eqb b a && Nat.eqb j i
  end.
Definition effect (o : a_op) (old : Q) (copied : expr) (x : nat -> Z) : Q :=
  match o with
  | ANew _ _ | AName _ _ _ => old
  | AExpr _ _ e => e_eval e x
  | ALike _ _ e => e_eval e x - e_eval e (fun _ => 0%Z)
  | ACopy _ _ _ _ => e_eval copied x
  | AValue _ _ q => q
  | AAdd _ _ e => old + e_eval e x
  | ASub _ _ e => old - e_eval e x
  | AAddV _ _ q => old + q
  | ASubV _ _ q => old - q
  | AMul _ _ q => old * q
  | ADiv _ _ q => old / q
  end%Q.
