(** Specification for C01-C04: formulas as the user writes them. *)
From Coq Require Import List ZArith QArith.
From Verif Require Import ExprModel.
Import ListNotations.
Local Open Scope Q_scope.

(** The mathematical value of a formula. *)
Fixpoint meaning (f : formula) (x : nat -> Z) : Q :=
  match f with
  | FVar v => inject_Z (x v)
  | FPos f => meaning f x
  | FNeg f => - meaning f x
  | FAdd f g => meaning f x + meaning g x
  | FSub f g => meaning f x - meaning g x
  | FAddNum f a => meaning f x + a
  | FNumAdd a f => a + meaning f x
  | FSubNum f a => meaning f x - a
  | FNumSub a f => a - meaning f x
  | FMulNum f a => meaning f x * a
  | FNumMul a f => a * meaning f x
  | FDivNum f a => meaning f x / a
  end.

(** No division by zero. *)
Fixpoint divides_ok (f : formula) : Prop :=
  match f with
  | FVar _ => True
  | FPos f | FNeg f => divides_ok f
  | FAdd f g | FSub f g => divides_ok f /\ divides_ok g
  | FAddNum f _ | FNumAdd _ f | FSubNum f _ | FNumSub _ f | FMulNum f _ | FNumMul _ f => divides_ok f
  | FDivNum f a => divides_ok f /\ ~ a == 0
  end.

(** Every variable is listed at most once. *)
Definition keys (e : expr) : list nat := map fst (ex_sens e).
Definition wf (e : expr) : Prop := NoDup (keys e).

(** Assignments admitted by the bounds, with fixed variables at their values. *)
Definition admissible (vi : nat -> vinfo) (x : nat -> Z) : Prop :=
  forall v, (vi_fixed (vi v) = true -> x v = vi_value (vi v)) /\
            (vi_fixed (vi v) = false -> (vi_lower (vi v) <= x v <= vi_upper (vi v))%Z).

(** A move is proper when it names each variable once. *)
Definition proper (m : alterations) : Prop := NoDup (map fst m).
