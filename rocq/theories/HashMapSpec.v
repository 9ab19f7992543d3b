(** Specification of C18: a finite map given by its list of entries. *)
From Coq Require Import List NArith QArith.
Import ListNotations.

(** The value a finite map stores under [k]; 0 when it stores nothing. *)
Fixpoint value_or_zero (m : list (N * Q)) (k : N) : Q :=
  match m with
  | [] => 0%Q
  | (k', v) :: tl => if N.eqb k' k then v else value_or_zero tl k
  end.
