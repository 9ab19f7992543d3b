(** * The overlap rate of a chain move

    setup_overlap_rate (move.h:183-226) with the sets of
    unordered_set_utility.h:33-73.  The root of the ratio (move.h:222-225) is not
    taken: the rate is the (number of alterations - 1)-th root of the ratio
    modelled here, and the root keeps 0, 1 and the order. *)
From Coq Require Import List Bool Arith ZArith QArith.
Import ListNotations.

(** std::unordered_set as a list without duplicates. *)
Definition has (l : list nat) (x : nat) : bool := existsb (Nat.eqb x) l.
Definition insert (x : nat) (l : list nat) : list nat := if has l x then l else l ++ [x].

(** update_union_set (unordered_set_utility.h:55-59). *)
Definition update_union (first second : list nat) : list nat := fold_left (fun s x => insert x s) second first.

(** The constructor from a vector, as in from_vector (unordered_set_utility.h:69-73). *)
Definition from_vector (l : list nat) : list nat := update_union [] l.

(** update_intersection_set (unordered_set_utility.h:33-43). *)
Definition update_intersection (first second : list nat) : list nat := filter (has second) first.

(** The loop over the other alterations (move.h:200-213). *)
Fixpoint gather (related : nat -> list nat) (union inter : list nat) (vs : list nat) : list nat * list nat :=
  match vs with
  | [] => (union, inter)
  | v :: vs' =>
    let s := from_vector (related v) in
    gather related (update_union union s) (update_intersection inter s) vs'
  end.

(** The ratio (move.h:183-226); [related v] is
    related_binary_coefficient_constraint_ptrs of the variable.  Without
    alterations front() is undefined in the code; here the ratio is 0. *)
Definition overlap_ratio (related : nat -> list nat) (vs : list nat) : Q :=
  match vs with
  | [] => 0
  | v :: vs' =>
    let first := from_vector (related v) in
    match first with
    | [] => 0
    | _ =>
      let (union, inter) := gather related first first vs' in
      (inject_Z (Z.of_nat (length inter)) / inject_Z (Z.of_nat (length union)))%Q
    end
  end.
