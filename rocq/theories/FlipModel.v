(** The extraction of flippable variable pairs
    (preprocess/flippable_variable_pair_extractor.h) and the file they are written to. *)
From Coq Require Import List ZArith QArith Bool String Ascii.
From Verif Require Import TextModel.
Import ListNotations.
Local Open Scope string_scope.
Local Open Scope Z_scope.
Local Open Scope list_scope.

(** The kinds of variable senses the extractor tells apart (variable_sense.h). *)
Inductive fsense := FsBinary | FsSelection | FsOther.
(** A variable: name, is_fixed, sense.  A constraint: whether it is enabled and the
    variables (positions) of its sensitivities, each once. *)
Record fvar := mkFv { fv_name : string; fv_fixed : bool; fv_sense : fsense }.
Record fcon := mkFc { fc_enabled : bool; fc_vars : list nat }.
Definition fmodel := (list fvar * list fcon)%type.

(** related_constraint_ptrs (model.h:941-968): positions of all constraints, enabled or
    not, with the variable.  Their order (by name) is not used here. *)
Fixpoint related_from (cs : list fcon) (k v : nat) : list nat :=
  match cs with
  | [] => []
  | c :: tl => if existsb (Nat.eqb v) (fc_vars c) then k :: related_from tl (S k) v else related_from tl (S k) v
  end.
Definition related (m : fmodel) (v : nat) : list nat := related_from (snd m) 0 v.

(** A variable is a candidate (flippable_variable_pair_extractor.h:60-74). *)
Definition candidate (m : fmodel) (minimum : Z) (v : nat) : bool :=
  match nth_error (fst m) v with
  | None => false
  | Some a => negb (fv_fixed a) && (match fv_sense a with FsBinary | FsSelection => true | FsOther => false end) &&
              (minimum <=? Z.of_nat (List.length (related m v)))
  end.
(** The variables inserted into the set, in the order of insertion, each once.
    unordered_set::insert does nothing if the element is there. *)
Fixpoint insert_all (l acc : list nat) : list nat :=
  match l with [] => acc | a :: tl => insert_all tl (if existsb (Nat.eqb a) acc then acc else acc ++ [a]) end.
Definition candidates (m : fmodel) (minimum : Z) : list nat :=
  insert_all (flat_map (fun c => if fc_enabled c then filter (candidate m minimum) (fc_vars c) else []) (snd m)) [].

(** utility::intersection_set, union_set (unordered_set_utility.h:12-30, 47-52). *)
Definition member (l : list nat) (a : nat) : bool := existsb (Nat.eqb a) l.
Definition intersection_set (a b : list nat) : list nat :=
  if Nat.ltb (List.length a) (List.length b) then filter (member b) a else filter (member a) b.
Definition union_set (a b : list nat) : list nat := insert_all b a.

(** FlippableVariablePair: the two variables, the number of common constraints and the
    overlap rate. *)
Record fpair := mkFp { fp_first : nat; fp_second : nat; fp_common : Z; fp_rate : Q }.
(** The pair of i and j (flippable_variable_pair_extractor.h:88-109).  The rate is exact
    (a double in the code); the union is not empty because every candidate is in a
    constraint. *)
Definition pair_of (m : fmodel) (minimum : Z) (i j : nat) : list fpair :=
  let a := insert_all (related m i) [] in let b := insert_all (related m j) [] in
  let common := Z.of_nat (List.length (intersection_set a b)) in
  let rate := Qmake common (Pos.of_nat (List.length (union_set a b))) in
  if minimum <=? common then [mkFp i j common rate] else [].
(** The loops over i < j (80-119). *)
Fixpoint pairs_from (m : fmodel) (minimum : Z) (vs : list nat) : list fpair :=
  match vs with [] => [] | i :: tl => flat_map (pair_of m minimum i) tl ++ pairs_from m minimum tl end.
(** std::stable_sort by decreasing overlap rate (120-124). *)
Fixpoint insert_pair (p : fpair) (l : list fpair) : list fpair :=
  match l with
  | [] => [p]
  | q :: tl => if Qlt_le_dec (fp_rate p) (fp_rate q) then q :: insert_pair p tl else p :: l
  end.
Definition sort_pairs (l : list fpair) : list fpair := fold_right insert_pair [] l.
(** extract_pairs (44-131); [order]: the order in which the unordered set is traversed,
    some permutation of [candidates]. *)
Definition extract_pairs (m : fmodel) (minimum : Z) (order : list nat) : list fpair := sort_pairs (pairs_from m minimum order).

(** write_pairs (133-146), the lines. *)
Definition name_at (m : fmodel) (v : nat) : string := match nth_error (fst m) v with Some a => fv_name a | None => "" end.
Definition pair_line (m : fmodel) (p : fpair) : string :=
  append (name_at m (fp_first p)) (append " " (append (name_at m (fp_second p)) (append " "
  (append (print_int (Z.of_nat (List.length (related m (fp_first p))))) (append " "
  (append (print_int (Z.of_nat (List.length (related m (fp_second p))))) (append " "
  (append (print_int (fp_common p)) (append " " (append (print_double (fp_rate p)) " ")))))))))).
Definition write_pairs (m : fmodel) (l : list fpair) : list string := map (pair_line m) l.
