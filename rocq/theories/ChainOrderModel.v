(** * The order of the chain moves and the removal of duplicates

    sort_moves, deduplicate_moves and reduce_moves of the chain moves
    (chain_move_generator.h:99-206) with the order of sort_moves and the equality
    of moves (move.h:290-339).

    Simplified: overlap rates are rationals (they are roots of rationals computed
    in floating point); the numbers of alterations and of related constraints and
    the values do not overflow an int. *)
From Coq Require Import List Bool ZArith QArith Qabs.
From Verif Require Import MoveModel.
Import ListNotations.
Open Scope Z_scope.

(** A chain move (move.h:18-37): for every alteration the address of the variable
    and the value, the number of related constraints, the overlap rate. *)
Record cmove := mkCm { cm_alterations : list (Z * Z); cm_related : nat; cm_overlap : Q }.

(** setup_hash (move.h:229-243). *)
Definition cm_hash (m : cmove) : Z := fold_left (fun h a => Z.lxor h (fst a)) (cm_alterations m) 0.

(** EPSILON_10 (constant/constant.h:11). *)
Definition EPS10 : Q := 1 # 10000000000.

(** The difference of two 64-bit addresses stored in an int
    (chain_move_generator.h:161-165). *)
Definition to_int (z : Z) : Z := (z + 2 ^ 31) mod 2 ^ 32 - 2 ^ 31.

(** The loop over the addresses (chain_move_generator.h:160-171): the first
    difference that is not zero decides; None: all are zero. *)
Fixpoint by_address (a b : list (Z * Z)) : option bool :=
  match a, b with
  | x :: a', y :: b' =>
    let d := to_int (fst x - fst y) in
    if 0 <? d then Some true else if d <? 0 then Some false else by_address a' b'
  | _, _ => None
  end.

(** The loop over the values (chain_move_generator.h:177-187). *)
Fixpoint by_value (a b : list (Z * Z)) : bool :=
  match a, b with
  | x :: a', y :: b' =>
    let d := snd x - snd y in
    if 0 <? d then true else if d <? 0 then false else by_value a' b'
  | _, _ => false
  end.

(** The comparison of sort_moves (chain_move_generator.h:110-189).  The hash of
    the left move is compared with itself. *)
Definition before (a b : cmove) : bool :=
  let d := (cm_overlap a - cm_overlap b)%Q in
  if Qlt_le_dec EPS10 d then true
  else if Qlt_le_dec d (- EPS10)%Q then false
  else if cm_hash a >? cm_hash a then true
  else if cm_hash a <? cm_hash a then false
  else
    let n := Z.of_nat (length (cm_alterations a)) - Z.of_nat (length (cm_alterations b)) in
    if 0 <? n then true else if n <? 0 then false
    else
      let r := Z.of_nat (cm_related a) - Z.of_nat (cm_related b) in
      if 0 <? r then true else if r <? 0 then false
      else match by_address (cm_alterations a) (cm_alterations b) with
           | Some c => c
           | None => by_value (cm_alterations a) (cm_alterations b)
           end.

(** The loop of operator== (move.h:332-336). *)
Fixpoint equal_alterations (a b : list (Z * Z)) : bool :=
  match a, b with
  | x :: a', y :: b' => if (fst x =? fst y) && (snd x =? snd y) then equal_alterations a' b' else false
  | _, _ => true
  end.

(** operator== of moves (move.h:290-339). *)
Definition same_move (a b : cmove) : bool :=
  if negb (Nat.eqb (length (cm_alterations a)) (length (cm_alterations b))) then false
  else if negb (Nat.eqb (cm_related a) (cm_related b)) then false
  else if negb (cm_hash a =? cm_hash b) then false
  else if Qlt_le_dec EPS10 (Qabs (cm_overlap a - cm_overlap b)) then false
  else equal_alterations (cm_alterations a) (cm_alterations b).

(** deduplicate_moves (chain_move_generator.h:99-104): std::unique. *)
Definition deduplicate (l : list cmove) : list cmove := unique same_move l.

(** reduce_moves (chain_move_generator.h:198-206). *)
Definition reduce (n : nat) (l : list cmove) : list cmove :=
  if Nat.leb (length l) n then l else firstn n l.
