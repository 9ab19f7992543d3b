(** Model of utility/binary_matrix.h and preprocess/gf2_solver.h.
    Simplification: the 0/1 integers of a BinaryMatrix are booleans, so that
    "(a + b) & 1" is [xorb] and a sum of products masked by 1 is [xsum]; a matrix
    of SIZE rows is a function of row and column, read only below SIZE. *)
From Coq Require Import List ZArith QArith Bool Arith.
From Verif Require Import ExprModel.
Import ListNotations.
Local Open Scope nat_scope.

Definition mat := nat -> nat -> bool.

(** result &= 1 after summing f 0 ... f (n-1) (binary_matrix.h:131-134,149-152). *)
Fixpoint xsum (n : nat) (f : nat -> bool) : bool :=
  match n with O => false | S m => xorb (xsum m f) (f m) end.

(** dot (binary_matrix.h:126-137 and 140-156), identity (198-204). *)
Definition dotv (n : nat) (A : mat) (x : nat -> bool) : nat -> bool := fun i => xsum n (fun k => A i k && x k).
Definition dotm (n : nat) (A B : mat) : mat := fun i j => xsum n (fun k => A i k && B k j).
Definition ident : mat := fun i j => i =? j.

(** swap(A[row], A[rank]) (binary_matrix.h:93-96). *)
Definition swap_rows (M : mat) (a b : nat) : mat :=
  fun i => if i =? a then M b else if i =? b then M a else M i.
(** A[t][k] = (A[t][k] + A[s][k]) & 1 for all k (binary_matrix.h:100-103). *)
Definition add_row (M : mat) (s t : nat) : mat :=
  fun i k => if i =? t then xorb (M t k) (M s k) else M i k.

(** The search for a pivot row (binary_matrix.h:82-88); None is row == -1. *)
Definition pivot_row (n : nat) (A : mat) (rank j : nat) : option nat :=
  find (fun i => A i j) (seq rank (n - rank)).

(** Elimination below the pivot (binary_matrix.h:98-105). *)
Definition clear_below (n : nat) (rank j : nat) (AB : mat * mat) : mat * mat :=
  fold_left (fun (AB : mat * mat) (i : nat) => if fst AB i j then (add_row (fst AB) rank i, add_row (snd AB) rank i) else AB)
            (seq (S rank) (n - S rank)) AB.

(** One iteration of the column loop (binary_matrix.h:81-107). *)
Definition forward_column (n : nat) (s : mat * mat * nat) (j : nat) : mat * mat * nat :=
  let '(A, B, rank) := s in
  match pivot_row n A rank j with
  | None => (A, B, rank)
  | Some row =>
      let AB := if row =? rank then (A, B) else (swap_rows A row rank, swap_rows B row rank) in
      let AB := clear_below n rank j AB in
      (fst AB, snd AB, S rank)
  end.
Definition forward (n : nat) (A : mat) : mat * mat * nat :=
  fold_left (forward_column n) (seq 0 n) (A, ident, 0).

(** Back substitution in column j: rows j-1 down to 0 (binary_matrix.h:111-118). *)
Definition clear_above (AB : mat * mat) (j : nat) : mat * mat :=
  fold_left (fun (AB : mat * mat) (i : nat) => if fst AB i j then (add_row (fst AB) j i, add_row (snd AB) j i) else AB)
            (rev (seq 0 j)) AB.
(** Columns SIZE-1 down to 1 (binary_matrix.h:110-119). *)
Definition backward (n : nat) (AB : mat * mat) : mat * mat :=
  fold_left clear_above (rev (seq 1 (n - 1))) AB.

(** inverse_and_rank (binary_matrix.h:71-123). *)
Definition inverse_and_rank (n : nat) (M : mat) : mat * nat :=
  let '(A, B, rank) := forward n M in
  if rank =? n then (snd (backward n (A, B)), rank) else (B, rank).

(** ** reachability (binary_matrix.h:159-195) *)
Definition set_entry (R : mat) (i j : nat) : mat :=
  fun a b => if (a =? i) && (b =? j) then true else R a b.
(** nonzeros[i] of the initial matrix (163-170); the iteration order of the
    unordered_set does not matter, the loop only asks whether a hit exists. *)
Definition nonzeros (n : nat) (M : mat) (i : nat) : list nat := filter (fun k => M i k) (seq 0 n).
(** Body of the two inner loops (175-187), in place. *)
Definition reach_cell (n : nat) (M : mat) (s : mat * bool) (ij : nat * nat) : mat * bool :=
  let '(R, updated) := s in let '(i, j) := ij in
  if R i j then s
  else if existsb (fun k => R k j) (nonzeros n M i) then (set_entry R i j, true) else s.
Definition cells (n : nat) : list (nat * nat) := flat_map (fun i => map (fun j => (i, j)) (seq 0 n)) (seq 0 n).
Definition reach_pass (n : nat) (M R : mat) : mat * bool := fold_left (reach_cell n M) (cells n) (R, false).
(** The loop over l with its early exit (172-192). *)
Fixpoint reach_loop (n : nat) (M : mat) (l : nat) (R : mat) : mat :=
  match l with
  | O => R
  | S l' => let '(R', updated) := reach_pass n M R in if updated then reach_loop n M l' R' else R'
  end.
Definition reachability (n : nat) (M : mat) : mat := reach_loop n M n M.

(** ** GF2Solver::solve (gf2_solver.h:39-182) *)

(** A constraint of type GF(2): its expression and its key variable. *)
Definition gf2c := (expr * nat)%type.

(** Variables of the constraints except the keys (56-70). *)
Definition nonkey (c : gf2c) : list nat := filter (fun v => negb (v =? snd c)) (map fst (ex_sens (fst c))).
Definition binary_variables (cs : list gf2c) : list nat := nodup Nat.eq_dec (flat_map nonkey cs).
Definition key_variables (cs : list gf2c) : list nat := nodup Nat.eq_dec (map snd cs).

(** binary_matrix and constant_values (110-125).  [bs] lists the binary variables
    in the order the unordered_set is iterated, so the column of a variable is its
    position (97-100); the row of a constraint is its position (102-105). *)
Definition gf2_matrix (cs : list gf2c) (bs : list nat) : mat :=
  fun r col => match nth_error cs r, nth_error bs col with
               | Some c, Some v => existsb (Nat.eqb v) (nonkey c)
               | _, _ => false
               end.
Definition gf2_constants (cs : list gf2c) : nat -> bool :=
  fun r => match nth_error cs r with Some c => Z.odd (Qtrunc (ex_const (fst c))) | None => false end.

Definition bit (b : bool) : Z := if b then 1%Z else 0%Z.

(** fix_by for the binary variables (145-147). *)
Definition fix_binaries (bs : list nat) (sol : nat -> bool) (x : nat -> Z) : nat -> Z :=
  fold_left (fun x i => match nth_error bs i with Some v => set_val x v (bit (sol i)) | None => x end)
            (seq 0 (length bs)) x.
(** fix_by for the key variable of one constraint (149-162): the other variables
    are added without their coefficients, and the quotient is truncated. *)
Definition fix_key (x : nat -> Z) (c : gf2c) : nat -> Z :=
  let value := fold_left (fun a v => (a + inject_Z (x v))%Q) (nonkey c) (ex_const (fst c)) in
  set_val x (snd c) (Qtrunc (- value / coef (ex_sens (fst c)) (snd c))%Q).

(** None: "Failed". *)
Definition gf2_solve (cs : list gf2c) (bs : list nat) (x : nat -> Z) : option (nat -> Z) :=
  let n := length cs in
  if negb (length bs =? n) then None
  else if negb (length (key_variables cs) =? n) then None
  else
    let '(inverse, rank) := inverse_and_rank n (gf2_matrix cs bs) in
    if negb (rank =? n) then None
    else Some (fold_left fix_key cs (fix_binaries bs (dotv n inverse (gf2_constants cs)) x)).
