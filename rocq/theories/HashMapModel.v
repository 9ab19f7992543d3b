(** Model of utility/fixed_size_hash_map.h (open addressing, linear probing). *)
From Coq Require Import List NArith QArith Bool.
Import ListNotations.
Local Open Scope N_scope.

(** One slot of the three parallel arrays m_is_occupied/m_keys/m_values
    (fixed_size_hash_map.h:24-27).  Simplification: the three arrays, always
    indexed together, are one array of triples.  Keys are addresses. *)
Record cell := mkCell { c_occ : bool; c_key : N; c_val : Q }.

(** The object (fixed_size_hash_map.h:20-27).  [hm_bucket] is m_bucket_size,
    [hm_mask] is m_mask = m_bucket_size - 1. *)
Record hmap := mkHmap { hm_shift : N; hm_bucket : N; hm_mask : N; hm_cells : list cell }.

(** fixed_size_hash_map.h:109-113: the initial content of a slot. *)
Definition empty_cell : cell := mkCell false 0 0%Q.

(** fixed_size_hash_map.h:30-32 followed by the mask of lines 45 and 122-124. *)
Definition start_index (shift mask key : N) : N := N.land (N.shiftr key shift) mask.

(** fixed_size_hash_map.h:47 and 134. *)
Definition next_index (mask idx : N) : N := N.land (idx + 1) mask.

(** Writing slot [i]; [None] is an out-of-range write. *)
Fixpoint set_nth {A} (l : list A) (i : nat) (x : A) : option (list A) :=
  match l, i with
  | [], _ => None
  | _ :: tl, O => Some (x :: tl)
  | h :: tl, S i' => match set_nth tl i' x with Some tl' => Some (h :: tl') | None => None end
  end.

(** The probe loop of insert (fixed_size_hash_map.h:46-48).  [None]: the loop
    has not ended within [fuel] probes, or read out of range. *)
Fixpoint probe_free (fuel : nat) (mask : N) (cells : list cell) (idx : N) : option N :=
  match fuel with
  | O => None
  | S f =>
      match nth_error cells (N.to_nat idx) with
      | None => None
      | Some c => if c_occ c then probe_free f mask cells (next_index mask idx) else Some idx
      end
  end.

(** insert (fixed_size_hash_map.h:41-53). *)
Definition hm_insert (h : hmap) (key : N) (v : Q) : option hmap :=
  match probe_free (S (length (hm_cells h))) (hm_mask h) (hm_cells h)
                   (start_index (hm_shift h) (hm_mask h) key) with
  | None => None
  | Some idx =>
      match set_nth (hm_cells h) (N.to_nat idx) (mkCell true key v) with
      | None => None
      | Some cs => Some (mkHmap (hm_shift h) (hm_bucket h) (hm_mask h) cs)
      end
  end.

(** The loop of lines 97-100: smallest power of two >= [min], starting at [b].
    [None]: fuel exhausted. *)
Fixpoint grow_bucket (fuel : nat) (b min : N) : option N :=
  match fuel with
  | O => None
  | S f => if b <? min then grow_bucket f (2 * b) min else Some b
  end.

(** The insertion loop of lines 115-117, in the source map's iteration order. *)
Fixpoint insert_all (h : hmap) (m : list (N * Q)) : option hmap :=
  match m with
  | [] => Some h
  | (k, v) :: tl => match hm_insert h k v with Some h' => insert_all h' tl | None => None end
  end.

(** setup (fixed_size_hash_map.h:90-118).  floor(log2(key_size)) is [N.log2];
    key_size is a sizeof, hence positive.  Overflow of size*5 beyond 2^64 is
    not modelled. *)
Definition hm_setup (m : list (N * Q)) (key_size : N) : option hmap :=
  let min := N.of_nat (length m) * 5 in
  match grow_bucket (S (N.to_nat (N.log2_up min))) 1 min with
  | None => None
  | Some b =>
      insert_all (mkHmap (N.log2 key_size) b (b - 1) (repeat empty_cell (N.to_nat b))) m
  end.

(** The loop of at (fixed_size_hash_map.h:130-136): key test first, then the
    occupancy test. *)
Fixpoint at_loop (fuel : nat) (mask : N) (cells : list cell) (idx key : N) : option Q :=
  match fuel with
  | O => None
  | S f =>
      match nth_error cells (N.to_nat idx) with
      | None => None
      | Some c =>
          if N.eqb (c_key c) key then Some (c_val c)
          else if negb (c_occ c) then Some 0%Q
          else at_loop f mask cells (next_index mask idx) key
      end
  end.

(** at (fixed_size_hash_map.h:121-137).  [None]: does not terminate within
    bucket_size+1 probes or reads out of range. *)
Definition hm_at (h : hmap) (key : N) : option Q :=
  let idx := start_index (hm_shift h) (hm_mask h) key in
  match nth_error (hm_cells h) (N.to_nat idx) with
  | None => None
  | Some c =>
      if negb (c_occ c) then Some 0%Q
      else at_loop (S (length (hm_cells h))) (hm_mask h) (hm_cells h) idx key
  end.
