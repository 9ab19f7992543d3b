(** What the choice of the number of threads is meant to do, over the history of the
    rounds: the threads each was run with, its moves and its seconds. *)
From Coq Require Import List ZArith QArith Qabs Bool Sorted.
Import ListNotations.
Local Open Scope Q_scope.

(** The candidates: the powers of two below the maximum, and the maximum, in order. *)
Definition candidates (max : Z) (l : list Z) : Prop :=
  StronglySorted Z.lt l /\
  forall p, In p l <-> p = max \/ exists k, (0 <= k)%Z /\ p = (2 ^ k)%Z /\ (p < max)%Z.

(** Moves per second; a time below 1e-10 counts as 1e-10. *)
Definition rate (r : Z * Q) : Q :=
  inject_Z (fst r) / (if Qlt_le_dec (1 # 10000000000) (snd r) then snd r else 1 # 10000000000).

(** The rates of the rounds run with [p] threads, oldest first. *)
Definition rates (p : Z) (used : list Z) (rounds : list (Z * Q)) : list Q :=
  map (fun ur => rate (snd ur)) (filter (fun ur => Z.eqb (fst ur) p) (combine used rounds)).

(** Lowest, mean and highest rate, in which the past fades by the factor [d]. *)
Definition fade (d : Q) (t : Q * Q * Q) (s : Q) : Q * Q * Q :=
  let '(lo, mean, hi) := t in
  let lo' := (lo - mean) * d + mean in
  let hi' := (hi - mean) * d + mean in
  ((if Qlt_le_dec s lo' then s else lo'), d * mean + (1 - d) * s, (if Qlt_le_dec hi' s then s else hi')).
Definition digest (d : Q) (l : list Q) : Q * Q * Q :=
  match l with [] => (0, 0, 0) | s :: tl => fold_left (fade d) tl (s, s, s) end.
Definition mean_of (d : Q) (l : list Q) : Q := snd (fst (digest d l)).
Definition spread_of (d : Q) (l : list Q) : Q :=
  match l with [s] => Qabs s | _ => snd (digest d l) - fst (fst (digest d l)) end.

(** The optimistic estimate after [i] rounds: the mean plus a multiple of the spread. *)
Definition estimate (width : nat -> nat -> Q) (d : Q) (i : nat) (l : list Q) : Q :=
  mean_of d l + spread_of d l * width i (length l).

Definition sum_Z (l : list Z) : Z := fold_right Z.add 0%Z l.
