(** Specification for C42, C43 and C51. *)
From Coq Require Import List ZArith QArith Qabs Bool.
From Verif Require Import ExprModel EvalModel ConstraintModel SolutionModel TabuModel.
Import ListNotations.
Local Open Scope Z_scope.

(** All alterations (violations) of a history, in order. *)
Definition altered (es : list mem_event) : list nat :=
  flat_map (fun e => match e with MUpdate _ _ vs _ => map fst vs | MReset => [] end) es.
Definition violations (es : list mem_event) : list nat :=
  flat_map (fun e => match e with MUpdate _ _ _ cs => cs | MReset => [] end) es.
Definition times (l : list nat) (v : nat) : Z := Z.of_nat (count_occ Nat.eq_dec l v).
(** Sum over [vs] of the squared numbers of occurrences in [l]. *)
Definition squares (l vs : list nat) : Z := fold_right (fun v n => times l v * times l v + n) 0 vs.

(** No event of the history writes the stamp of v. *)
Definition untouched (v : nat) (es : list mem_event) : Prop :=
  Forall (fun e => match e with MUpdate _ _ vs _ => ~ In v (map fst vs) | MReset => False end) es.
(** A draw d shifts the stamp by an amount from -w to w-1, uniformly in d; a width of
    0 gives no shift. *)
Definition shifted (w d r : Z) : Prop := (0 < w /\ -w <= r < w /\ exists c, d = r + w + c * (2 * w)) \/ (w <= 0 /\ r = 0).
(** Since the last reset v was altered for the last time with stamp k (iteration
    plus randomness) / not at all. *)
Definition stamped (es : list mem_event) (v : nat) (k : Z) : Prop :=
  exists es1 it w a d b cs es2, es = es1 ++ MUpdate it w (a ++ (v, d) :: b) cs :: es2 /\
  ~ In v (map fst b) /\ untouched v es2 /\ exists r, shifted w d r /\ k = it + r.
Definition unstamped (es : list mem_event) (v : nat) : Prop :=
  untouched v es \/ exists es1 es2, es = es1 ++ MReset :: es2 /\ untouched v es2.
(** The tabu of v is over at this iteration. *)
Definition released (es : list mem_event) (tenure iteration : Z) (v : nat) : Prop :=
  (forall k, stamped es v k -> k + tenure <= iteration) /\ (unstamped es v -> tenure <= iteration + 1000).

(** A special neighborhood move that improves nothing is useless. *)
Definition useless (t : trial) : bool :=
  tr_special t && negb (sc_obj_improvable (tr_score t)) && negb (sc_feas_improvable (tr_score t)).
(** 0: free; 1: tabu; 2: useless; 3: both. *)
Definition class (t : trial) : Z := (if tr_permissible t then 0 else 1) + (if useless t then 2 else 0).
(** What the search minimizes within a class. *)
Definition raw (t : trial) : Q := (sc_local_aug (tr_score t) + tr_frequency t + tr_lagrangian t)%Q.
(** The past alterations of the variables of a move. *)
Definition hits (l : list nat) (mv : alterations) : list nat := filter (fun w => existsb (fun a : nat * Z => Nat.eqb (fst a) w) mv) l.
(** Scores far below the 10^50 added to a tabu move. *)
Definition small (t : trial) : Prop := (Qabs (raw t) < inject_Z (10 ^ 49))%Q.
(** The trial solution improves the global augmented incumbent by more than 1e-5. *)
Definition beats (inc : option Q) (t : trial) : Prop :=
  match inc with None => True | Some q => (sc_global_aug (tr_score t) + EPS < q)%Q end.
