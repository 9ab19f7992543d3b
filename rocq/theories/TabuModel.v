(** Search memory, tabu test, tabu tenure and choice of the move
    (solver/memory.h, solver/tabu_search/core/). *)
From Coq Require Import List ZArith QArith Bool.
From Verif Require Import ExprModel ConstraintModel EvalModel SolutionModel.
Import ListNotations.
Local Open Scope Z_scope.

(** ** memory.h *)

(** Memory and the counters of the variables (variable.h:70-72) and constraints
    (constraint.h:49) it maintains.  int and long do not overflow; the two
    numerators are sums of integers and are kept in Z. *)
Record memory := mkMem {
  mm_local : nat -> Z; mm_global : nat -> Z; mm_count : nat -> Z; mm_total : Z; mm_recip : Q; mm_num : Z; mm_primal : Q;
  mm_vcount : nat -> Z; mm_vtotal : Z; mm_vnum : Z; mm_dual : Q }.
Definition upd (f : nat -> Z) (v : nat) (z : Z) : nat -> Z := fun w => if Nat.eqb w v then z else f w.

(** variable.h:30. *)
Definition INITIAL_LAST : Z := -1000.

(** setup (memory.h:64-80). *)
Definition mem_setup : memory :=
  mkMem (fun _ => INITIAL_LAST) (fun _ => 0) (fun _ => 0) 0 0 0 0 (fun _ => 0) 0 0 0.

(** One alteration (memory.h:107-125).  [d]: the draw of the random generator, a
    non-negative number. *)
Definition randomness (width d : Z) : Z := if 0 <? width then d mod (2 * width) - width else 0.
Definition mem_alter (iteration width : Z) (m : memory) (vd : nat * Z) : memory :=
  let v := fst vd in
  mkMem (upd (mm_local m) v (iteration + randomness width (snd vd))) (upd (mm_global m) v (mm_total m))
        (upd (mm_count m) v (mm_count m v + 1)) (mm_total m + 1) (mm_recip m) (mm_num m + (2 * mm_count m v + 1)) (mm_primal m)
        (mm_vcount m) (mm_vtotal m) (mm_vnum m) (mm_dual m).
(** One violated constraint (memory.h:127-133). *)
Definition mem_violate (m : memory) (i : nat) : memory :=
  mkMem (mm_local m) (mm_global m) (mm_count m) (mm_total m) (mm_recip m) (mm_num m) (mm_primal m)
        (upd (mm_vcount m) i (mm_vcount m i + 1)) (mm_vtotal m + 1) (mm_vnum m + (2 * mm_vcount m i + 1)) (mm_dual m).
(** The rest of update (memory.h:135-150). *)
Definition mem_close (m : memory) : memory :=
  let r := (1 / inject_Z (Z.max 1 (mm_total m)))%Q in
  let rv := (1 / inject_Z (Z.max 1 (mm_vtotal m)))%Q in
  mkMem (mm_local m) (mm_global m) (mm_count m) (mm_total m) r (mm_num m) (inject_Z (mm_num m) * (r * r))%Q
        (mm_vcount m) (mm_vtotal m) (mm_vnum m) (inject_Z (mm_vnum m) * (rv * rv))%Q.
(** update (memory.h:101-151): the altered variables, each with its draw, and the
    constraints violated at present. *)
Definition mem_update (iteration width : Z) (altered : list (nat * Z)) (violated : list nat) (m : memory) : memory :=
  mem_close (fold_left mem_violate violated (fold_left (mem_alter iteration width) altered m)).
(** reset_local_last_update_iterations (memory.h:154-159). *)
Definition mem_reset (m : memory) : memory :=
  mkMem (fun _ => INITIAL_LAST) (mm_global m) (mm_count m) (mm_total m) (mm_recip m) (mm_num m) (mm_primal m)
        (mm_vcount m) (mm_vtotal m) (mm_vnum m) (mm_dual m).
Inductive mem_event := MUpdate (iteration width : Z) (altered : list (nat * Z)) (violated : list nat) | MReset.
Definition mem_step (m : memory) (e : mem_event) : memory :=
  match e with MUpdate it w vs cs => mem_update it w vs cs m | MReset => mem_reset m end.
Definition mem_run (es : list mem_event) : memory := fold_left mem_step es mem_setup.

(** ** tabu_search_core_move_evaluator.h *)

(** compute_permissibility (51-84); [all]: tabu_mode::All and the move is not a
    selection move.  The code passes iteration - tabu_tenure as duration. *)
Definition permissible (all : bool) (m : memory) (duration : Z) (mv : alterations) : bool :=
  if all then existsb (fun a => mm_local m (fst a) <=? duration) mv
  else forallb (fun a => negb (duration <? mm_local m (fst a))) mv.

(** compute_frequency_penalty (112-128). *)
Definition frequency_penalty (coefficient : Q) (m : memory) (iteration : Z) (mv : alterations) : Q :=
  if iteration =? 0 then 0%Q
  else (inject_Z (fold_left (fun (n : Z) a => (n + mm_count m (fst a))%Z) mv 0%Z) * mm_recip m * coefficient)%Q.

(** compute_lagrangian_penalty (131-141). *)
Definition lagrangian_penalty (coefficient : Q) (lagrangian : nat -> Q) (mv : alterations) : Q :=
  (fold_left (fun q a => q + lagrangian (fst a) * inject_Z (snd a)) mv 0 * coefficient)%Q.

(** ** update_tabu_tenure (tabu_search_core_state_manager.h:393-463) *)
Record tenure := mkTen { tn_tenure : Z; tn_original : Z; tn_last : Z; tn_inc : Z; tn_dec : Z; tn_current : Q }.

(** setup (tabu_search_core_state_manager.h:98-116). *)
Definition tenure_setup (initial number_of_mutables : Z) (intensity : Q) : tenure :=
  let o := Z.min initial number_of_mutables in mkTen o o 0 0 0 intensity.
(** [None]: remainder by zero.  [global]: the global incumbent was updated. *)
Definition tenure_update (inc_threshold dec_threshold nmut : Z) (global : bool) (iteration : Z) (intensity : Q) (t : tenure) : option tenure :=
  if global && (tn_original t <? tn_tenure t)
  then Some (mkTen (tn_original t) (tn_original t) iteration 0 0 (tn_current t))
  else if tn_tenure t + 1 =? 0 then None
  else if Z.rem (iteration - tn_last t) (tn_tenure t + 1) =? 0
  then Some (
    if Qlt_le_dec (tn_current t) intensity
    then let n := tn_inc t + 1 in
         if inc_threshold <? n
         then mkTen (Z.min (tn_tenure t + 1) nmut) (tn_original t) iteration 0 0 intensity
         else mkTen (tn_tenure t) (tn_original t) (tn_last t) n 0 intensity
    else let n := tn_dec t + 1 in
         if dec_threshold <? n
         then mkTen (Z.max (tn_tenure t - 1) (Z.max 1 (Z.quot (tn_original t) 2))) (tn_original t) iteration 0 0 intensity
         else mkTen (tn_tenure t) (tn_original t) (tn_last t) 0 n intensity)
  else Some t.
Fixpoint tenure_run (inc_threshold dec_threshold nmut : Z) (es : list (bool * Z * Q)) (t : tenure) : option tenure :=
  match es with
  | [] => Some t
  | (g, it, q) :: tl => match tenure_update inc_threshold dec_threshold nmut g it q t with
                        | Some t' => tenure_run inc_threshold dec_threshold nmut tl t'
                        | None => None
                        end
  end.

(** ** Choice of the move (tabu_search_core.h:961-995, 483-516) *)

(** constant.h:14-15. *)
Definition LARGE_50 : Q := inject_Z (10 ^ 50).
Definition LARGE_100 : Q := inject_Z (10 ^ 100).
(** A trial move: its scores, permissibility, and whether it is a special
    neighborhood move. *)
Record trial := mkTrial { tr_score : score; tr_frequency : Q; tr_lagrangian : Q; tr_permissible : bool; tr_special : bool }.
Definition total_score (t : trial) : Q :=
  (sc_local_aug (tr_score t) + tr_frequency t + tr_lagrangian t
   + (if tr_permissible t then 0 else LARGE_50)
   + (if tr_special t && negb (sc_obj_improvable (tr_score t) || sc_feas_improvable (tr_score t)) then LARGE_100 else 0))%Q.
(** select_move; [incumbent]: the global augmented incumbent objective (None:
    infinite); [None]: no trial move. *)
Definition select_move (ignore_tabu : bool) (incumbent : option Q) (ts : list trial) : option (nat * bool) :=
  match argmin_index total_score ts with
  | None => None
  | Some i =>
      if negb ignore_tabu then Some (i, false)
      else match argmin_index (fun t => sc_global_aug (tr_score t)) ts with
           | None => None
           | Some j =>
               match nth_error ts j with
               | None => None
               | Some t => if improves (sc_global_aug (tr_score t)) incumbent
                           then Some (j, negb (tr_permissible t)) else Some (i, false)
               end
           end
  end.
