(** C09 and C10: variables and index arithmetic. *)
From Coq Require Import List ZArith Bool Lia.
From Verif Require Import VariableModel VariableSpec VariableProof.
Import ListNotations.
Local Open Scope Z_scope.

(** After any sequence of operations on a fresh variable (a thrown exception
    leaves it unchanged): bounds ordered, margins truthful unless update() of a
    dependent variable was among the operations, and the 0/1 senses reported
    exactly for bounds inside [0,1]. *)
Theorem C09_variable_history : forall os : list v_op,
  let v := v_run v_init os in
  va_lower v <= va_upper v /\
  (Forall (fun o => ~ is_update o) os -> margins_truthful v) /\
  (va_sense v = VBinary \/ va_sense v = VDependentBinary -> zero_one (va_lower v) (va_upper v)) /\
  (va_sense v = VInteger \/ va_sense v = VDependentInteger -> ~ zero_one (va_lower v) (va_upper v)).
Proof. exact variable_history. Qed.
Print Assumptions C09_variable_history.

(** A fixed variable keeps its value under every operation except the forcing
    ones; the only refusals are set_value with another value and crossed bounds. *)
Theorem C09_fixed_value_protected : forall (v : var) (o : v_op),
  va_fixed v = true -> ~ forces o ->
  match v_step v o with
  | Some v' => va_value v' = va_value v
  | None => exists a, o = VSet a /\ a <> va_value v
            \/ exists lo hi, o = VSetBound lo hi /\ hi < lo
  end.
Proof. exact fixed_protected. Qed.
Print Assumptions C09_fixed_value_protected.

Theorem C09_set_value_on_fixed_throws : forall (v : var) (a : Z),
  va_fixed v = true -> a <> va_value v -> v_step v (VSet a) = None.
Proof. exact set_fixed_throws. Qed.
Print Assumptions C09_set_value_on_fixed_throws.

(** set_bound rejects crossed bounds, otherwise sets both and moves the value
    into them (even if the variable is fixed). *)
Theorem C09_set_bound : forall (v : var) (lo hi : Z),
  (hi < lo -> v_step v (VSetBound lo hi) = None) /\
  (lo <= hi -> exists v', v_step v (VSetBound lo hi) = Some v' /\ va_lower v' = lo /\ va_upper v' = hi /\
    lo <= va_value v' <= hi /\ (lo <= va_value v <= hi -> va_value v' = va_value v) /\ va_fixed v' = va_fixed v).
Proof. exact set_bound_effect. Qed.
Print Assumptions C09_set_bound.

(** update() of a dependent variable leaves the margins behind. *)
Theorem C09_update_margin_refuted : exists os, ~ margins_truthful (v_run v_init os).
Proof.
  exists [VSetBound 0 1; VDependent; VUpdate 1]. intros [H _]. cbn in H. destruct H as [_ H].
  specialize (H eq_refl). discriminate.
Qed.
Print Assumptions C09_update_margin_refuted.

Example C09_example :
  let os := [VSetBound 0 1; VSetIfMutable 1; VFix; VSetIfMutable 0; VSet 0; VUnfix; VSetBound 2 5; VSetBound 7 6] in
  Forall (fun o => ~ is_update o) os /\
  v_run v_init os = mkVar 2 2 5 true false VInteger false true /\
  va_fixed (v_run v_init (firstn 3 os)) = true /\ va_value (v_run v_init (firstn 5 os)) = 1.
Proof. cbv zeta. split; [repeat constructor; intros []|]. repeat split; reflexivity. Qed.

(** ** C10 *)

Theorem C10_indices_are_bijective : forall shape : list Z,
  shape <> [] -> Forall (fun n => 0 < n) shape ->
  (forall idx, in_range shape idx -> exists f,
     flat_index shape idx = Some f /\ 0 <= f < number_of_elements shape /\ multi_index shape f = idx) /\
  (forall f, 0 <= f < number_of_elements shape ->
     in_range shape (multi_index shape f) /\ flat_index shape (multi_index shape f) = Some f).
Proof. exact index_bijection. Qed.
Print Assumptions C10_indices_are_bijective.

Theorem C10_distinct_indices_distinct_elements : forall (shape i j : list Z),
  shape <> [] -> Forall (fun n => 0 < n) shape -> in_range shape i -> in_range shape j ->
  flat_index shape i = flat_index shape j -> i = j.
Proof. exact distinct_indices. Qed.
Print Assumptions C10_distinct_indices_distinct_elements.

Example C10_example : in_range [2; 3; 4] [1; 2; 3] /\ flat_index [2; 3; 4] [1; 2; 3] = Some 23 /\
  multi_index [2; 3; 4] 17 = [1; 1; 1] /\ number_of_elements [2; 3; 4] = 24.
Proof. split; [repeat constructor; lia|]. repeat split; reflexivity. Qed.
