(** C82: the correction of the initial values keeps or sets the variable that does the least harm. *)
From Coq Require Import List ZArith QArith Bool Permutation Lia.
From Verif Require Import ExprModel ConstraintModel ConstraintSpec VariableModel EvalModel PresolveModel DuplicateModel SelectionModel SelectionSpec CorrectSpec.
From Verif Require EvalProof CorrectProof3 CorrectProof4.
Import ListNotations.
Local Open Scope nat_scope.

(** C82: in a selection that is corrected and has no variable fixed at 1, the variable that ends at 1 is one of the free
    variables that were at 1 - or, if there was none, any of the free ones - and of these it is the one with the least
    violation of the constraints it occurs in, counting the choices in the earlier selections and taking everything else
    as 0; of equals it is the first.  Selections with just one free variable at 1 do not count.  [sens]: the
    constraints of each variable with the coefficients, in any order. *)
Theorem C82_least_harm (n : nat) (cs : list constr) (sens : nat -> list (nat * Q)) (vs : vars) (sels : list sel) (vs' : vars) (sels' : list sel)
  (pre : list sel) (s : sel) (post : list sel) (v : nat) :
  selections_ready vs sels -> (forall c, In c cs -> NoDup (map fst (ex_sens (ct_expr c))) /\ integer_data c) ->
  (forall v, Permutation (sens v) (constraint_sensitivities cs v)) ->
  verify true n cs sens vs sels = Some (vs', sels') -> sels = pre ++ s :: post ->
  (forall u, In u (sl_vars s) -> va_fixed (vs u) = true -> va_value (vs u) <> 1%Z) -> ~ kept vs s ->
  chosen vs' (sl_vars s) v -> candidate vs s v /\
    let counted t := In t pre /\ ~ kept vs t in
    forall w y z h k, candidate vs s w -> judged counted vs' v y -> harm cs v y h -> judged counted vs' w z -> harm cs w z k ->
    (h <= k)%Q /\ (before (sl_vars s) w v -> (h < k)%Q).
Proof. exact (CorrectProof3.least_harm_chosen n cs sens vs sels vs' sels' pre s post v). Qed.
Print Assumptions C82_least_harm.

(** The sensitivities list just the coefficients of the variable. *)
Theorem C82_sensitivities (cs : list constr) (v i : nat) (a : Q) :
  In (i, a) (constraint_sensitivities cs v) <-> exists c, nth_error cs i = Some c /\ In (v, a) (ex_sens (ct_expr c)).
Proof. exact (EvalProof.sens_entry0 cs v i a). Qed.
Print Assumptions C82_sensitivities.

(** C82: a selection that needs no correction is not counted, so a later choice may violate a constraint together with
    it although another candidate would violate none. *)
Theorem C82_kept_refuted : exists n cs vs sels vs' sels' pre s post v w y z h k,
  selections_ready vs sels /\ (forall c, In c cs -> NoDup (map fst (ex_sens (ct_expr c))) /\ integer_data c) /\
  verify true n cs (constraint_sensitivities cs) vs sels = Some (vs', sels') /\ sels = pre ++ s :: post /\
  (forall u, va_fixed (vs u) = false) /\ ~ kept vs s /\ chosen vs' (sl_vars s) v /\ candidate vs s w /\
  judged (fun t => In t pre) vs' v y /\ harm cs v y h /\ judged (fun t => In t pre) vs' w z /\ harm cs w z k /\ (k < h)%Q.
Proof.
  destruct CorrectProof4.kept_ignored as (vs' & sels' & H & C & D & (y & J1 & H1) & (z & J2 & H2)).
  exists 4, CorrectProof4.k_rows, (CorrectProof4.c_vars [0]), CorrectProof4.k_sels, vs', sels', [CorrectProof4.c_sel [0; 1]], (CorrectProof4.c_sel [2; 3]), [], 2, 3, y, z, 1%Q, 0%Q.
  split; [apply CorrectProof4.c_ready; repeat constructor; cbn; lia|].
  split.
  { intros c [<-|[]]. split; [repeat constructor; cbn; lia|]. split; [|exists (-1)%Z; reflexivity]. intros p [<-|[<-|[]]]; exists 1%Z; reflexivity. }
  split; [exact H|]. split; [reflexivity|]. split; [reflexivity|].
  split; [apply CorrectProof4.c_not_kept; right; intros u [<-|[<-|[]]]; reflexivity|].
  split; [exact C|]. split; [exact D|]. split; [exact J1|]. split; [exact H1|]. split; [exact J2|]. split; [exact H2|]. reflexivity.
Qed.
Print Assumptions C82_kept_refuted.

(** C82: with fractions it may choose a variable that violates constraints although another violates none. *)
Theorem C82_fraction_refuted : exists n cs vs sels vs' sels' s post v w y z h k,
  selections_ready vs sels /\ (forall c, In c cs -> NoDup (map fst (ex_sens (ct_expr c)))) /\
  verify true n cs (constraint_sensitivities cs) vs sels = Some (vs', sels') /\ sels = s :: post /\
  (forall u, va_fixed (vs u) = false) /\ ~ kept vs s /\ chosen vs' (sl_vars s) v /\ candidate vs s w /\
  judged (fun _ => False) vs' v y /\ harm cs v y h /\ judged (fun _ => False) vs' w z /\ harm cs w z k /\ (k < h)%Q.
Proof.
  destruct CorrectProof4.fractions_ignored as (vs' & sels' & H & C & D & (y & J1 & H1) & (z & J2 & H2)).
  exists 4, CorrectProof4.f_rows, (CorrectProof4.c_vars []), [CorrectProof4.c_sel [0; 1]; CorrectProof4.c_sel [2; 3]], vs', sels', (CorrectProof4.c_sel [0; 1]), [CorrectProof4.c_sel [2; 3]], 0, 1, y, z, 1%Q, 0%Q.
  split; [apply CorrectProof4.c_ready; repeat constructor; cbn; lia|].
  split; [intros c [<-|[<-|[]]]; repeat constructor; cbn; lia|].
  split; [exact H|]. split; [reflexivity|]. split; [reflexivity|].
  split; [apply CorrectProof4.c_not_kept; right; intros u [<-|[<-|[]]]; reflexivity|].
  split; [exact C|]. split; [exact D|]. split; [exact J1|]. split; [exact H1|]. split; [exact J2|]. split; [exact H2|]. reflexivity.
Qed.
Print Assumptions C82_fraction_refuted.

(** The hypotheses of C82_least_harm are met: {0,1} both at 1 and {2,3,4} all at 0, with x1 + x3 <= 1, 3 x0 + x2 <= 2,
    x0 + x1 + x2 + x4 = 1 and 2 x0 >= x2.  Of x0 (violation 1) and x1 (0) the second stays; then x2 would violate by 2,
    x3 and x4 by 1 each, and x3 is set. *)
Example C82_hypotheses : selections_ready (CorrectProof4.c_vars [0; 1]) CorrectProof4.c_sels /\
  (forall c, In c CorrectProof4.c_rows -> NoDup (map fst (ex_sens (ct_expr c))) /\ integer_data c) /\
  (forall s, In s CorrectProof4.c_sels -> ~ kept (CorrectProof4.c_vars [0; 1]) s) /\
  exists vs' sels', verify true 5 CorrectProof4.c_rows (constraint_sensitivities CorrectProof4.c_rows) (CorrectProof4.c_vars [0; 1]) CorrectProof4.c_sels = Some (vs', sels') /\
    map (fun v => va_value (vs' v)) [0; 1; 2; 3; 4] = [0; 1; 0; 1; 0]%Z.
Proof.
  split; [apply CorrectProof4.c_ready; repeat constructor; cbn; lia|]. split.
  { intros c [<-|[<-|[<-|[<-|[]]]]]; (split; [repeat constructor; cbn; lia|]);
      (split; [intros p P; cbn [In ct_expr CorrectProof4.c_row c_setup ex_sens] in P; repeat (destruct P as [<-|P]; [eexists (Qnum _); reflexivity|]); destruct P|eexists (Qnum _); reflexivity]). }
  split; [|exact CorrectProof4.c_shown].
  intros s [<-|[<-|[]]]; apply CorrectProof4.c_not_kept; [left|right].
  - intros v [<-|[<-|[]]]; [exists 1|exists 0]; repeat split; try (intros X; discriminate X); cbn; auto.
  - intros v [<-|[<-|[<-|[]]]]; reflexivity.
Qed.
