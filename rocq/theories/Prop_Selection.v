(** C32, C33, C36: extraction of selections, verification of the start, selection moves. *)
From Coq Require Import List ZArith QArith Bool Permutation Lia.
From Verif Require Import ExprModel ExprSpec ConstraintModel ConstraintSpec VariableModel TypeModel TypeSpec EvalModel PresolveModel PresolveSpec
  DuplicateModel DuplicateSpec SelectionModel SelectionSpec.
From Verif Require DuplicateProof2 SelectionProof SelectionProof2 SelectionProof3.
Import ListNotations.
Local Open Scope nat_scope.

(** C32: in every mode, the selections share no variable; each stands for an enabled set partitioning constraint over
    binary variables (flagged by the user in the user-defined mode) and has just the variables of that constraint. *)
Theorem C32_selections_disjoint (vname cname : nat -> nat) (mode : selection_mode) (user : nat -> bool) (x : tctx) (vs : vars) (cs : list constr) :
  let '(_, _, sels) := extract_selections vname cname mode user vs cs (type_refs x cs SetPartitioning) in
  disjoint_selections sels /\
  forall s, In s sels -> exists c, eligible x vs cs (sl_con s) c /\ Permutation (sl_vars s) (variables c) /\
    sl_selected s = None /\ (mode = UserDefined -> user (sl_con s) = true).
Proof.
  exact (conj (SelectionProof2.extracted_disjoint vname cname mode user x vs cs) (SelectionProof2.extracted_origin vname cname mode user x vs cs)).
Qed.
Print Assumptions C32_selections_disjoint.

(** C32: exactly the constraints of the selections are switched off, exactly their variables become selection
    variables, and nothing else changes. *)
Theorem C32_extraction_effect (vname cname : nat -> nat) (mode : selection_mode) (user : nat -> bool) (x : tctx) (vs : vars) (cs : list constr) :
  let '(vs', cs', sels) := extract_selections vname cname mode user vs cs (type_refs x cs SetPartitioning) in
  only_disables cs cs' /\
  (forall i c c', nth_error cs i = Some c -> nth_error cs' i = Some c' ->
      ((exists s, In s sels /\ sl_con s = i) -> ct_enabled c' = false) /\ (~ (exists s, In s sels /\ sl_con s = i) -> c' = c)) /\
  forall v, ((exists s, In s sels /\ In v (sl_vars s)) -> vs' v = v_with_sense (vs v) VSelection) /\
            (~ (exists s, In s sels /\ In v (sl_vars s)) -> vs' v = vs v).
Proof.
  destruct (SelectionProof2.extracted_constraints vname cname mode user x vs cs) as [A B].
  exact (conj A (conj B (SelectionProof2.extracted_senses vname cname mode user x vs cs))).
Qed.
Print Assumptions C32_extraction_effect.

(** C32: the constraints recorded with a selection are, each once, the others that contain one of its variables.
    The last part is the condition under which C13 evaluates selection moves. *)
Theorem C32_related_constraints (vname cname : nat -> nat) (mode : selection_mode) (user : nat -> bool) (x : tctx) (vs : vars) (cs : list constr) :
  let '(_, _, sels) := extract_selections vname cname mode user vs cs (type_refs x cs SetPartitioning) in
  forall s, In s sels -> NoDup (sl_related s) /\
    (forall i, In i (sl_related s) <-> i <> sl_con s /\ exists v c, In v (sl_vars s) /\ nth_error cs i = Some c /\ In v (variables c)) /\
    Permutation (sl_related s) (selection_related cs (sl_con s) (sl_vars s)).
Proof.
  intros s I. destruct (SelectionProof2.extracted_related vname cname mode user x vs cs s I) as [A B].
  exact (conj A (conj B (SelectionProof2.extracted_related_score vname cname mode user x vs cs s I))).
Qed.
Print Assumptions C32_related_constraints.

(** C32: the greedy modes are maximal: a constraint passed over shares a variable with a selection that had
    precedence, by order of definition or by size. *)
Theorem C32_greedy_maximal (vname cname : nat -> nat) (mode : selection_mode) (user : nat -> bool) (x : tctx) (vs : vars) (cs : list constr) :
  let '(_, _, sels) := extract_selections vname cname mode user vs cs (type_refs x cs SetPartitioning) in
  forall i c, eligible x vs cs i c -> mode <> Off -> mode <> Independent -> (mode = UserDefined -> user i = true) ->
  (exists s, In s sels /\ sl_con s = i) \/
  exists s, In s sels /\ touches s c /\
    match mode with Smaller => length (sl_vars s) <= length (variables c) | Larger => length (variables c) <= length (sl_vars s) | _ => sl_con s < i end.
Proof. exact (SelectionProof2.extracted_maximal vname cname mode user x vs cs). Qed.
Print Assumptions C32_greedy_maximal.

(** C32: the independent mode takes precisely the constraints that share no variable with another eligible one. *)
Theorem C32_independent_exact (vname cname : nat -> nat) (user : nat -> bool) (x : tctx) (vs : vars) (cs : list constr) :
  let '(_, _, sels) := extract_selections vname cname Independent user vs cs (type_refs x cs SetPartitioning) in
  forall i c, eligible x vs cs i c ->
  ((exists s, In s sels /\ sl_con s = i) <-> forall j d v, j <> i -> eligible x vs cs j d -> In v (variables c) -> ~ In v (variables d)).
Proof. intros i c. exact (SelectionProof2.extracted_independent vname cname Independent user x vs cs i c eq_refl). Qed.
Print Assumptions C32_independent_exact.

(** C32: no solution is gained or lost: the constraints switched off say the same as "exactly one" of each selection. *)
Theorem C32_solutions_kept (vname cname : nat -> nat) (mode : selection_mode) (user : nat -> bool) (name : nat -> nat) (vs : vars) (cs : list constr) :
  proper_senses (vctx name vs) -> (forall c, In c cs -> truthful_flags (vctx name vs) c /\ NoDup (variables c)) ->
  let '(_, cs', sels) := extract_selections vname cname mode user vs cs (type_refs (vctx name vs) cs SetPartitioning) in
  forall y, legal vs y -> (satisfies_all cs y <-> satisfies_all cs' y /\ forall s, In s sels -> total (sl_vars s) y = 1%Z).
Proof. exact (SelectionProof2.extracted_meaning vname cname mode user name vs cs). Qed.
Print Assumptions C32_solutions_kept.

(** C33: if verification does not throw, every selection has one variable at 1 and the others at 0, binary variables
    are 0 or 1, integer ones within bounds, and nothing but values of free variables has changed - without
    correction not even those. *)
Theorem C33_verified_start (correct : bool) (n : nat) (cs : list constr) (sens : nat -> list (nat * Q)) (vs : vars) (sels : list sel) (vs' : vars) (sels' : list sel) :
  selections_ready vs sels -> sane_bounds n vs -> verify correct n cs sens vs sels = Some (vs', sels') ->
  same_but_value vs vs' /\ valid_start n vs' sels /\ Forall2 (carried correct vs') sels sels' /\
  (correct = false -> forall v, va_value (vs' v) = va_value (vs v)).
Proof. exact (SelectionProof3.verify_spec correct n cs sens vs sels vs' sels'). Qed.
Print Assumptions C33_verified_start.

(** C33: a valid start is accepted unchanged, with or without correction. *)
Theorem C33_valid_start_accepted (correct : bool) (n : nat) (cs : list constr) (sens : nat -> list (nat * Q)) (vs : vars) (sels : list sel) :
  selections_ready vs sels -> valid_start n vs sels ->
  exists vs' sels', verify correct n cs sens vs sels = Some (vs', sels') /\ forall v, va_value (vs' v) = va_value (vs v).
Proof. exact (SelectionProof3.verify_valid correct n cs sens vs sels). Qed.
Print Assumptions C33_valid_start_accepted.

(** C33: with correction it throws if the fixed variables admit no valid start, and only then - as long as the
    violations it compares fit an int. *)
Theorem C33_throws_when_hopeless (correct : bool) (n : nat) (cs : list constr) (sens : nat -> list (nat * Q)) (vs : vars) (sels : list sel) :
  selections_ready vs sels -> sane_bounds n vs -> hopeless n vs sels -> verify correct n cs sens vs sels = None.
Proof. exact (SelectionProof3.hopeless_none correct n cs sens vs sels). Qed.
Print Assumptions C33_throws_when_hopeless.
Theorem C33_throws_only_when_hopeless (n : nat) (cs : list constr) (sens : nat -> list (nat * Q)) (vs : vars) (sels : list sel) :
  selections_ready vs sels -> verify true n cs sens vs sels = None -> hopeless n vs sels \/ overflowing cs sens sels.
Proof. exact (SelectionProof3.verify_none n cs sens vs sels). Qed.
Print Assumptions C33_throws_only_when_hopeless.

(** C33: a solution imported without exception is in place, and valid. *)
Theorem C33_imported_solution (n : nat) (cs : list constr) (sens : nat -> list (nat * Q)) (x : nat -> Z) (vs : vars) (sels : list sel) (vs' : vars) (sels' : list sel) :
  selections_ready vs sels -> sane_bounds n vs -> import_dense n cs sens x vs sels = Some (vs', sels') ->
  same_but_value vs vs' /\ valid_start n vs' sels /\ Forall2 (carried false vs') sels sels' /\
  forall v, v < n -> va_fixed (vs v) = false -> va_value (vs' v) = x v.
Proof. exact (SelectionProof3.import_spec n cs sens x vs sels vs' sels'). Qed.
Print Assumptions C33_imported_solution.

(** C33: verification at set-up followed by the import every search begins with: each selection without a variable
    fixed at 1 knows its selected variable. *)
Theorem C33_selected_known_before_search (correct : bool) (n : nat) (cs : list constr) (sens : nat -> list (nat * Q)) (vs : vars) (sels : list sel) (vs1 : vars) (sels1 : list sel) :
  selections_ready vs sels -> sane_bounds n vs -> verify correct n cs sens vs sels = Some (vs1, sels1) ->
  exists vs2 sels2, import_dense n cs sens (fun v => va_value (vs1 v)) vs1 sels1 = Some (vs2, sels2) /\
    (forall v, va_value (vs2 v) = va_value (vs1 v)) /\ map sl_vars sels2 = map sl_vars sels /\
    forall s, In s sels2 -> (forall v, In v (sl_vars s) -> va_fixed (vs v) = true -> va_value (vs v) <> 1%Z) -> tracked vs2 s.
Proof. exact (SelectionProof3.twice_tracked correct n cs sens vs sels vs1 sels1). Qed.
Print Assumptions C33_selected_known_before_search.

(** C36: any history of selection moves towards free variables, from a state in which the selections know their
    selected free variable: it is executable, each selection again has exactly one variable at 1, the target of
    the last move on it; variables outside the selections are untouched. *)
Theorem C36_moves_keep_exactly_one (ms : list (nat * nat)) (vs : vars) (sels : list sel) :
  disjoint_selections sels -> (forall s, In s sels -> tracked vs s) ->
  (forall k v, In (k, v) ms -> (exists s, nth_error sels k = Some s /\ In v (sl_vars s)) /\ va_fixed (vs v) = false) ->
  exists vs' sels', run_moves vs sels ms = Some (vs', sels') /\ map sl_vars sels' = map sl_vars sels /\ same_but_value vs vs' /\
    (forall s, In s sels' -> tracked vs' s) /\
    (forall w, (forall s, In s sels -> ~ In w (sl_vars s)) -> vs' w = vs w) /\
    (forall pre k v post, ms = pre ++ (k, v) :: post -> (forall w, ~ In (k, w) post) ->
       exists s', nth_error sels' k = Some s' /\ sl_selected s' = Some v /\ chosen vs' (sl_vars s') v) /\
    (forall k, (forall w, ~ In (k, w) ms) -> nth_error sels' k = nth_error sels k).
Proof. exact (SelectionProof3.moves_history ms vs sels). Qed.
Print Assumptions C36_moves_keep_exactly_one.

(** C36: of a selection that knows its selected variable, exactly the moves to another
    variable are offered, and such a move writes 0 to the one and 1 to the other. *)
Theorem C36_offered_moves (vs : vars) (s : sel) (v : nat) : tracked vs s -> In v (sl_vars s) ->
  exists u, chosen vs (sl_vars s) u /\ (selection_flag s v = true <-> v <> u) /\ selection_alterations s v = Some [(u, 0%Z); (v, 1%Z)].
Proof. exact (SelectionProof3.flag_tracked vs s v). Qed.
Print Assumptions C36_offered_moves.

(** * Examples and refutations *)
Definition sv (s : vsense) (f : bool) (z : Z) : var := mkVar z 0 1 true f s (0 <? z)%Z (z <? 1)%Z.
Definition sum_one (l : list nat) : constr := c_setup (mkExpr (map (fun v => (v, 1%Q)) l) (-(1))) Equal (fun _ => true).
Definition at_most (l : list nat) : constr := c_setup (mkExpr (map (fun v => (v, 1%Q)) l) (-(1))) Less (fun _ => true).
Definition ex_vs : vars := fun _ => sv VBinary false 0.
(** {0,1,2,3}, {3,4,5}, {6,7,8}, {4,5,9} and a packing constraint. *)
Definition ex_cs : list constr := [sum_one [0; 1; 2; 3]; sum_one [3; 4; 5]; sum_one [6; 7; 8]; sum_one [4; 5; 9]; at_most [0; 6; 9]].
Definition ex_extract (m : selection_mode) := extract_selections (fun v => v) (fun i => i) m (fun i => 1 <=? i) ex_vs ex_cs
  (type_refs (vctx (fun v => v) ex_vs) ex_cs SetPartitioning).
Example ex_modes : map (fun m => map sl_con (snd (ex_extract m))) [Off; Defined; Smaller; Larger; Independent; UserDefined]
  = [[]; [0; 2; 3]; [1; 2]; [0; 2; 3]; [2]; [1; 2]].
Proof. vm_compute. reflexivity. Qed.
Example ex_off : map ct_enabled (snd (fst (ex_extract Smaller))) = [true; false; false; true; true].
Proof. vm_compute. reflexivity. Qed.
Example ex_ready_for_meaning : proper_senses (vctx (fun v => v) ex_vs) /\
  (forall c, In c ex_cs -> truthful_flags (vctx (fun v => v) ex_vs) c /\ NoDup (variables c)) /\
  exists y, legal ex_vs y /\ satisfies_all ex_cs y.
Proof.
  split; [intros v _; cbn; lia|]. split.
  - intros c H. repeat (destruct H as [<-|H]; [split; [split; [intros _ v a I; cbn in I; repeat (destruct I as [I|I]; [injection I as <- <-; reflexivity|]); destruct I|intros _ v _; now left]|repeat constructor; cbn; intuition discriminate]|]). destruct H.
  - exists (fun v => if (v =? 0) || (v =? 5) || (v =? 7) then 1%Z else 0%Z). split.
    + intros v. split; [discriminate|]. intros _. cbn [ex_vs sv va_lower va_upper]. destruct (_ || _); lia.
    + intros c H _. repeat (destruct H as [<-|H]; [cbv; (reflexivity || discriminate)|]). destruct H.
Qed.

(** Two selections {0,1,2} and {3,4,5}, of which 4 is fixed at 0; variable 6 is binary and 7 an integer in 0..1. *)
Definition ex_start : vars := fun v =>
  match v with
  | 0 | 1 | 5 => sv VSelection false 1 | 2 | 3 => sv VSelection false 0 | 4 => sv VSelection true 0
  | 6 => sv VBinary false 5 | _ => sv VInteger false (-(3)) end.
Definition ex_sels : list sel := [mkSel [0; 1; 2] 0 [2] None; mkSel [3; 4; 5] 1 [] None].
Example ex_start_ready : selections_ready ex_start ex_sels /\ sane_bounds 8 ex_start.
Proof.
  split; [split|].
  - intros i j s t D E1 E2 v A B. destruct i as [|[|i]]; [| |destruct i; discriminate]; (destruct j as [|[|j]]; [| |destruct j; discriminate]); try (now apply D);
      injection E1 as <-; injection E2 as <-; cbn in A, B; intuition (subst; discriminate).
  - intros s [<-|[<-|[]]]; (split; [repeat constructor; cbn; intuition discriminate|]); intros v V; cbn in V; intuition (subst; reflexivity).
  - intros v L. do 8 (destruct v as [|v]; [cbn; split; [lia|intros; try discriminate; lia]|]). lia.
Qed.
(** Corrected: variable 0 causes a violation of constraint 2 (a <= 0), so that 1 is kept. *)
Definition ex_link : list constr := [sum_one [0; 1; 2]; sum_one [3; 4; 5]; c_setup (mkExpr [(0, 1%Q)] 0) Less (fun _ => true)].
Definition ex_sens (v : nat) : list (nat * Q) := constraint_sensitivities ex_link v.
Example ex_corrected : option_map (fun p => (map (fun v => va_value (fst p v)) (seq 0 8), map sl_selected (snd p))) (verify true 8 ex_link ex_sens ex_start ex_sels)
  = Some ([0; 1; 0; 0; 0; 1; 1; 0]%Z, [None; Some 5]).
Proof. vm_compute. reflexivity. Qed.
Example ex_rejected : option_map (fun p => map sl_selected (snd p)) (verify false 8 ex_link ex_sens ex_start ex_sels) = None.
Proof. vm_compute. reflexivity. Qed.
Example ex_hopeless : let vs v := match v with 0 | 1 => sv VSelection true 1 | _ => ex_start v end in
  selections_ready vs ex_sels /\ sane_bounds 8 vs /\ hopeless 8 vs ex_sels.
Proof.
  cbv zeta. split; [split|split].
  - apply (proj1 ex_start_ready).
  - intros s [<-|[<-|[]]]; (split; [repeat constructor; cbn; intuition discriminate|]); intros v V; cbn in V; intuition (subst; reflexivity).
  - intros v L. do 8 (destruct v as [|v]; [cbn; split; [lia|intros; try discriminate; lia]|]). lia.
  - left. exists (mkSel [0; 1; 2] 0 [2] None). split; [now left|]. right. left. exists 0, 1. cbn. intuition discriminate.
Qed.
Example ex_imported : option_map (fun p => (map (fun v => va_value (fst p v)) (seq 0 8), map sl_selected (snd p)))
    (import_dense 8 ex_link ex_sens (fun v => if (v =? 2) || (v =? 3) then 1%Z else 0%Z) ex_start ex_sels)
  = Some ([0; 0; 1; 1; 0; 0; 0; 0]%Z, [Some 2; Some 3]).
Proof. vm_compute. reflexivity. Qed.
Definition ex_sels_set : list sel := [mkSel [0; 1; 2] 0 [2] (Some 1); mkSel [3; 4; 5] 1 [] (Some 5)].
Definition ex_one : vars := fun v => match v with 1 | 5 => sv VSelection false 1 | 4 => sv VSelection true 0 | _ => sv VSelection false 0 end.
Example ex_tracked : disjoint_selections ex_sels_set /\ (forall s, In s ex_sels_set -> tracked ex_one s) /\
  forall k v, In (k, v) [(0, 2); (1, 3); (0, 0)] -> (exists s, nth_error ex_sels_set k = Some s /\ In v (sl_vars s)) /\ va_fixed (ex_one v) = false.
Proof.
  split; [|split].
  - intros i j s t D E1 E2 v A B. destruct i as [|[|i]]; [| |destruct i; discriminate]; (destruct j as [|[|j]]; [| |destruct j; discriminate]); try (now apply D);
      injection E1 as <-; injection E2 as <-; cbn in A, B; intuition (subst; discriminate).
  - intros s [<-|[<-|[]]]; [exists 1|exists 5]; (split; [reflexivity|]); (split; [|reflexivity]); (split; [cbn; auto|]); (split; [reflexivity|]); intros w W D; cbn in W; intuition (subst; try reflexivity; try contradiction).
  - intros k v H. cbn in H. intuition; match goal with H : _ = (k, v) |- _ => injection H as <- <- end; try reflexivity; eexists; (split; [reflexivity|]); cbn; auto.
Qed.
Example ex_moves : option_map (fun p => (map (fun v => va_value (fst p v)) (seq 0 6), map sl_selected (snd p))) (run_moves ex_one ex_sels_set [(0, 2); (1, 3); (0, 0)])
  = Some ([1; 0; 0; 1; 0; 0]%Z, [Some 0; Some 3]).
Proof. vm_compute. reflexivity. Qed.

(** A selection whose variable at 1 is fixed passes both verifications without recording it; a selection move then
    reads a null pointer. *)
Theorem C33_fixed_selected_refuted : exists vs sels, selections_ready vs sels /\ sane_bounds 3 vs /\ valid_start 3 vs sels /\
  (exists v, va_fixed (vs v) = false /\ exists s, In s sels /\ In v (sl_vars s)) /\
  forall correct cs sens, exists vs' sels', verify correct 3 cs sens vs sels = Some (vs', sels') /\
    (forall s, In s sels' -> sl_selected s = None) /\ forall v, apply_selection_move vs' sels' 0 v = None.
Proof.
  exists (fun v => match v with 0 => sv VSelection true 1 | _ => sv VSelection false 0 end), [mkSel [0; 1; 2] 0 [] None].
  split; [split|split; [|split; [|split]]].
  - intros i j s t D E1 E2. destruct i as [|i]; [|destruct i; discriminate]. destruct j as [|j]; [congruence|destruct j; discriminate].
  - intros s [<-|[]]. split; [repeat constructor; cbn; intuition discriminate|]. intros v V. cbn in V. intuition (subst; reflexivity).
  - intros v L. do 3 (destruct v as [|v]; [cbn; split; [lia|discriminate]|]). lia.
  - split; [intros s [<-|[]]; exists 0; split; [now left|]; split; [reflexivity|]; intros w W D; cbn in W; intuition (subst; try reflexivity; contradiction)|].
    intros v L. do 3 (destruct v as [|v]; [cbn; split; discriminate|]). lia.
  - exists 1. split; [reflexivity|]. eexists. split; [now left|]. cbn. auto.
  - intros [|] cs sens; eexists _, _; (split; [reflexivity|]); (split; [intros s [<-|[]]; reflexivity|reflexivity]).
Qed.
Print Assumptions C33_fixed_selected_refuted.

(** Moving away from a selected variable that is fixed leaves two variables at 1. *)
Theorem C36_fixed_selected_refuted : exists vs sels vs' sels', apply_selection_move vs sels 0 1 = Some (vs', sels') /\
  chosen vs [0; 1; 2] 0 /\ map sl_vars sels = [[0; 1; 2]] /\ map sl_selected sels = [Some 0] /\ va_fixed (vs 1) = false /\
  va_value (vs' 0) = 1%Z /\ va_value (vs' 1) = 1%Z.
Proof.
  exists (fun v => match v with 0 => sv VSelection true 1 | _ => sv VSelection false 0 end), [mkSel [0; 1; 2] 0 [] (Some 0)]. eexists _, _. split; [reflexivity|].
  split; [split; [now left|]; split; [reflexivity|]; intros w W D; cbn in W; intuition (subst; try reflexivity; contradiction)|].
  repeat split; reflexivity.
Qed.
Print Assumptions C36_fixed_selected_refuted.

(** A binary variable bounded to 1 passes at 0. *)
Theorem C33_binary_bounds_refuted : exists vs, va_sense (vs 0) = VBinary /\ va_lower (vs 0) = 1%Z /\ va_value (vs 0) = 0%Z /\ sane_bounds 1 vs /\
  forall correct cs sens, verify correct 1 cs sens vs [] = Some (vs, []).
Proof.
  exists (fun _ => mkVar 0 1 1 true false VBinary false true). split; [reflexivity|]. split; [reflexivity|]. split; [reflexivity|]. split; [intros v L; cbn; lia|]. intros [|] cs sens; reflexivity.
Qed.
Print Assumptions C33_binary_bounds_refuted.
