(** C53: one run of the local search. *)
From Coq Require Import List ZArith QArith Qabs Permutation Lia Lqa Bool.
From Verif Require Import ExprModel ExprSpec ConstraintModel ConstraintSpec EvalModel EvalSpec EvalSpec2 SolutionModel SolutionSpec
  PresolveModel TabuModel LoopModel LoopSpec LocalModel LocalSpec LocalProof LocalProof2 Prop_Eval Prop_Loop.
Import ListNotations.
Local Open Scope Q_scope.

(** Moves that share no enabled constraint are performed together; the score of the
    combination, and so every score of the run, is the one from scratch, the
    incumbents are what the visited solutions make of them, and every stored feasible
    solution satisfies all constraints.  Every altered variable has to occur in some
    enabled constraint. *)
Theorem C53_scores_are_true : forall is01 o s0 h0 m0 es, loop_start is01 s0 ->
  (forall e t, In e es -> In t (se_moves e) -> trial_ok is01 s0 t /\ anchored (ms_model s0) t) ->
  let l := fst (s_search o s0 h0 m0 es) in
  true_score (ms_model s0) (ms_x (sl_ms l)) (sl_score l) /\
  (forall y sc, In (y, sc) (sl_visited l) -> true_score (ms_model s0) y sc /\ (sc_feasible sc = true <-> satisfies (ms_model s0) y)) /\
  (forall y, In y (sl_feasible l) -> satisfies (ms_model s0) y) /\
  sl_holder l = fold_left (h_step true) (offers (sl_visited l)) (reset_local h0).
Proof. exact local_true. Qed.
Print Assumptions C53_scores_are_true.

(** Without step-size adjustment every solution is strictly better than all before
    it, so none is visited twice. *)
Theorem C53_always_better : forall is01 o s0 h0 m0 es, loop_start is01 s0 ->
  (forall e t, In e es -> In t (se_moves e) -> trial_ok is01 s0 t /\ anchored (ms_model s0) t) ->
  (so_adjust o = false \/ forall e t, In e es -> In t (se_moves e) -> tm_integer t = false) ->
  let l := fst (s_search o s0 h0 m0 es) in
  forall i j y y' sc sc', (i < j)%nat -> nth_error (sl_visited l) i = Some (y, sc) -> nth_error (sl_visited l) j = Some (y', sc') ->
  strictly_better (ms_model s0) y' y.
Proof. exact local_improves. Qed.
Print Assumptions C53_always_better.

(** The loop stops, and the status is true of the final state; LOCAL_OPTIMAL means
    that the offered move with the least global augmented objective does not meet
    the acceptance criterion. *)
Theorem C53_termination : forall is01 o s0 h0 m0 es, loop_start is01 s0 ->
  (forall e t, In e es -> In t (se_moves e) -> trial_ok is01 s0 t /\ anchored (ms_model s0) t) ->
  let r := s_search o s0 h0 m0 es in
  (Z.of_nat (length (sl_visited (fst r))) <= 1 + Z.max 0 (so_iteration_max o))%Z /\
  ((Z.max 0 (so_iteration_max o) < Z.of_nat (length es))%Z -> exists st, snd r = Some st) /\
  (forall st, snd r = Some st -> exists e, In e es /\ local_meaning o s0 e (fst r) st).
Proof. exact local_stops. Qed.
Print Assumptions C53_termination.

(** ** Examples *)
(** Two independent constraints x0 + x1 >= 1, x2 + x3 >= 1, both violated; the
    objective is -x0 - x2.  Both flips are performed in one iteration. *)
Definition two_state : mstate :=
  mkMs (mkM true 1 (mkExpr [(0%nat, -1); (2%nat, -1)] 0) 0 0
         [c_with_pen (c_setup (mkExpr [(0%nat, 1); (1%nat, 1)] (-1)) Greater (fun _ => true)) 10 10;
          c_with_pen (c_setup (mkExpr [(2%nat, 1); (3%nat, 1)] (-1)) Greater (fun _ => true)) 10 10] 100)
       [] [] (fun _ => 0%Z) (fun _ => false) false [] false.
Definition two_flip (v : nat) (n : Z) : tmove := mkTm (KSingle (v, n)) (related_constraints (md_cons (ms_model two_state)) v) false false false v.
Definition two_env : senv := mkSe false [two_flip 0 1; two_flip 1 1; two_flip 2 1; two_flip 3 1] true (fun _ => 0%Z).
Definition two_options : soptions := mkSo 10 (-100) true true.
Lemma two_start : loop_start (fun _ => true) two_state.
Proof.
  split.
  { split; [intros c [<-|[<-|[]]]; repeat constructor; cbn; intuition discriminate|]. split; [repeat constructor; cbn; intuition discriminate|intros p []]. }
  split; [intros d []|]. split; [intros p []|]. split; [|cbn; intros; lia].
  intros c Hc _. destruct Hc as [<-|[<-|[]]]; (split; [|split; [|split; [|reflexivity]]]).
  all: try (intros v a Hv; vm_compute in Hv; repeat (destruct Hv as [Hv|Hv]; [injection Hv as <- <-; split; [whole|vm_compute; discriminate]|]); destruct Hv).
  all: whole.
Qed.
Lemma two_flip_ok v n : (v < 4)%nat -> (0 <= n <= 1)%Z -> trial_ok (fun _ => true) two_state (two_flip v n) /\ anchored (ms_model two_state) (two_flip v n).
Proof.
  intros Hv Hn. split.
  - split; [apply NoDup_cons; [intros []|apply NoDup_nil]|]. split; [intros w k [E|[]]; injection E as <- <-; split; [reflexivity|auto]|].
    split; [destruct v as [|[|[|[|v]]]]; [..|lia]; vm_compute; repeat (apply NoDup_cons; [cbn; intuition discriminate|]); apply NoDup_nil|].
    split; [|split; [exact Logic.I|discriminate]]. intros [|[|i]] c w Hi _ [<-|[]] Hin; cbn in Hi; try (destruct i; discriminate); injection Hi as <-; cbn in Hin;
    repeat (destruct Hin as [<-|Hin]; [vm_compute; tauto|]); destruct Hin.
  - intros w k [E|[]]. injection E as <- <-.
    exists (nth (if Nat.ltb v 2 then 0 else 1) (md_cons (ms_model two_state)) (c_setup (mkExpr [] 0) Equal (fun _ => true))).
    destruct v as [|[|[|[|v]]]]; [..|lia]; (split; [cbn; auto|split; [reflexivity|cbn; auto]]).
Qed.
Example C53_example : let r := s_search two_options two_state (ho_init _) mem_setup [two_env; two_env] in
  loop_start (fun _ => true) two_state /\
  (forall e t, In e [two_env; two_env] -> In t (se_moves e) -> trial_ok (fun _ => true) two_state t /\ anchored (ms_model two_state) t) /\
  map (fun p => (map (fst p) [0; 1; 2; 3]%nat, sc_feasible (snd p))) (sl_visited (fst r)) = [([0; 0; 0; 0]%Z, false); ([1; 0; 1; 0]%Z, true)] /\
  snd r = Some SLocalOptimal.
Proof.
  cbv zeta. split; [exact two_start|]. split; [|vm_compute; auto].
  intros e t [<-|[<-|[]]] Ht; cbn [two_env se_moves In] in Ht; destruct Ht as [<-|[<-|[<-|[<-|[]]]]]; apply two_flip_ok; lia.
Qed.

(** ** What is not true *)
(** A variable without constraint is altered twice in one iteration and the reported
    objective is wrong (x3 does not occur in [two_cons]; moves to 1 and to 5). *)
Definition free_state : mstate :=
  mkMs (mkM true 1 (mkExpr [(0%nat, -1)] 0) 0 0 [] 100) [] [] (fun _ => 0%Z) (fun _ => false) false [] false.
Definition free_move (n : Z) : tmove := mkTm (KSingle (0%nat, n)) [] false false false (Z.to_nat n).
Theorem C53_unconstrained_refuted : exists is01 o s0 m0 es, loop_start is01 s0 /\
  (forall e t, In e es -> In t (se_moves e) -> trial_ok is01 s0 t) /\
  let l := fst (s_search o s0 (ho_init _) m0 es) in ~ true_score (ms_model s0) (ms_x (sl_ms l)) (sl_score l).
Proof.
  exists (fun _ => false), (mkSo 1 (-100) false false), free_state, mem_setup, [mkSe false [free_move 1; free_move 5] true (fun _ => 0%Z)].
  split; [|split].
  - split; [split; [intros c []|split; [repeat constructor; cbn; intuition discriminate|intros p []]]|]. split; [intros d []|]. split; [intros p []|]. split; [intros c []|discriminate].
  - intros e t [<-|[]] [<-|[<-|[]]]; (split; [apply NoDup_cons; [intros []|apply NoDup_nil]|]; split; [intros v n [E|[]]; injection E as <- <-; split; [reflexivity|discriminate]|];
      split; [apply NoDup_nil|]; split; [intros [|i] c v Hi; discriminate|]; split; [exact Logic.I|discriminate]).
  - cbv zeta. intros (x & H & _). cbv zeta in H. vm_compute in H. discriminate.
Qed.
Print Assumptions C53_unconstrained_refuted.

(** LOCAL_OPTIMAL is reported at an infeasible solution although an offered move
    leads to a feasible one: feasible trial solutions must improve the objective of
    the current, infeasible solution. *)
Definition cover_state : mstate :=
  mkMs (mkM true 1 (mkExpr [(0%nat, 1); (1%nat, 1)] 0) 0 0
         [c_with_pen (c_setup (mkExpr [(0%nat, 1); (1%nat, 1)] (-1)) Greater (fun _ => true)) 10 10] 100)
       [] [] (fun _ => 0%Z) (fun _ => false) false [] false.
Definition cover_flip (v : nat) : tmove := mkTm (KSingle (v, 1%Z)) [0%nat] false false false v.
Theorem C53_local_optimum_refuted : exists is01 o s0 h0 m0 e t, loop_start is01 s0 /\
  (forall t, In t (se_moves e) -> trial_ok is01 s0 t /\ anchored (ms_model s0) t) /\
  let r := s_search o s0 h0 m0 [e] in
  snd r = Some SLocalOptimal /\ ~ satisfies (ms_model s0) (ms_x (sl_ms (fst r))) /\
  In t (se_moves e) /\ satisfies (ms_model s0) (apply_move (ms_x (sl_ms (fst r))) (tm_alts t)).
Proof.
  exists (fun _ => true), (mkSo 5 (-100) false false), cover_state, (ho_init _), mem_setup, (mkSe false [cover_flip 0; cover_flip 1] true (fun _ => 0%Z)), (cover_flip 0).
  split; [|split].
  - split; [split; [intros c [<-|[]]; repeat constructor; cbn; intuition discriminate|split; [repeat constructor; cbn; intuition discriminate|intros p []]]|].
    split; [intros d []|]. split; [intros p []|]. split; [|cbn; intros; lia].
    intros c [<-|[]] _. split; [|split; [whole|split; [whole|reflexivity]]].
    intros v a Hv; vm_compute in Hv; repeat (destruct Hv as [Hv|Hv]; [injection Hv as <- <-; split; [whole|vm_compute; discriminate]|]); destruct Hv.
  - intros t [<-|[<-|[]]]; (split; [split; [apply NoDup_cons; [intros []|apply NoDup_nil]|]; split; [intros v n [E|[]]; injection E as <- <-; split; [reflexivity|lia]|];
      split; [apply NoDup_cons; [intros []|apply NoDup_nil]|]; split; [intros [|i] c v Hi _ _ _; [now left|destruct i; discriminate]|]; split; [exact Logic.I|discriminate]|]);
      intros v n [E|[]]; injection E as <- <-; (eexists; split; [left; reflexivity|split; [reflexivity|cbn; auto]]).
  - cbv zeta. split; [reflexivity|]. split; [|split; [now left|]].
    + intros H. specialize (H _ (or_introl eq_refl) eq_refl). vm_compute in H. apply H. reflexivity.
    + intros c [<-|[]] _. vm_compute. discriminate.
Qed.
Print Assumptions C53_local_optimum_refuted.

(** Two moves of one selection (x0 + x1 + x2 = 1, not checked because the moves keep
    it) are performed together if the variables have no other constraint, and the
    equation is violated afterwards. *)
Definition select_state : mstate :=
  mkMs (mkM true 1 (mkExpr [(0%nat, 3); (1%nat, 2); (2%nat, 1)] 0) 0 0
         [PresolveModel.disable (c_with_pen (c_setup (mkExpr [(0%nat, 1); (1%nat, 1); (2%nat, 1)] (-1)) Equal (fun _ => true)) 10 10)] 100)
       [] [] (fun v => if Nat.eqb v 0 then 1%Z else 0%Z) (fun _ => false) false [] false.
Definition select_move (v : nat) : tmove := mkTm (KSelection (0%nat, 0%Z) (v, 1%Z) []) [0%nat] false false true v.
Theorem C53_selection_refuted : exists is01 o s0 h0 m0 e, loop_start is01 s0 /\
  (forall t, In t (se_moves e) -> trial_ok is01 s0 t) /\
  let l := fst (s_search o s0 h0 m0 [e]) in
  (forall t c, In t (se_moves e) -> In c (md_cons (ms_model s0)) -> holds (e_eval (ct_expr c) (apply_move (ms_x s0) (tm_alts t))) (ct_sense c) 0) /\
  sc_feasible (sl_score l) = true /\
  exists c, In c (md_cons (ms_model s0)) /\ ~ holds (e_eval (ct_expr c) (ms_x (sl_ms l))) (ct_sense c) 0.
Proof.
  exists (fun _ => true), (mkSo 5 (-100) false false), select_state, (ho_init _), mem_setup, (mkSe false [select_move 1; select_move 2] true (fun _ => 0%Z)).
  split; [|split].
  - split; [split; [intros c [<-|[]]; repeat constructor; cbn; intuition discriminate|split; [repeat constructor; cbn; intuition discriminate|intros p []]]|].
    split; [intros d []|]. split; [intros p []|]. split; [intros c [<-|[]] E; discriminate|]. intros v _. cbn [select_state ms_x]. destruct (Nat.eqb v 0); lia.
  - intros t [<-|[<-|[]]]; (split; [repeat (apply NoDup_cons; [cbn; intuition discriminate|]); apply NoDup_nil|]; split; [intros v n [E|[E|[]]]; injection E as <- <-; split; try reflexivity; lia|];
      split; [apply NoDup_cons; [intros []|apply NoDup_nil]|]; split; [intros [|i] c v Hi; [now left|destruct i; discriminate]|]; split; [|discriminate]);
      exists 0%nat, [0; 1; 2]%nat; (split; [cbn; auto|split; [cbn; auto|split; [|intros c E; injection E as <-; reflexivity]]]); vm_compute; apply Permutation_refl.
  - cbv zeta. split; [|split; [reflexivity|]].
    + intros t c [<-|[<-|[]]] [<-|[]]; vm_compute; reflexivity.
    + eexists. split; [left; reflexivity|]. vm_compute. discriminate.
Qed.
Print Assumptions C53_selection_refuted.
