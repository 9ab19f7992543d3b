(** C57: the Lagrange dual search and the dual bound it reports. *)
From Coq Require Import List ZArith QArith Qabs Lia Lqa Bool.
From Verif Require Import ExprModel ExprSpec ConstraintModel ConstraintSpec EvalModel EvalSpec EvalSpec2 SolutionModel SolutionSpec ContainerModel
  TabuModel LoopModel LoopSpec LagrangeModel LagrangeSpec LagrangeProof LagrangeProof2 LagrangeProof3.
Import ListNotations.
Local Open Scope Q_scope.

(** Minimization: after any number of iterations, with any options, step sizes,
    incumbents and clock, neither the last nor the largest Lagrangian exceeds the
    objective of an assignment within the bounds that satisfies all constraints. *)
Theorem C57_lower_bound : forall o vars lo hi s0 h0 clock, dual_problem vars s0 ->
  let l := fst (g_search o true vars lo hi s0 h0 clock) in
  (forall q, gl_lagrangian l = Some q -> below_all vars lo hi s0 q) /\ (forall q, gl_best l = Some q -> below_all vars lo hi s0 q).
Proof. exact search_bound. Qed.
Print Assumptions C57_lower_bound.

(** Minimization: the controller keeps a valid dual bound valid and never lowers it,
    whether or not the search is skipped. *)
Theorem C57_dual_bound : forall o applicable late vars lo hi s0 h0 clock,
  (applicable = true -> dual_problem vars s0) -> below_all vars lo hi s0 (ho_dual h0) ->
  let h := g_control o true applicable late vars lo hi s0 h0 clock in
  ho_dual h0 <= ho_dual h /\ below_all vars lo hi s0 (ho_dual h).
Proof. exact control_bound. Qed.
Print Assumptions C57_dual_bound.

(** Minimization or maximization: the solutions it offers to the incumbents carry
    their true scores, the stored feasible solutions are feasible, the incumbents
    are what offering them makes; it stops after at most iteration_max iterations
    with a status that is true of the final state, and nothing is undefined. *)
Theorem C57_search : forall is01 o minimize vars lo hi s0 h0 clock, loop_start is01 s0 -> ms_deps s0 = [] -> (1 <= go_queue o)%Z ->
  (forall v, is01 v = true -> (0 <= lo v <= 1)%Z /\ (0 <= hi v <= 1)%Z) ->
  let r := g_search o minimize vars lo hi s0 h0 clock in let l := fst r in
  (true_score (ms_model s0) (ms_x (gl_ms l)) (gl_score l) /\
   (forall y sc, In (y, sc) (gl_visited l) -> true_score (ms_model s0) y sc /\ (sc_feasible sc = true <-> satisfies (ms_model s0) y)) /\
   (forall y, In y (gl_feasible l) -> satisfies (ms_model s0) y) /\
   gl_holder l = fold_left (h_step true) (offers (gl_visited l)) (reset_local h0)) /\
  (Z.of_nat (length (gl_visited l)) <= 1 + Z.max 0 (go_iteration_max o))%Z /\
  ((Z.max 0 (go_iteration_max o) < Z.of_nat (length clock))%Z -> exists st, snd r = Some st) /\
  (forall st, snd r = Some st -> dual_meaning o clock l st).
Proof. exact search_ginv. Qed.
Print Assumptions C57_search.

(** ** Example: minimize -2 x0 - x1 subject to x0 + x1 <= 3, 0 <= x <= 2 *)
Definition ex_c (s : csense) : constr := c_setup (mkExpr [(0%nat, 1); (1%nat, 1)] (-3)) s (fun _ => false).
Definition ex_s : mstate :=
  mkMs (mkM true 1 (mkExpr [(0%nat, -2); (1%nat, -1)] 0) 0 0 [ex_c Less] 100) [] [] (fun _ => 0%Z) (fun _ => false) false [] false.
Definition ex_o : goptions := mkGo 4 (-100) (11 # 10) (9 # 10) (1 # 1000) 3 true.
Definition ex_h : holder (nat -> Z) := mkHolder false (mkSlot None None) (mkSlot None None) (mkSlot None None) (-6).
Lemma ex_problem : dual_problem [0; 1]%nat ex_s.
Proof.
  split; [|split; [reflexivity|split; [reflexivity|]]].
  - split; [repeat (apply NoDup_cons; [cbn; intuition discriminate|]); apply NoDup_nil|]. split; [intros v H; exact H|].
    intros c v [<-|[]] H. exact H.
  - repeat (apply NoDup_cons; [cbn; intuition discriminate|]); apply NoDup_nil.
Qed.
Example C57_example :
  let r := g_search ex_o true [0; 1]%nat (fun _ => 0%Z) (fun _ => 2%Z) ex_s ex_h [false; false; false; false; false] in
  dual_problem [0; 1]%nat ex_s /\ below_all [0; 1]%nat (fun _ => 0%Z) (fun _ => 2%Z) ex_s (-6) /\
  snd r = Some GIterationOver /\ length (gl_visited (fst r)) = 5%nat /\
  ho_dual (g_control ex_o true true false [0; 1]%nat (fun _ => 0%Z) (fun _ => 2%Z) ex_s ex_h [false; false; false; false; false]) == - (1111 # 200) /\
  (exists y, attainable [0; 1]%nat (fun _ => 0%Z) (fun _ => 2%Z) ex_s y /\ satisfies_all (ms_model ex_s) y /\ e_eval (md_obj (ms_model ex_s)) y == -5).
Proof.
  cbv zeta. split; [exact ex_problem|]. split; [|split; [vm_compute; reflexivity|split; [vm_compute; reflexivity|split; [vm_compute; reflexivity|]]]].
  - intros y A _. destruct (A 0%nat (or_introl eq_refl)) as [_ A0]. destruct (A 1%nat (or_intror (or_introl eq_refl))) as [_ A1].
    specialize (A0 eq_refl). specialize (A1 eq_refl). unfold e_eval. cbn [ex_s ms_model md_obj ex_sens ex_const fold_left fst snd].
    destruct A0 as [_ A0], A1 as [_ A1]. rewrite Zle_Qle in A0, A1. change (inject_Z 2) with 2 in *. lra.
  - exists (fun v => if Nat.eqb v 0 then 2%Z else 1%Z). split; [|split; [|vm_compute; reflexivity]].
    + intros v _. split; [discriminate|intros _]. destruct (Nat.eqb v 0); lia.
    + intros c [<-|[]]. vm_compute. discriminate.
Qed.
Example C57_search_example : loop_start (fun _ => false) ex_s /\ ms_deps ex_s = [] /\ (1 <= go_queue ex_o)%Z.
Proof.
  split; [|split; [reflexivity|vm_compute; discriminate]].
  split; [split; [|split; [|intros p []]]|].
  - intros c [<-|[]]. repeat (apply NoDup_cons; [cbn; intuition discriminate|]); apply NoDup_nil.
  - repeat (apply NoDup_cons; [cbn; intuition discriminate|]); apply NoDup_nil.
  - split; [intros d []|]. split; [intros p []|]. split; [|discriminate].
    intros c [<-|[]] _. split; [|split; [|split; [|discriminate]]].
    + intros v a [E|[E|[]]]; injection E as <- <-; (split; [exists 1%Z; reflexivity|vm_compute; discriminate]).
    + exists (-3)%Z. reflexivity.
    + exists 1%Z. reflexivity.
Qed.

(** ** Exceptions *)

(** Maximization: the reported dual bound can be below the objective of a solution
    that satisfies all constraints (maximize x subject to x <= 5, 0 <= x <= 10: the
    bound is -25, the optimum is 5).  The coefficients are those of f - dual g, the
    value is that of f + dual g. *)
Definition max_c : constr := c_setup (mkExpr [(0%nat, 1)] (-5)) Less (fun _ => false).
Definition max_s : mstate :=
  mkMs (mkM true (-1) (mkExpr [(0%nat, 1)] 0) 0 0 [max_c] 100) [] [] (fun _ => 0%Z) (fun _ => false) false [] false.
Definition max_h : holder (nat -> Z) := mkHolder false (mkSlot None None) (mkSlot None None) (mkSlot None None) 10.
Theorem C57_maximization_refuted : exists o vars lo hi s0 h0 clock y,
  dual_problem vars s0 /\ ho_dual h0 == 10 /\
  (forall z, attainable vars lo hi s0 z -> e_eval (md_obj (ms_model s0)) z <= ho_dual h0) /\
  attainable vars lo hi s0 y /\ satisfies_all (ms_model s0) y /\ e_eval (md_obj (ms_model s0)) y == 5 /\
  ho_dual (g_control o false true false vars lo hi s0 h0 clock) == -25.
Proof.
  exists (mkGo 2 (-100) 1 1 (1 # 1000) 3 true), [0%nat], (fun _ => 0%Z), (fun _ => 10%Z), max_s, max_h, [false; false; false], (fun _ => 5%Z).
  split; [|split; [reflexivity|split; [|split; [|split; [|split; vm_compute; reflexivity]]]]].
  - split; [|split; [reflexivity|split; [reflexivity|apply NoDup_cons; [intros []|apply NoDup_nil]]]].
    split; [apply NoDup_cons; [intros []|apply NoDup_nil]|]. split; [intros v H; exact H|]. intros c v [<-|[]] H. exact H.
  - intros z A. destruct (A 0%nat (or_introl eq_refl)) as [_ A0]. destruct (A0 eq_refl) as [_ A1]. rewrite Zle_Qle in A1.
    unfold e_eval. cbn [max_s max_h ho_dual ms_model md_obj ex_sens ex_const fold_left fst snd]. change (inject_Z 10) with 10 in A1. lra.
  - intros v _. split; [discriminate|intros _; lia].
  - intros c [<-|[]]. vm_compute. discriminate.
Qed.
Print Assumptions C57_maximization_refuted.

(** The bound reported is the last Lagrangian, not the best one found. *)
Theorem C57_best_refuted : exists o vars lo hi s0 h0 clock b,
  dual_problem vars s0 /\ gl_best (fst (g_search o true vars lo hi s0 h0 clock)) = Some b /\
  ho_dual (g_control o true true false vars lo hi s0 h0 clock) < b.
Proof.
  exists (mkGo 3 (-100) (4 # 1) 1 (1 # 1000) 3 true), [0; 1]%nat, (fun _ => 0%Z), (fun _ => 2%Z), ex_s, ex_h, [false; false; false; false], (-11 # 2).
  split; [exact ex_problem|]. split; vm_compute; reflexivity.
Qed.
Print Assumptions C57_best_refuted.
