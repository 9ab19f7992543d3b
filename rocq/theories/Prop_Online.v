(** C60: tightening bounds with the feasible incumbent between rounds. *)
From Coq Require Import List ZArith QArith Qabs Bool Lia Lqa.
From Verif Require Import ExprModel ExprSpec ConstraintModel ConstraintSpec EvalModel SolutionModel VariableModel TypeSpec PresolveModel PresolveSpec OnlineModel OnlineSpec OnlineProof.
Import ListNotations.
Local Open Scope Q_scope.

(** Minimization with integer coefficients and numbers that fit: over any number of
    rounds, whatever the flags, no exception and no undefined behaviour; every optimal
    solution stays optimal; nothing is added; every solution at least as good as all
    incumbents used stays. *)
Theorem C60_optimum_kept : forall n obj is01 enabled cs rs vs y, wf obj -> integral obj -> no_zero obj ->
  moderate vs -> moderate_fixed vs -> true_incumbents true vs cs obj rs ->
  (forall r q, In r rs -> sl_obj (ho_feasible (or_holder r)) = Some q -> fits (e_sub_value obj q)) -> least vs cs obj y ->
  exists vs', online_bounds enabled n true obj is01 rs vs = Ok vs' /\ least vs' cs obj y /\
    (forall z, feasible_point vs' cs z -> feasible_point vs cs z) /\
    (forall z, feasible_point vs cs z -> (forall r q, In r rs -> or_now r = true -> sl_obj (ho_feasible (or_holder r)) = Some q -> e_eval obj z <= q) -> feasible_point vs' cs z).
Proof. intros n obj is01 enabled cs rs vs y W I N. exact (optimum_kept n obj is01 W I N enabled cs rs vs y). Qed.
Print Assumptions C60_optimum_kept.

(** ** Example: minimize 2 x0 + 3 x1, both in 0..9, x0 + x1 >= 3; incumbents of
    objective 9 and 7 cut the bounds to 0..3 and 0..2 *)
Definition on_box (lo hi : Z) : var := mkVar lo lo hi true false (binary_or_integer lo hi) false (lo <? hi)%Z.
Definition on_vars : vars := fun _ => on_box 0 9.
Definition on_obj : expr := mkExpr [(0%nat, 2); (1%nat, 3)] 0.
Definition on_con : constr := c_setup (mkExpr [(0%nat, 1); (1%nat, 1)] (-(3))) Greater (fun _ => false).
Definition on_round (now before : bool) (x : nat -> Z) (q : Q) : oround :=
  let sc := mkScore q 0 0 0 0 q q true true true in
  mkOr now before (mkHolder true (mkSlot (Some q) (Some (x, sc))) (mkSlot (Some q) (Some (x, sc))) (mkSlot (Some q) (Some (x, sc))) 0).
Definition on_rounds : list oround := [on_round true false (fun _ => 3%Z) 15; on_round false true (fun _ => 2%Z) 10; on_round true false (fun v => match v with 0%nat => 2%Z | _ => 1%Z end) 7].
Example C60_example : wf on_obj /\ integral on_obj /\ no_zero on_obj /\ moderate on_vars /\ moderate_fixed on_vars /\
  true_incumbents true on_vars [on_con] on_obj on_rounds /\
  (forall r q, In r on_rounds -> sl_obj (ho_feasible (or_holder r)) = Some q -> fits (e_sub_value on_obj q)) /\
  least on_vars [on_con] on_obj (fun v => match v with 0%nat => 3%Z | _ => 0%Z end) /\
  match online_bounds true 2 true on_obj (fun _ => false) on_rounds on_vars with
  | Ok vs => map (fun v => (va_lower (vs v), va_upper (vs v))) [0; 1]%nat = [(0, 3); (0, 2)]%Z
  | _ => False
  end.
Proof.
  assert (Lg : forall a b : Z, (0 <= a <= 9)%Z -> (0 <= b <= 9)%Z -> (3 <= a + b)%Z -> feasible_point on_vars [on_con] (fun v => match v with 0%nat => a | _ => b end)).
  { intros a b A B C. split; [intros v; split; [discriminate|intros _; destruct v; cbn; lia]|]. intros c [<-|[]] _. unfold satisfies, holds, on_con, c_setup, e_eval. cbn [ct_expr ct_sense ex_sens ex_const fold_left fst snd]. assert (X : 3 <= inject_Z a + inject_Z b) by (rewrite <- inject_Z_plus; rewrite Zle_Qle in C; exact C). lra. }
  split; [repeat constructor; cbn; intuition discriminate|]. split; [intros v a [E|[E|[]]]; injection E as <- <-; [exists 2%Z|exists 3%Z]; reflexivity|].
  split; [intros v a [E|[E|[]]]; injection E as <- <-; discriminate|]. split; [intros v _; vm_compute; split; reflexivity|]. split; [discriminate|].
  split.
  { intros r [<-|[<-|[<-|[]]]] Hn; [|discriminate|].
    - exists (fun v => match v with 0%nat => 3%Z | _ => 3%Z end), 15. split; [apply Lg; lia|]. split; reflexivity.
    - exists (fun v => match v with 0%nat => 2%Z | _ => 1%Z end), 7. split; [apply Lg; lia|]. split; reflexivity. }
  split; [intros r q [<-|[<-|[<-|[]]]] E; cbn in E; injection E as <-; vm_compute; discriminate|]. split; [|vm_compute; reflexivity].
  split; [apply Lg; lia|]. intros z (L & S). specialize (S on_con (or_introl eq_refl) eq_refl). destruct (L 1%nat) as [_ L1]. specialize (L1 eq_refl).
  unfold satisfies, holds, on_con, c_setup, on_obj, e_eval in *. cbn [ct_expr ct_sense ex_sens ex_const fold_left fst snd] in *.
  destruct L1 as [L1 _]. cbn [on_vars on_box va_lower] in L1. rewrite Zle_Qle in L1. change (inject_Z 0) with 0 in *. change (inject_Z 3) with 3. lra.
Qed.

(** ** Maximization: the value passed on has the wrong sign.  Maximize x0 - 10 over
    0..20; with the incumbent x0 = 7 all of 0..12 is cut off, also 12, which is
    better.  Over 0..9 an exception is thrown. *)
Theorem C60_maximization_refuted : exists obj cs rs vs vs' y z, wf obj /\ integral obj /\ no_zero obj /\ moderate vs /\ moderate_fixed vs /\
  true_incumbents false vs cs obj rs /\ (exists r q, In r rs /\ sl_obj (ho_feasible (or_holder r)) = Some q /\ q == - e_eval obj z) /\
  feasible_point vs cs z /\ feasible_point vs cs y /\ e_eval obj z < e_eval obj y /\
  online_bounds true 1 false obj (fun _ => false) rs vs = Ok vs' /\ ~ feasible_point vs' cs y.
Proof.
  exists (mkExpr [(0%nat, 1)] (-(10))), [], [on_round true false (fun _ => 7%Z) 3], (fun _ => on_box 0 20). eexists. exists (fun _ => 12%Z), (fun _ => 7%Z).
  split; [repeat constructor; cbn; intuition discriminate|]. split; [intros v a [E|[]]; injection E as <- <-; exists 1%Z; reflexivity|].
  split; [intros v a [E|[]]; injection E as <- <-; discriminate|]. split; [intros v _; vm_compute; split; reflexivity|]. split; [discriminate|].
  assert (Lg : forall a, (0 <= a <= 20)%Z -> feasible_point (fun _ => on_box 0 20) [] (fun _ => a)) by (intros a A; split; [intros v; split; [discriminate|intros _; cbn; lia]|intros c []]).
  split; [intros r [<-|[]] _; exists (fun _ => 7%Z), 3; split; [apply Lg; lia|split; reflexivity]|].
  split; [exists (on_round true false (fun _ => 7%Z) 3), 3; split; [now left|split; reflexivity]|]. split; [apply Lg; lia|]. split; [apply Lg; lia|]. split; [reflexivity|].
  split; [reflexivity|]. intros (L & _). destruct (L 0%nat) as [_ L0]. specialize (L0 eq_refl). cbv in L0. destruct L0 as [L0 _]. now apply L0.
Qed.
Print Assumptions C60_maximization_refuted.
Theorem C60_maximization_throws_refuted : exists obj rs vs z, integral obj /\ moderate vs /\ true_incumbents false vs [] obj rs /\ feasible_point vs [] z /\
  online_bounds true 1 false obj (fun _ => false) rs vs = Throw.
Proof.
  exists (mkExpr [(0%nat, 1)] (-(10))), [on_round true false (fun _ => 7%Z) 3], (fun _ => on_box 0 9), (fun _ => 7%Z).
  assert (Lg : forall a, (0 <= a <= 9)%Z -> feasible_point (fun _ => on_box 0 9) [] (fun _ => a)) by (intros a A; split; [intros v; split; [discriminate|intros _; cbn; lia]|intros c []]).
  split; [intros v a [E|[]]; injection E as <- <-; exists 1%Z; reflexivity|]. split; [intros v _; vm_compute; split; reflexivity|].
  split; [intros r [<-|[]] _; exists (fun _ => 7%Z), 3; split; [apply Lg; lia|split; reflexivity]|]. split; [apply Lg; lia|]. vm_compute. reflexivity.
Qed.
Print Assumptions C60_maximization_throws_refuted.
