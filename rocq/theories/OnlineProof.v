(** Proofs for C60. *)
From Coq Require Import List ZArith QArith Qabs Bool Lia Lqa.
From Verif Require Import ExprModel ExprSpec ExprProof ConstraintModel ConstraintSpec SolutionModel VariableModel TypeSpec PresolveModel PresolveSpec
  PresolveProof2 PresolveProof3 PresolveProof4 PresolveProof5 OnlineModel OnlineSpec.
Import ListNotations.
Local Open Scope Q_scope.

Lemma integral_fixed vs e : integral e -> integral_when_fixed vs e.
Proof.
  intros H v a Hi _. destruct (H v a Hi) as [z Hz]. exists (z * va_value (vs v))%Z. rewrite Hz, inject_Z_mult. reflexivity.
Qed.
Section Min.
Variables (n : nat) (obj : expr) (is01 : nat -> bool).
Hypothesis W : wf obj.
Hypothesis IN : integral obj.
Hypothesis NZ : no_zero obj.

Lemma objective_bound_total vs q y : moderate vs -> moderate_fixed vs -> fits (e_sub_value obj q) -> legal vs y -> e_eval obj y <= q ->
  exists vs', update_variable_bounds n true true obj q is01 vs = Ok vs' /\ moderate vs' /\ moderate_fixed vs' /\
    (forall z, legal vs' z -> legal vs z) /\ (forall z, legal vs z -> e_eval obj z <= q -> legal vs' z).
Proof.
  intros M MF F L H. unfold update_variable_bounds. cbv zeta. cbn [andb]. set (c := c_setup (e_sub_value obj q) Less is01).
  assert (S : forall z, e_eval obj z <= q -> satisfies c z).
  { intros z Hz. unfold satisfies, holds, c, c_setup. cbn [ct_expr ct_sense]. pose proof (eval_sub_value obj q z). lra. }
  assert (Hi : length (mutables vs (ct_expr c)) = 1%nat -> integral_when_fixed vs (ct_expr c)) by (intros _; apply integral_fixed; exact IN).
  pose proof (tighten_no_ub vs c y M MF L W IN NZ F) as U.
  pose proof (fun z Lz Hz => tighten_sound vs c z W Hi Lz (S z Hz)) as T. pose proof (T y L H) as Ty.
  destruct (tighten vs c) as [[[vs1 off] u]| |] eqn:E; cbn [bind]; [|destruct Ty|now contradict U].
  pose proof (tighten_shrinks vs c vs1 off u y W Hi L (S y H) E) as Sh.
  assert (Keep1 : moderate vs1 /\ moderate_fixed vs1 /\ (forall z, legal vs1 z -> legal vs z)).
  { split; [eapply shrinks_moderate; eassumption|]. split; [eapply shrinks_moderate_fixed; eassumption|]. intros z. now apply shrinks_legal. }
  destruct Keep1 as (K1 & K2 & K3).
  destruct u.
  - destruct (implicit_pass n vs1) as [vs2 k] eqn:E2. cbn [fst]. unfold implicit_pass in E2. destruct (implicit_fold _ (seq_NoDup _ _) _ _ _ _ E2) as (B1 & B2 & _).
    exists vs2. split; [reflexivity|]. split; [eapply shrinks_moderate; eassumption|]. split; [eapply shrinks_moderate_fixed; eassumption|].
    split; [intros z Hz; apply K3; now apply B2|]. intros z Lz Hz. apply B2. now apply T.
  - exists vs1. split; [reflexivity|]. split; [exact K1|]. split; [exact K2|]. split; [exact K3|exact T].
Qed.

Lemma online_fold enabled rs : forall vs y, moderate vs -> moderate_fixed vs -> legal vs y ->
  (forall r, In r rs -> or_now r = true -> exists q, sl_obj (ho_feasible (or_holder r)) = Some q /\ e_eval obj y <= q /\ fits (e_sub_value obj q)) ->
  exists vs', online_bounds enabled n true obj is01 rs vs = Ok vs' /\ (forall z, legal vs' z -> legal vs z) /\
    (forall z, legal vs z -> (forall r q, In r rs -> or_now r = true -> sl_obj (ho_feasible (or_holder r)) = Some q -> e_eval obj z <= q) -> legal vs' z).
Proof.
  induction rs as [|r rs IH]; intros vs y M MF L H.
  { exists vs. split; [reflexivity|]. split; auto. }
  assert (St : exists vs1, online_round enabled n true obj is01 vs r = Ok vs1 /\ moderate vs1 /\ moderate_fixed vs1 /\ (forall z, legal vs1 z -> legal vs z) /\
     (forall z, legal vs z -> (forall q, or_now r = true -> sl_obj (ho_feasible (or_holder r)) = Some q -> e_eval obj z <= q) -> legal vs1 z)).
  { unfold online_round. destruct (enabled && or_now r && negb (or_before r)) eqn:E; [|exists vs; repeat (split; [auto; fail|]); auto].
    apply andb_prop in E as [E _]. apply andb_prop in E as [_ E]. destruct (H r (or_introl eq_refl) E) as (q & Hq & Ho & F). rewrite Hq.
    destruct (objective_bound_total vs q y M MF F L Ho) as (vs1 & A1 & A2 & A3 & A4 & A5). exists vs1. split; [exact A1|]. split; [exact A2|]. split; [exact A3|]. split; [exact A4|].
    intros z Lz Hz. apply A5; [exact Lz|]. now apply Hz. }
  destruct St as (vs1 & A1 & A2 & A3 & A4 & A5). unfold online_bounds. cbn [fold_left bind]. rewrite A1. fold (online_bounds enabled n true obj is01 rs vs1).
  assert (L1 : legal vs1 y).
  { apply A5; [exact L|]. intros q Hn Hq. destruct (H r (or_introl eq_refl) Hn) as (q' & Hq' & Ho & _). assert (q' = q) by congruence. now subst. }
  destruct (IH vs1 y A2 A3 L1 (fun r' Hr => H r' (or_intror Hr))) as (vs2 & B1 & B2 & B3). exists vs2. split; [exact B1|]. split; [auto|].
  intros z Lz Hz. apply B3; [apply A5; [exact Lz|intros q; apply Hz; now left]|]. intros r' q Hr. apply Hz. now right.
Qed.
Lemma optimum_kept enabled cs rs vs y : moderate vs -> moderate_fixed vs -> true_incumbents true vs cs obj rs ->
  (forall r q, In r rs -> sl_obj (ho_feasible (or_holder r)) = Some q -> fits (e_sub_value obj q)) -> least vs cs obj y ->
  exists vs', online_bounds enabled n true obj is01 rs vs = Ok vs' /\ least vs' cs obj y /\
    (forall z, feasible_point vs' cs z -> feasible_point vs cs z) /\
    (forall z, feasible_point vs cs z -> (forall r q, In r rs -> or_now r = true -> sl_obj (ho_feasible (or_holder r)) = Some q -> e_eval obj z <= q) -> feasible_point vs' cs z).
Proof.
  intros M MF T F ((Ly & Sy) & Op).
  destruct (online_fold enabled rs vs y M MF Ly) as (vs' & A1 & A2 & A3).
  { intros r Hr Hn. destruct (T r Hr Hn) as (z & q & Z1 & Z2 & Z3). exists q. split; [exact Z2|]. split; [rewrite Z3; now apply Op|now apply (F r)]. }
  exists vs'. split; [exact A1|].
  assert (Bk : forall z, feasible_point vs' cs z -> feasible_point vs cs z) by (intros z (L & S); split; [now apply A2|exact S]).
  split; [|split; [exact Bk|]].
  - split; [|intros z Hz; apply Op; now apply Bk]. split; [|exact Sy]. apply A3; [exact Ly|]. intros r q Hr Hn Hq. destruct (T r Hr Hn) as (z & q' & Z1 & Z2 & Z3).
    assert (q' = q) by congruence. subst q'. rewrite Z3. now apply Op.
  - intros z (L & S) Hz. split; [now apply A3|exact S].
Qed.
End Min.
