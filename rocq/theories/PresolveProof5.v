(** Independent variables (C31) and bounds from the incumbent (C48). *)
From Coq Require Import List ZArith QArith Qabs Qround Bool Lia Lqa.
From Verif Require Import ExprModel ExprSpec ExprProof ConstraintModel ConstraintSpec VariableModel TypeSpec PresolveModel PresolveSpec
  PresolveProof PresolveProof2 PresolveProof3 PresolveProof4.
Import ListNotations.
Local Open Scope Q_scope.

Lemma related_false cs v : related cs v = false -> forall c, In c cs -> ~ In v (keys (ct_expr c)).
Proof.
  intros H c I K. unfold keys in K. apply in_map_iff in K as (p & <- & Ip).
  assert (related cs (fst p) = true); [|congruence]. unfold related. apply existsb_exists. exists c. split; [exact I|].
  apply existsb_exists. exists p. split; [exact Ip|apply Nat.eqb_refl].
Qed.
Lemma eval_irrelevant e y v z : ~ In v (keys e) -> e_eval e (set_val y v z) == e_eval e y.
Proof.
  intros H. rewrite !eval_lin. unfold keys in H. induction (ex_sens e) as [|[w a] tl IH]; [reflexivity|].
  cbn [lin map fst] in *. unfold set_val at 1. destruct (Nat.eqb_spec w v) as [->|D]; [exfalso; apply H; now left|].
  assert (T : ~ In v (map fst tl)) by (intros X; apply H; now right). specialize (IH T). lra.
Qed.
Lemma satisfies_irrelevant c y v z : ~ In v (keys (ct_expr c)) -> satisfies c y -> satisfies c (set_val y v z).
Proof.
  intros H. unfold satisfies, holds. pose proof (eval_irrelevant _ y v z H) as E.
  destruct (ct_sense c); rewrite E; auto.
Qed.
Lemma eval_set e y v z : wf e -> e_eval e (set_val y v z) == e_eval e y + coef (ex_sens e) v * inject_Z (z - y v).
Proof. intros W. rewrite !eval_lin, lin_set by exact W. ring. Qed.

Lemma as_good_refl m a b : a == b -> as_good m a b.
Proof. intros E. unfold as_good. destruct m; lra. Qed.
Lemma as_good_trans m a b c : as_good m a b -> as_good m b c -> as_good m a c.
Proof. unfold as_good. destruct m; lra. Qed.

Lemma independent_best cs obj vs minimize v y : wf obj -> decided cs obj vs ->
  va_fixed (vs v) = false -> related cs v = false -> (va_lower (vs v) <= y v <= va_upper (vs v))%Z ->
  let z := independent_value minimize (coef (ex_sens obj) v) (vs v) in
  (va_lower (vs v) <= z <= va_upper (vs v))%Z /\
  as_good minimize (e_eval obj (set_val y v z)) (e_eval obj y).
Proof.
  intros W D F R B z. specialize (D v F (related_false _ _ R)).
  assert (E : forall z, e_eval obj (set_val y v z) == e_eval obj y + coef (ex_sens obj) v * inject_Z (z - y v)) by (intros; now apply eval_set).
  specialize (E z). set (s := coef (ex_sens obj) v) in *. subst z. unfold independent_value in *.
  destruct (Qlt_le_dec (Qabs s) EPS10) as [A|A].
  - destruct D as [D|[D D2]]; [lra|]. split; [exact D2|]. apply as_good_refl. rewrite E, D. ring.
  - assert (NZ : ~ s == 0) by (intros Z0; rewrite Z0 in A; cbv in A; congruence).
    assert (X : forall a b, (a <= b)%Z -> 0 <= inject_Z (b - a)).
    { intros a b H. change 0 with (inject_Z 0). rewrite <- Zle_Qle. lia. }
    assert (Y : forall a b, (a <= b)%Z -> inject_Z (a - b) <= 0).
    { intros a b H. change 0 with (inject_Z 0). rewrite <- Zle_Qle. lia. }
    unfold as_good. destruct (Qlt_le_dec 0 s) as [P|P]; destruct minimize; (split; [lia|]).
    + specialize (Y (va_lower (vs v)) (y v) ltac:(lia)). nra.
    + specialize (X (y v) (va_upper (vs v)) ltac:(lia)). nra.
    + specialize (X (y v) (va_upper (vs v)) ltac:(lia)). nra.
    + specialize (Y (va_lower (vs v)) (y v) ltac:(lia)). nra.
Qed.

Lemma legal_fixed_step vs v z y : legal vs y -> legal (do_fix_by vs v z) (set_val y v z).
Proof.
  intros L w. destruct (fix_by_facts vs v z w) as (F1 & F2 & F3 & F4 & _). rewrite F1, F2, F3, F4. unfold set_val.
  destruct (Nat.eqb w v); [split; [reflexivity|discriminate]|apply L].
Qed.
Lemma legal_unfix_step vs v z y : va_fixed (vs v) = false -> (va_lower (vs v) <= z <= va_upper (vs v))%Z ->
  legal (do_fix_by vs v z) y -> legal vs y.
Proof.
  intros F B L w. destruct (fix_by_facts vs v z w) as (F1 & F2 & F3 & F4 & _). specialize (L w). rewrite F1, F2, F3, F4 in L.
  destruct (Nat.eq_dec w v) as [->|D].
  - rewrite Nat.eqb_refl in L. rewrite F. split; [discriminate|]. intros _. destruct L as [L _]. rewrite L by reflexivity. exact B.
  - apply Nat.eqb_neq in D. rewrite D in L. exact L.
Qed.

Lemma independent_fold cs minimize obj : wf obj -> forall l vs k vs' k' n, decided cs obj vs -> (exists y, legal vs y) ->
  fold_left (fix_independent cs minimize (coef (ex_sens obj))) l (vs, k) = (vs', k') ->
  (forall y, legal vs' y -> legal vs y) /\
  (forall y, solution (mkP n vs cs) y ->
     exists y', solution (mkP n vs' cs) y' /\ as_good minimize (e_eval obj y') (e_eval obj y)).
Proof.
  intros W. induction l as [|v tl IH]; intros vs k vs' k' n D [y0 L0]; cbn [fold_left].
  { intros E. injection E as <- <-. split; [auto|]. intros y S. exists y. split; [exact S|]. now apply as_good_refl. }
  cbn [fix_independent]. destruct (va_fixed (vs v)) eqn:F; [intros E; eapply IH; eauto|].
  destruct (related cs v) eqn:R; [intros E; eapply IH; eauto|].
  set (z := independent_value minimize (coef (ex_sens obj) v) (vs v)). intros E.
  assert (Best : forall y, legal vs y -> (va_lower (vs v) <= z <= va_upper (vs v))%Z /\
    as_good minimize (e_eval obj (set_val y v z)) (e_eval obj y)).
  { intros y L. apply (independent_best cs); auto. apply L; exact F. }
  assert (D1 : decided cs obj (do_fix_by vs v z)).
  { intros w Fw Rw. destruct (fix_by_facts vs v z w) as (F1 & F2 & F3 & F4 & _). rewrite F1 in Fw.
    destruct (Nat.eqb w v); [discriminate|]. rewrite F3, F4. exact (D w Fw Rw). }
  destruct (IH _ _ _ _ n D1 (ex_intro _ _ (legal_fixed_step vs v z y0 L0)) E) as [H1 H2]. split.
  - intros y L. apply (legal_unfix_step vs v z y F); [apply (Best y0 L0)|auto].
  - intros y [L S]. cbn [ps_vars ps_cons] in *. destruct (H2 (set_val y v z)) as (y' & S' & G).
    + split; cbn [ps_vars ps_cons]; [now apply legal_fixed_step|]. intros c I En. apply satisfies_irrelevant; [|now apply S].
      exact (related_false _ _ R c I).
    + exists y'. split; [exact S'|]. eapply as_good_trans; [exact G|]. apply (Best y L).
Qed.

Lemma independent_solutions n cs minimize obj vs vs' k y0 : wf obj -> decided cs obj vs -> legal vs y0 ->
  independent_pass n cs minimize (coef (ex_sens obj)) vs = (vs', k) ->
  (forall y, solution (mkP n vs' cs) y -> solution (mkP n vs cs) y) /\
  (forall y, solution (mkP n vs cs) y ->
     exists y', solution (mkP n vs' cs) y' /\ as_good minimize (e_eval obj y') (e_eval obj y)).
Proof.
  intros W D L E. destruct (independent_fold cs minimize obj W _ _ _ _ _ n D (ex_intro _ _ L) E) as [H1 H2].
  split; [|exact H2]. intros y [L' S]. split; [exact (H1 y L')|exact S].
Qed.

(** The whole reduction keeps an optimum. *)
Lemma independent_moderate cs minimize obj : forall l vs k vs' k', decided cs (mkExpr obj 0) vs -> moderate vs -> moderate_fixed vs ->
  (exists y, legal vs y) ->
  fold_left (fix_independent cs minimize (coef obj)) l (vs, k) = (vs', k') ->
  moderate vs' /\ moderate_fixed vs' /\ (forall n, (number_mutable n vs' <= number_mutable n vs)%nat).
Proof.
  induction l as [|v tl IH]; intros vs k vs' k' D M MF [y0 L0]; cbn [fold_left].
  { intros E. injection E as <- <-. auto. }
  cbn [fix_independent]. destruct (va_fixed (vs v)) eqn:F; [intros E; eapply IH; eauto|].
  destruct (related cs v) eqn:R; [intros E; eapply IH; eauto|].
  set (z := independent_value minimize (coef obj v) (vs v)). intros E.
  assert (B : (va_lower (vs v) <= z <= va_upper (vs v))%Z).
  { assert (B0 : (va_lower (vs v) <= y0 v <= va_upper (vs v))%Z) by (apply L0; exact F).
    specialize (D v F (related_false _ _ R)). cbn [ex_sens] in D. subst z. unfold independent_value.
    destruct (Qlt_le_dec (Qabs (coef obj v)) EPS10); [destruct D as [D|[_ D]]; [lra|exact D]|].
    destruct (Qlt_le_dec 0 (coef obj v)); destruct minimize; lia. }
  destruct (IH (do_fix_by vs v z) (S k) vs' k') as (I1 & I2 & I3); auto.
  - intros w Fw Rw. destruct (fix_by_facts vs v z w) as (F1 & F2 & F3 & F4 & _). rewrite F1 in Fw.
    destruct (Nat.eqb w v); [discriminate|]. rewrite F3, F4. exact (D w Fw Rw).
  - intros w Fw. destruct (fix_by_facts vs v z w) as (F1 & F2 & F3 & F4 & _). rewrite F1 in Fw.
    destruct (Nat.eqb w v); [discriminate|]. rewrite F3, F4. exact (M w Fw).
  - intros w Fw. destruct (fix_by_facts vs v z w) as (F1 & F2 & F3 & F4 & _). rewrite F1 in Fw. rewrite F2.
    destruct (Nat.eqb w v); [|exact (MF w Fw)]. specialize (M v F). lia.
  - exists (set_val y0 v z). now apply legal_fixed_step.
  - split; [exact I1|]. split; [exact I2|]. intros n. etransitivity; [apply I3|]. apply filter_le_length.
    intros w. destruct (fix_by_facts vs v z w) as (F1 & _). rewrite F1. destruct (Nat.eqb w v); [discriminate|auto].
Qed.

Lemma reduce_problem_correct s minimize obj y0 fuel : wf obj -> decided (ps_cons s) obj (ps_vars s) ->
  tame (ps_cons s) -> moderate (ps_vars s) -> moderate_fixed (ps_vars s) -> solution s y0 ->
  (number_enabled (ps_cons s) + number_mutable (ps_number s) (ps_vars s) < fuel)%nat ->
  exists s', reduce_problem_size fuel minimize (coef (ex_sens obj)) s = Some (Ok s') /\
    (forall y, solution s' y -> solution s y) /\
    (forall y, solution s y -> exists y', solution s' y' /\ as_good minimize (e_eval obj y') (e_eval obj y)).
Proof.
  intros W D T M MF S Hf. unfold reduce_problem_size. destruct s as [n vs cs]. cbn [ps_number ps_cons ps_vars] in *.
  destruct (independent_pass n cs minimize (coef (ex_sens obj)) vs) as [vs1 k] eqn:E.
  pose proof (proj1 S) as L. cbn [ps_vars] in L.
  destruct (independent_solutions n cs minimize obj vs vs1 k y0 W D L E) as [A1 A2].
  destruct (independent_moderate cs minimize (ex_sens obj) _ vs _ vs1 k D M MF (ex_intro _ _ L) E) as (B1 & B2 & B3).
  destruct (A2 y0 S) as (y1 & S1 & _).
  destruct (reduce_correct (mkP n vs1 cs) y1 T B1 B2 S1 fuel) as (s' & R1 & R2).
  { cbn [ps_number ps_cons ps_vars]. specialize (B3 n). lia. }
  exists s'. split; [exact R1|]. split.
  - intros y H. apply A1, R2, H.
  - intros y H. destruct (A2 y H) as (y' & H1 & H2). exists y'. split; [apply R2, H1|exact H2].
Qed.

(** * Bounds from the incumbent *)
Lemma objective_bound_sound n minimize obj bound is01 vs primal y : wf obj ->
  (length (mutables vs obj) = 1%nat -> integral_when_fixed vs obj) -> legal vs y ->
  (if minimize && primal then e_eval obj y <= bound else bound <= e_eval obj y) ->
  match update_variable_bounds n minimize primal obj bound is01 vs with
  | Ok vs' => legal vs' y | Throw => False | UB => True end.
Proof.
  intros W Hi L H. unfold update_variable_bounds. cbv zeta.
  set (c := c_setup (e_sub_value obj bound) (if minimize && primal then Less else Greater) is01).
  assert (S : satisfies c y).
  { unfold satisfies, holds, c, c_setup. cbn [ct_expr ct_sense]. pose proof (eval_sub_value obj bound y).
    destruct (minimize && primal)%bool; lra. }
  pose proof (tighten_sound vs c y W Hi L S) as T.
  destruct (tighten vs c) as [[[vs1 off] u]| |]; cbn [bind]; [|exact T|exact Logic.I].
  destruct u; [|exact T]. destruct (implicit_pass n vs1) as [vs2 k] eqn:E. unfold implicit_pass in E.
  destruct (implicit_fold _ (seq_NoDup _ _) _ _ _ _ E) as (B1 & B2 & _). cbn [fst]. now apply B2.
Qed.

(** * Where the claims fail *)
Definition free_var : var := mkVar 0 INT_HALF_MIN INT_HALF_MAX false false VInteger true true.
Definition box (lo hi : Z) : var := mkVar lo lo hi true false (binary_or_integer lo hi) false (lo <? hi)%Z.

(** x >= 200000 over a free x is dropped without becoming a bound. *)
Lemma far_singleton_dropped : exists vs c vs' u y, wf (ct_expr c) /\ integral (ct_expr c) /\ no_zero (ct_expr c) /\ fits (ct_expr c) /\
  tighten vs c = Ok (vs', true, u) /\ legal vs' y /\ ~ satisfies c y.
Proof.
  exists (fun _ => free_var), (c_setup (mkExpr [(0%nat, 1)] (-(200000))) Greater (fun _ => false)), (fun _ => free_var), false, (fun _ => 0%Z).
  split; [repeat constructor; auto|]. split; [intros v a [E|[]]; injection E as <- <-; exists 1%Z; reflexivity|].
  split; [intros v a [E|[]]; injection E as <- <-; discriminate|]. split; [cbv; discriminate|].
  split; [reflexivity|]. split; [intros v; split; [discriminate|]; intros _; cbv; split; discriminate|]. cbv. auto.
Qed.
(** 2x = 1 over x in 0..9: x is fixed at 0 and the constraint is dropped. *)
Lemma half_equality_dropped : exists vs c vs' u, wf (ct_expr c) /\ integral (ct_expr c) /\ no_zero (ct_expr c) /\ fits (ct_expr c) /\
  moderate vs /\ tighten vs c = Ok (vs', true, u) /\ (exists y, legal vs' y) /\ forall y, legal vs y -> ~ satisfies c y.
Proof.
  exists (fun _ => box 0 9), (c_setup (mkExpr [(0%nat, 2)] (-(1))) Equal (fun _ => false)).
  eexists. exists false. split; [repeat constructor; auto|].
  split; [intros v a [E|[]]; injection E as <- <-; exists 2%Z; reflexivity|].
  split; [intros v a [E|[]]; injection E as <- <-; discriminate|]. split; [cbv; discriminate|].
  split; [intros v _; cbv; auto|]. split; [reflexivity|]. split.
  - exists (fun _ => 0%Z). intros v. destruct v; cbv; split; auto; try discriminate. intros _. split; discriminate.
  - intros y L H. unfold satisfies, holds, c_setup in H. cbn [ct_expr ct_sense] in H. rewrite eval_lin in H. cbn [ex_sens ex_const lin] in H.
    assert (X : inject_Z (2 * y 0%nat) == inject_Z 1) by (rewrite inject_Z_mult; change (inject_Z 2) with 2; change (inject_Z 1) with 1; lra).
    apply (proj1 (inject_Z_injective _ _)) in X. lia.
Qed.
(** Two fixed terms of 1/2 count as 0 in the one-variable case: x >= 2 is read off x + y/2 + z/2 >= 2
    with y = z = 1, cutting off x = 1. *)
Lemma half_terms_cut : exists vs c vs' b u y, wf (ct_expr c) /\ moderate vs /\ tighten vs c = Ok (vs', b, u) /\
  legal vs y /\ satisfies c y /\ ~ legal vs' y.
Proof.
  exists (fun v => match v with O => box 0 9 | _ => mkVar 1 0 1 true true VBinary true false end),
    (c_setup (mkExpr [(0%nat, 1); (1%nat, 1#2); (2%nat, 1#2)] (-(2))) Greater (fun _ => false)).
  eexists. exists true, true, (fun _ => 1%Z).
  split; [repeat (constructor; [cbn; intuition discriminate|]); constructor|].
  split; [intros [|v] F; [cbv; auto|discriminate F]|]. split; [reflexivity|].
  split; [intros [|v]; cbv; split; auto; try discriminate; intros _; split; discriminate|].
  split; [cbv; discriminate|]. intros L. destruct (L 0%nat) as [_ L0]. specialize (L0 eq_refl). cbv in L0. destruct L0 as [L0 _]. now apply L0.
Qed.
(** Free variables: x + 10 y <= 0 makes presolve convert a number outside int. *)
Lemma free_overflow : exists vs c, wf (ct_expr c) /\ integral (ct_expr c) /\ no_zero (ct_expr c) /\ (forall v, vs v = free_var) /\
  tighten vs c = UB.
Proof.
  exists (fun _ => free_var), (c_setup (mkExpr [(0%nat, 1); (1%nat, 10)] 0) Less (fun _ => false)).
  split; [repeat (constructor; [cbn; intuition discriminate|]); constructor|].
  split; [intros v a [E|[E|[]]]; injection E as <- <-; [exists 1%Z|exists 10%Z]; reflexivity|].
  split; [intros v a [E|[E|[]]]; injection E as <- <-; discriminate|]. split; [reflexivity|]. reflexivity.
Qed.
(** x + y + 4z - x <= 5: the zero coefficient of x is divided by. *)
Lemma zero_division : exists vs c, c = c_setup (e_sub_value (e_sub (e_add (e_var 0) (e_add (e_var 1) (e_mul (e_var 2) 4))) (e_var 0)) 5) Less (fun _ => false) /\
  moderate vs /\ tighten vs c = UB.
Proof.
  exists (fun _ => box 0 9), (c_setup (e_sub_value (e_sub (e_add (e_var 0) (e_add (e_var 1) (e_mul (e_var 2) 4))) (e_var 0)) 5) Less (fun _ => false)).
  split; [reflexivity|]. split; [intros v _; cbv; auto|]. reflexivity.
Qed.
(** A variable in 3..9 outside constraints and objective is fixed at 0. *)
Lemma independent_outside : exists vs vs' obj, wf obj /\ (exists y, legal vs y) /\
  independent_pass 1 [] true (coef (ex_sens obj)) vs = (vs', 1%nat) /\ forall y, legal vs' y -> ~ legal vs y.
Proof.
  exists (fun _ => box 3 9). eexists. exists (mkExpr [] 0). split; [constructor|].
  split; [exists (fun _ => 3%Z); intros v; cbv; split; [discriminate|]; intros _; split; discriminate|].
  split; [reflexivity|]. intros y L L'. destruct (L 0%nat) as [A _]. specialize (A eq_refl). cbv in A.
  destruct (L' 0%nat) as [_ B]. specialize (B eq_refl). cbv in B. rewrite A in B. destruct B as [B _]. now apply B.
Qed.
(** Maximization with a dual bound: x <= 9, dual bound 20 on the objective 3x: x >= 7 is imposed, cutting off every
    solution of 3x <= 20. *)
Lemma max_dual_wrong : exists vs obj bound vs' y, wf obj /\ integral obj /\
  update_variable_bounds 2 false false obj bound (fun _ => false) vs = Ok vs' /\
  legal vs y /\ e_eval obj y <= bound /\ (exists z, legal vs' z) /\ ~ legal vs' y.
Proof.
  exists (fun _ => box 0 9), (mkExpr [(0%nat, 3)] 0), 20. eexists. exists (fun _ => 2%Z).
  split; [repeat constructor; auto|]. split; [intros v a [E|[]]; injection E as <- <-; exists 3%Z; reflexivity|].
  split; [reflexivity|]. split; [intros v; cbv; split; [discriminate|]; intros _; split; discriminate|].
  split; [cbv; discriminate|]. split.
  - exists (fun _ => 9%Z). intros v. destruct v as [|[|v]]; cbv; (split; [discriminate|]); intros _; split; discriminate.
  - intros L. destruct (L 0%nat) as [_ L0]. specialize (L0 eq_refl). cbv in L0. destruct L0 as [L0 _]. now apply L0.
Qed.
