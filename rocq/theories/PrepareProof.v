(** Proofs for C73: problems with definitions against problems without. *)
From Coq Require Import List ZArith QArith Qabs Qround Bool Arith Lia Lqa.
From Verif Require Import ExprModel ExprSpec ExprProof ConstraintModel ConstraintSpec VariableModel TypeModel TypeSpec PresolveModel PresolveSpec
  DuplicateModel DuplicateSpec DependentModel DependentSpec SelectionModel SelectionSpec PrepareModel PrepareSpec.
From Verif Require Import PresolveProof PresolveProof3 PresolveProof4 PresolveProof5.
Import ListNotations.
Local Open Scope Q_scope.

Definition refines (minimize : bool) (s s' : dstate) : Prop :=
  (forall x, solves s' x -> solves s x /\ e_eval (ds_obj s') x == e_eval (ds_obj s) x) /\
  (forall x, solves s x -> exists x', solves s' x' /\ as_good minimize (e_eval (ds_obj s) x') (e_eval (ds_obj s) x)).
Lemma as_good_eq m a a' b b' : a == a' -> b == b' -> as_good m a b -> as_good m a' b'.
Proof. intros E F. unfold as_good. destruct m; rewrite E, F; auto. Qed.
Lemma refines_refl m s : refines m s s.
Proof. split; [intros x S; split; [exact S|reflexivity]|]. intros x S. exists x. split; [exact S|]. apply as_good_refl. reflexivity. Qed.
Lemma refines_trans m a b c : refines m a b -> refines m b c -> refines m a c.
Proof.
  intros [A1 A2] [B1 B2]. split.
  - intros x S. destruct (B1 x S) as [Sb Eb]. destruct (A1 x Sb) as [Sa Ea]. split; [exact Sa|]. rewrite Eb. exact Ea.
  - intros x S. destruct (A2 x S) as (x1 & S1 & G1). destruct (B2 x1 S1) as (x2 & S2 & G2). exists x2. split; [exact S2|].
    apply as_good_trans with (e_eval (ds_obj a) x1); [|exact G1].
    apply (as_good_eq m (e_eval (ds_obj b) x2) _ (e_eval (ds_obj b) x1)); [| |exact G2].
    + apply A1. apply B1. exact S2.
    + apply A1. exact S1.
Qed.
Lemma refines_feasible m s s' : refines m s s' -> (exists x, solves s x) -> exists x, solves s' x.
Proof. intros [_ H] [x S]. destruct (H x S) as (x' & S' & _). exists x'. exact S'. Qed.

Lemma eval_agree e x y : (forall v, In v (keys e) -> x v = y v) -> e_eval e x == e_eval e y.
Proof.
  rewrite !eval_lin. unfold keys. generalize (ex_const e) as k. intros k. induction (ex_sens e) as [|[w a] tl IH]; intros H; [reflexivity|].
  cbn [lin map fst] in *. rewrite (H w (or_introl eq_refl)). specialize (IH (fun v I => H v (or_intror I))). lra.
Qed.
Lemma satisfies_agree c x y : (forall v, In v (keys (ct_expr c)) -> x v = y v) -> satisfies c x -> satisfies c y.
Proof.
  intros H. unfold satisfies, holds. pose proof (eval_agree _ _ _ H) as E. destruct (ct_sense c); rewrite E; auto.
Qed.

(** ** Values for the defined variables *)
Definition fill (s : dstate) (x : nat -> Z) (v : nat) : Z :=
  match ds_dep s v with
  | None => x v
  | Some _ => if va_fixed (ds_vars s v) then va_value (ds_vars s v) else va_lower (ds_vars s v)
  end.
Definition define (s : dstate) (y : nat -> Z) (v : nat) : Z :=
  match ds_dep s v with None => y v | Some k => Qfloor (e_eval (nth k (ds_exprs s) no_expr) y) end.

Lemma fill_free s x v : ds_dep s v = None -> fill s x v = x v.
Proof. unfold fill. intros ->. reflexivity. Qed.
Lemma define_free s y v : ds_dep s v = None -> define s y v = y v.
Proof. unfold define. intros ->. reflexivity. Qed.

Section Bridge.
  Variable s : dstate.
  Hypothesis Co : coherent s.
  Hypothesis Cl : clean s.

  Lemma con_free c v : In c (ds_cons s) -> ct_enabled c = true -> In v (keys (ct_expr c)) -> ds_dep s v = None.
  Proof.
    intros I En K. destruct (ds_dep s v) as [k|] eqn:E; [|reflexivity]. exfalso.
    destruct (proj1 (co_dep s Co v)) as [L D]; [congruence|]. exact (cl_cons s Cl v c L D I En K).
  Qed.
  Lemma obj_free v : In v (keys (ds_obj s)) -> ds_dep s v = None.
  Proof.
    intros K. destruct (ds_dep s v) as [k|] eqn:E; [|reflexivity]. exfalso.
    destruct (proj1 (co_dep s Co v)) as [L D]; [congruence|]. exact (cl_obj s Cl v L D K).
  Qed.
  Lemma expr_free e v : In e (ds_exprs s) -> In v (keys e) -> ds_dep s v = None.
  Proof.
    intros I K. destruct (ds_dep s v) as [k|] eqn:E; [|reflexivity]. exfalso.
    destruct (proj1 (co_dep s Co v)) as [L D]; [congruence|]. exact (cl_exprs s Cl v e L D I K).
  Qed.
  Lemma obj_agree x y : (forall v, ds_dep s v = None -> x v = y v) -> e_eval (ds_obj s) x == e_eval (ds_obj s) y.
  Proof. intros H. apply eval_agree. intros v K. apply H, obj_free, K. Qed.
  Lemma cons_agree x y : (forall v, ds_dep s v = None -> x v = y v) -> satisfies_all (ds_cons s) x -> satisfies_all (ds_cons s) y.
  Proof. intros H S c I En. apply (satisfies_agree c x y); [|apply S; assumption]. intros v K. apply H. eapply con_free; eauto. Qed.

  Lemma fill_solution x : (forall v, va_lower (ds_vars s v) <= va_upper (ds_vars s v))%Z -> solves s x ->
    solution (mkP (ds_number s) (ds_vars s) (ds_cons s)) (fill s x).
  Proof.
    intros B [R C D]. split; cbn [ps_vars ps_cons].
    - intros v. destruct (ds_dep s v) as [k|] eqn:E.
      + unfold fill. rewrite E. destruct (va_fixed (ds_vars s v)); split; try reflexivity; try discriminate. intros _. specialize (B v). lia.
      + rewrite (fill_free s x v E). specialize (R v E). unfold within in R. destruct (va_fixed (ds_vars s v)); split; try discriminate; auto.
    - apply (cons_agree x (fill s x)); [|exact C]. intros v E. symmetry. apply fill_free, E.
  Qed.
  Lemma fill_back x : solution (mkP (ds_number s) (ds_vars s) (ds_cons s)) (fill s x) ->
    (forall v k, ds_dep s v = Some k -> inject_Z (x v) == e_eval (nth k (ds_exprs s) no_expr) x) -> solves s x.
  Proof.
    intros [L S] D. cbn [ps_vars ps_cons] in *. constructor; [|apply (cons_agree (fill s x) x); [|exact S]|exact D].
    - intros v E. destruct (L v) as [L1 L2]. rewrite (fill_free s x v E) in L1, L2. unfold within. destruct (va_fixed (ds_vars s v)); auto.
    - intros v E. apply fill_free, E.
  Qed.
  Lemma define_solves y : (forall e, In e (ds_exprs s) -> whole e) -> solution (mkP (ds_number s) (ds_vars s) (ds_cons s)) y -> solves s (define s y).
  Proof.
    intros W [L S]. cbn [ps_vars ps_cons] in *. constructor.
    - intros v E. rewrite (define_free s y v E). destruct (L v) as [L1 L2]. unfold within. destruct (va_fixed (ds_vars s v)); auto.
    - apply (cons_agree y); [|exact S]. intros v E. symmetry. apply define_free, E.
    - intros v k E. pose proof (nth_In (ds_exprs s) no_expr (co_bound s Co v k E)) as I.
      set (e := nth k (ds_exprs s) no_expr) in *. assert (A : e_eval e (define s y) == e_eval e y).
      { apply eval_agree. intros w K. apply define_free. exact (expr_free e w I K). }
      rewrite A. unfold define. rewrite E. fold e. destruct (W e I) as [[z Z] V].
      assert (X : exists z, ex_const e + lin (ex_sens e) y == inject_Z z).
      { clear A. revert V. induction (ex_sens e) as [|[w a] tl IH]; intros V.
        - exists z. cbn [lin]. rewrite Z. ring.
        - destruct (IH (fun v a I => V v a (or_intror I))) as [z1 E1]. destruct (V w a (or_introl eq_refl)) as [z2 E2].
          exists (z1 + z2 * y w)%Z. cbn [lin]. rewrite inject_Z_plus, inject_Z_mult, <- E1, <- E2. ring. }
      destruct X as [z' X]. rewrite <- eval_lin in X. rewrite (Qfloor_comp _ _ X), Qfloor_Z. symmetry. exact X.
  Qed.
End Bridge.

Lemma lift m s vs' cs' : let s' := mkD (ds_number s) vs' cs' (ds_obj s) (ds_exprs s) (ds_dep s) in
  coherent s -> clean s -> coherent s' -> clean s' ->
  (forall v, va_lower (ds_vars s v) <= va_upper (ds_vars s v))%Z -> (forall v, va_lower (vs' v) <= va_upper (vs' v))%Z ->
  (forall e, In e (ds_exprs s) -> whole e) ->
  (forall y, solution (mkP (ds_number s) vs' cs') y -> solution (mkP (ds_number s) (ds_vars s) (ds_cons s)) y) ->
  (forall y, solution (mkP (ds_number s) (ds_vars s) (ds_cons s)) y ->
     exists y', solution (mkP (ds_number s) vs' cs') y' /\ as_good m (e_eval (ds_obj s) y') (e_eval (ds_obj s) y)) ->
  refines m s s'.
Proof.
  intros s' Co Cl Co' Cl' B B' W H1 H2. split.
  - intros x S. split; [|reflexivity]. apply (fill_back s Co Cl); [|intros v k E; exact (sv_defs s' x S v k E)].
    pose proof (H1 _ (fill_solution s' Co' Cl' x B' S)) as [L P]. cbn [ps_vars ps_cons] in *. split; cbn [ps_vars ps_cons].
    + intros v. destruct (ds_dep s v) as [k|] eqn:E.
      * unfold fill. rewrite E. destruct (va_fixed (ds_vars s v)); split; try reflexivity; try discriminate. intros _. specialize (B v). lia.
      * rewrite (fill_free s x v E). rewrite <- (fill_free s' x v E). apply L.
    + apply (cons_agree s Co Cl (fill s' x)); [|exact P]. intros v E. rewrite (fill_free s x v E). apply fill_free. exact E.
  - intros x S. destruct (H2 _ (fill_solution s Co Cl x B S)) as (y' & S' & G). exists (define s' y'). split.
    + apply (define_solves s' Co' Cl' y' W S').
    + apply (as_good_eq m (e_eval (ds_obj s) y') _ (e_eval (ds_obj s) (fill s x))); [| |exact G].
      * apply (obj_agree s Co Cl). intros v E. symmetry. apply (define_free s'). exact E.
      * apply (obj_agree s Co Cl). intros v E. apply fill_free, E.
Qed.
