(** Proofs for C73: optimal solutions; a model that goes through every phase. *)
From Coq Require Import List NArith ZArith QArith Qabs Bool Arith Permutation Lia Lqa.
From Verif Require Import ExprModel ExprSpec ExprProof ConstraintModel ConstraintSpec VariableModel TypeModel TypeSpec PresolveModel PresolveSpec
  DuplicateModel DuplicateSpec DependentModel DependentSpec SelectionModel SelectionSpec PrepareModel PrepareSpec.
From Verif Require Import PresolveProof5 DependentProof6 PrepareProof PrepareProof4 PrepareProof5.
Import ListNotations.
Local Open Scope nat_scope.

Lemma as_good_trans m a b c : as_good m a b -> as_good m b c -> as_good m a c.
Proof. destruct m; unfold as_good; intros; lra. Qed.
Lemma optimum_kept m s r : keeps_optimum m s r ->
  (forall x, optimal_prepared m r x -> optimal m s x) /\
  (forall x, optimal m s x -> exists y, optimal_prepared m r y /\ (e_eval (ds_obj (fst r)) y == e_eval (ds_obj s) x)%Q).
Proof.
  intros [K1 K2]. split.
  - intros x [Mx O]. destruct (K1 x Mx) as [Sx Ex]. split; [exact Sx|]. intros y Sy. destruct (K2 y Sy) as (y' & My & G).
    destruct (K1 y' My) as [_ Ey]. specialize (O y' My). apply as_good_trans with (e_eval (ds_obj s) y'); [|exact G]. exact (as_good_eq _ _ _ _ _ Ex Ey O).
  - intros x [Sx O]. destruct (K2 x Sx) as (y & My & G). destruct (K1 y My) as [Sy Ey]. exists y. split.
    + split; [exact My|]. intros z Mz. destruct (K1 z Mz) as [Sz Ez].
      apply (as_good_eq m (e_eval (ds_obj s) y) _ (e_eval (ds_obj s) z)); [symmetry; exact Ey|symmetry; exact Ez|].
      apply as_good_trans with (e_eval (ds_obj s) x); [exact G|apply O, Sz].
    + rewrite Ey. specialize (O y Sy). destruct m; unfold as_good in *; lra.
Qed.

Lemma prepare_without sw su m s : proper_model s -> (exists x, solves s x) ->
  wants_dependents sw = false -> sw_set_vars sw = false ->
  calm_rounds sw su m s /\ calm_sets sw su m s.
Proof.
  intros _ _ W V. split.
  - intros fuel s1 _ _ X. congruence.
  - intros fuel s1 s2 _ _ _ X. congruence.
Qed.

Lemma reduce_same f g sw su m s a b : prepare_reduce f sw su m s = Some (Ok a) -> prepare_reduce g sw su m s = Some (Ok b) -> a = b.
Proof.
  intros A B. apply (reduce_more_fuel f (f + g)) in A; [|lia]. apply (reduce_more_fuel g (f + g)) in B; [|lia]. congruence.
Qed.
Lemma loop_more opt names m f : forall g s r, dependent_loop f opt names m s = Some r -> f <= g -> dependent_loop g opt names m s = Some r.
Proof.
  induction f as [|f IH]; intros g s r E L; [discriminate|]. destruct g as [|g]; [lia|]. cbn [dependent_loop] in *.
  destruct (extract opt names s) as [[[|k] s1]|]; [exact E| |exact E].
  destruct (eliminate_loop (S f) s1) as [s2|] eqn:E2; [|discriminate]. rewrite (eliminate_more _ (S g) _ _ E2) by lia.
  destruct (reduce_problem_size (S f) m _ _) as [o|] eqn:E3; [|discriminate]. rewrite (size_more _ (S g) _ _ _ _ E3) by lia.
  destruct o; [|exact E|exact E]. apply IH; [exact E|lia].
Qed.
Lemma dependents_same f g sw su m s a b : prepare_dependents f sw su m s = Some (Ok a) -> prepare_dependents g sw su m s = Some (Ok b) -> a = b.
Proof.
  unfold prepare_dependents. destruct (_ && _); [|congruence]. intros A B. apply (loop_more _ _ _ f (f + g)) in A; [|lia]. apply (loop_more _ _ _ g (f + g)) in B; [|lia]. congruence.
Qed.

(** ** Checks by computation *)
Fixpoint nodup_b (l : list nat) : bool := match l with [] => true | a :: tl => negb (existsb (Nat.eqb a) tl) && nodup_b tl end.
Lemma nodup_b_ok l : nodup_b l = true -> NoDup l.
Proof.
  induction l as [|a l IH]; intros H; [constructor|]. cbn [nodup_b] in H. apply andb_true_iff in H as [A B]. constructor; [|apply IH, B].
  intros I. apply negb_true_iff in A. assert (X : existsb (Nat.eqb a) l = true) by (apply existsb_exists; exists a; split; [exact I|apply Nat.eqb_refl]). congruence.
Qed.
Definition int_b (q : Q) : bool := Pos.eqb (Qden (Qred q)) 1.
Lemma int_b_ok q : int_b q = true -> exists z, (q == inject_Z z)%Q.
Proof.
  intros H. apply Pos.eqb_eq in H. exists (Qnum (Qred q)). rewrite <- (Qred_correct q) at 1. destruct (Qred q) as [a b]. cbn in *. subst b. reflexivity.
Qed.
Definition tame_b (cs : list constr) : bool := forallb (fun c => negb (ct_enabled c) ||
  nodup_b (keys (ct_expr c)) && forallb (fun p => int_b (snd p) && negb (Qeq_bool (snd p) 0)) (ex_sens (ct_expr c)) &&
  Qle_bool (Qabs (ex_const (ct_expr c)) + inject_Z BOUND_LIMIT * abs_sum (ex_sens (ct_expr c))) (inject_Z INT_MAX)) cs.
Lemma tame_b_ok cs : tame_b cs = true -> tame cs.
Proof.
  intros H c I En. unfold tame_b in H. rewrite forallb_forall in H. specialize (H c I). rewrite En in H. cbn [negb orb] in H.
  apply andb_true_iff in H as [H C]. apply andb_true_iff in H as [A B]. rewrite forallb_forall in B.
  split; [exact (nodup_b_ok _ A)|]. split; [|split].
  - intros v a J. specialize (B _ J). apply andb_true_iff in B as [B _]. exact (int_b_ok _ B).
  - intros v a J E. specialize (B _ J). apply andb_true_iff in B as [_ B]. apply negb_true_iff in B. cbn [snd] in B. apply Qeq_bool_iff in E. congruence.
  - apply Qle_bool_iff, C.
Qed.
Definition whole_b (e : expr) : bool := int_b (ex_const e) && forallb (fun p => int_b (snd p)) (ex_sens e).
Lemma whole_b_ok l : forallb whole_b l = true -> forall e, In e l -> whole e.
Proof.
  intros H e I. rewrite forallb_forall in H. specialize (H e I). apply andb_true_iff in H as [A B]. rewrite forallb_forall in B.
  split; [exact (int_b_ok _ A)|]. intros v a J. exact (int_b_ok _ (B _ J)).
Qed.
Definition flags_b (cs : list constr) : bool := forallb (fun c => negb (ct_enabled c) || negb (ct_only_binary_coef c) ||
  forallb (fun p => Qeq_bool (snd p) 1) (ex_sens (ct_expr c))) cs.
Lemma flags_b_ok cs : flags_b cs = true -> unit_flags cs.
Proof.
  intros H c I En Fl v a J. unfold flags_b in H. rewrite forallb_forall in H. specialize (H c I). rewrite En, Fl in H. cbn [negb orb] in H.
  rewrite forallb_forall in H. exact (proj1 (Qeq_bool_iff _ _) (H _ J)).
Qed.
Lemma decided_zero cs obj vs : (forall v, (va_lower (vs v) <= 0 <= va_upper (vs v))%Z) ->
  forallb (fun p => Qle_bool EPS10 (Qabs (snd p))) (ex_sens obj) = true -> decided cs obj vs.
Proof.
  intros Z H v _ _. unfold coef. destruct (sens_find (ex_sens obj) v) as [a|] eqn:E; [|right; split; [reflexivity|apply Z]].
  left. apply find_in in E. rewrite forallb_forall in H. exact (proj1 (Qle_bool_iff _ _) (H _ E)).
Qed.

(** ** The model *)
Definition pv (lo hi : Z) : var := mkVar lo lo hi true false (binary_or_integer lo hi) false (lo <? hi)%Z.
Definition p_vars : vars := fun v => if v <? 5 then pv 0 1 else if v <? 7 then pv 0 3 else pv 0 0.
Definition p_con (l : list (nat * Q)) (k : Q) (s : csense) : constr := c_setup (mkExpr l k) s (is01_of p_vars).
(** Exactly one of x0, x1, x2; x2 + x3 <= 1 twice; x5 + x6 = 3; x5 + x3 + 2 x4 >= 2. *)
Definition p_cons : list constr :=
  [p_con [(0, 1%Q); (1, 1%Q); (2, 1%Q)] (-(1))%Q Equal; p_con [(2, 1%Q); (3, 1%Q)] (-(1))%Q Less; p_con [(3, 1%Q); (2, 1%Q)] (-(1))%Q Less;
   p_con [(5, 1%Q); (6, 1%Q)] (-(3))%Q Equal; p_con [(5, 1%Q); (3, 1%Q); (4, 2%Q)] (-(2))%Q Greater].
Definition p_obj : expr := mkExpr [(0, 3%Q); (1, 2%Q); (2, 1%Q); (3, 1%Q); (4, 3%Q); (6, (-(1))%Q)] 0%Q.
Definition p_model : dstate := mkD 7 p_vars p_cons p_obj [] (fun _ => None).
Definition p_switches : switches := mkSw true true true true true (fun _ => true) Smaller true.
Definition p_around : surroundings := mkSu N.of_nat N.of_nat (fun v => v) (fun v => v) (fun _ => false) (fun _ _ => []).
Definition p_start (v : nat) : Z := match v with 2 | 6 => 1%Z | 5 => 2%Z | _ => 0%Z end.

Ltac every v := destruct v as [|[|[|[|[|[|[|v]]]]]]].
Lemma p_bounds v : (va_lower (p_vars v) <= 0 <= va_upper (p_vars v))%Z.
Proof. every v; vm_compute; split; discriminate. Qed.
Lemma p_proper : proper_model p_model.
Proof.
  constructor; cbn [p_model ds_dep ds_exprs ds_cons ds_vars ds_obj].
  - constructor; cbn [p_model ds_dep ds_exprs ds_cons ds_vars ds_obj ds_number].
    + apply nodup_b_ok. reflexivity.
    + intros c I. cbn [p_cons In] in I. destruct I as [<-|[<-|[<-|[<-|[<-|[]]]]]]; (split; [apply nodup_b_ok; reflexivity|]); intros v J; cbn in J; lia.
    + intros e [].
    + intros v. split; [contradiction|]. intros [L [E|E]]; exfalso; revert E; every v; vm_compute; discriminate.
    + discriminate.
    + discriminate.
  - reflexivity.
  - reflexivity.
  - intros c I. cbn [p_cons In] in I. destruct I as [<-|[<-|[<-|[<-|[<-|[]]]]]]; reflexivity.
  - apply tame_b_ok. vm_compute. reflexivity.
  - intros v _. every v; vm_compute; split; reflexivity.
  - intros v F. exfalso. revert F. every v; vm_compute; discriminate.
  - intros v. unfold sound. every v; vm_compute; (split; [discriminate|]); (split; [|discriminate]); intros H; split; try discriminate; destruct H as [H|[H|H]]; discriminate.
  - intros c I. split.
    + intros F. apply (flags_b_ok p_cons); [vm_compute; reflexivity|exact I| |exact F].
      cbn [p_cons In] in I. destruct I as [<-|[<-|[<-|[<-|[<-|[]]]]]]; reflexivity.
    + cbn [p_cons In] in I. destruct I as [<-|[<-|[<-|[<-|[<-|[]]]]]]; vm_compute; intros F; try discriminate; intros v J; repeat (destruct J as [<-|J]; [now left|]); destruct J.
  - apply decided_zero; [exact p_bounds|vm_compute; reflexivity].
Qed.
Lemma p_feasible : solves p_model p_start.
Proof.
  constructor; cbn [p_model ds_dep ds_exprs ds_cons ds_vars ds_obj].
  - intros v _. every v; vm_compute; split; discriminate.
  - intros c I _. cbn [p_cons In] in I. destruct I as [<-|[<-|[<-|[<-|[<-|[]]]]]]; vm_compute; try reflexivity; discriminate.
  - discriminate.
Qed.

Definition ok_or {A} (o : option (outcome A)) (a : A) : A := match o with Some (Ok b) => b | _ => a end.
Definition p_reduced : dstate := ok_or (prepare_reduce 10 p_switches p_around true p_model) p_model.
Definition p_extracted : dstate := match extract (fun _ => true) (fun v => v) p_reduced with Some (_, s) => s | None => p_model end.
Definition p_eliminated : dstate := match eliminate_loop 3 p_extracted with Some s => s | None => p_model end.
Definition p_size : pstate := ok_or (reduce_problem_size 10 true (coef (ex_sens (ds_obj p_eliminated)))
  (mkP (ds_number p_eliminated) (ds_vars p_eliminated) (ds_cons p_eliminated))) (mkP 0 p_vars []).
Definition p_after : dstate := after p_eliminated p_size.
Lemma p_reduced_eq : prepare_reduce 10 p_switches p_around true p_model = Some (Ok p_reduced).
Proof. unfold p_reduced. destruct (prepare_reduce 10 p_switches p_around true p_model) as [[s| |]|] eqn:E; try reflexivity; exfalso; vm_compute in E; discriminate E. Qed.
Lemma p_extracted_eq : extract (fun _ => true) (fun v => v) p_reduced = Some (1, p_extracted).
Proof.
  unfold p_extracted. destruct (extract (fun _ => true) (fun v => v) p_reduced) as [[k s]|] eqn:E; [|exfalso; vm_compute in E; discriminate E].
  assert (K : match extract (fun _ => true) (fun v => v) p_reduced with Some (k, _) => k | None => 0 end = 1) by (vm_compute; reflexivity). rewrite E in K. congruence.
Qed.
Lemma p_eliminated_eq : eliminate_loop 3 p_extracted = Some p_eliminated.
Proof. unfold p_eliminated. destruct (eliminate_loop 3 p_extracted) as [s|] eqn:E; [reflexivity|]. exfalso. vm_compute in E. discriminate E. Qed.
Lemma p_size_eq : reduce_problem_size 10 true (coef (ex_sens (ds_obj p_eliminated))) (mkP (ds_number p_eliminated) (ds_vars p_eliminated) (ds_cons p_eliminated)) = Some (Ok p_size).
Proof. unfold p_size. destruct (reduce_problem_size 10 true _ _) as [[s| |]|] eqn:E; try reflexivity; exfalso; vm_compute in E; discriminate E. Qed.
Lemma p_after_eq : exists s, extract (fun _ => true) (fun v => v) p_after = Some (0, s).
Proof.
  destruct (extract (fun _ => true) (fun v => v) p_after) as [[k s]|] eqn:E; [|exfalso; vm_compute in E; discriminate E].
  assert (K : match extract (fun _ => true) (fun v => v) p_after with Some (k, _) => k | None => 1 end = 0) by (vm_compute; reflexivity). rewrite E in K. subst k. eauto.
Qed.
Lemma p_extracted_dep v : ds_dep p_extracted v = match v with 5 => Some 0 | _ => None end.
Proof. every v; vm_compute; reflexivity. Qed.
Lemma p_extracted_exprs : ds_exprs p_extracted = [mkExpr [(6, (-(1))%Q)] 3%Q].
Proof. vm_compute. reflexivity. Qed.
Lemma p_acyclic : acyclic p_extracted.
Proof.
  exists (fun _ => 0). intros v k w E J N. exfalso. rewrite p_extracted_exprs in J. rewrite p_extracted_dep in E, N.
  assert (k = 0) by (every v; congruence). subst k. cbn in J. destruct J as [<-|[]]. apply N. reflexivity.
Qed.
Lemma p_calm f : calm f (fun _ => true) (fun v => v) true p_reduced.
Proof.
  destruct f as [|f]; [exact Logic.I|]. cbn [calm]. rewrite p_extracted_eq. split; [exact p_acyclic|].
  destruct (eliminate_loop (S f) p_extracted) as [t|] eqn:E; [|exact Logic.I].
  assert (t = p_eliminated).
  { apply (eliminate_more _ (S f + 3)) in E; [|lia]. pose proof (eliminate_more _ (S f + 3) _ _ p_eliminated_eq ltac:(lia)). congruence. }
  subst t. clear E. split; [apply tame_b_ok; vm_compute; reflexivity|]. split.
  { apply decided_zero; [|vm_compute; reflexivity]. intros v. every v; vm_compute; split; discriminate. }
  split; [apply whole_b_ok; vm_compute; reflexivity|]. split; [apply flags_b_ok; vm_compute; reflexivity|].
  destruct (reduce_problem_size (S f) true _ _) as [[p| |]|] eqn:E; try exact Logic.I.
  assert (p = p_size).
  { apply (size_more _ (S f + 10)) in E; [|lia]. pose proof (size_more _ (S f + 10) _ _ _ _ p_size_eq ltac:(lia)). congruence. }
  subst p. change (calm f (fun _ => true) (fun v => v) true p_after). destruct f as [|f]; [exact Logic.I|]. cbn [calm]. destruct p_after_eq as [s ->]. exact Logic.I.
Qed.
Definition p_defined : dstate := ok_or (prepare_dependents 10 p_switches p_around true p_reduced) p_model.
Lemma p_defined_eq : prepare_dependents 10 p_switches p_around true p_reduced = Some (Ok p_defined).
Proof. unfold p_defined. destruct (prepare_dependents 10 _ _ _ _) as [[s| |]|] eqn:E; try reflexivity; exfalso; vm_compute in E; discriminate E. Qed.
Lemma p_calm_rounds : calm_rounds p_switches p_around true p_model.
Proof. intros fuel s1 E _ _ f. rewrite (reduce_same _ _ _ _ _ _ _ _ E p_reduced_eq). exact (p_calm f). Qed.
Lemma p_calm_sets : calm_sets p_switches p_around true p_model.
Proof.
  intros fuel s1 s2 E E2 _ _. rewrite (reduce_same _ _ _ _ _ _ _ _ E p_reduced_eq) in E2. rewrite (dependents_same _ _ _ _ _ _ _ _ E2 p_defined_eq).
  left. intros v. every v; vm_compute; reflexivity.
Qed.
(** What comes out: one definition, one duplicate and the equation off, one selection. *)
Definition p_result : dstate * list sel := ok_or (prepare 10 p_switches p_around true p_model) (p_model, []).
Lemma p_result_eq : prepare 10 p_switches p_around true p_model = Some (Ok p_result) /\
  map ct_enabled (ds_cons (fst p_result)) = [false; true; false; false; true] /\ ds_exprs (fst p_result) = [mkExpr [(6, (-(1))%Q)] 3%Q] /\
  map (ds_dep (fst p_result)) (seq 0 7) = [None; None; None; None; None; Some 0; None] /\ map sl_vars (snd p_result) = [[2; 0; 1]] /\
  map (fun v => va_value (ds_vars (fst p_result) v)) (seq 0 7) = [0; 0; 1; 0; 0; 0; 0]%Z.
Proof.
  split; [|vm_compute; repeat split].
  unfold p_result. destruct (prepare 10 _ _ _ _) as [[r| |]|] eqn:E; try reflexivity; exfalso; vm_compute in E; discriminate E.
Qed.
