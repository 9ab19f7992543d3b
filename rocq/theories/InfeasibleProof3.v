(** Proofs for C81: the preparation of a model with inequalities only, and the answer. *)
From Coq Require Import List NArith ZArith QArith Qabs Bool Arith Lia Lqa Permutation.
From Verif Require Import ExprModel ExprSpec ExprProof ConstraintModel ConstraintSpec VariableModel TypeModel TypeSpec PresolveModel PresolveSpec
  DuplicateModel DuplicateSpec DependentModel DependentSpec SelectionModel SelectionSpec PrepareModel PrepareSpec EvalModel TabuModel WholeModel WholeSpec InfeasibleSpec.
From Verif Require Import SolverModel SolverSpec RelaxModel OfferModel ParityModel TruthSpec.
From Verif Require Import DuplicateProof DuplicateProof2 DuplicateProof3 DependentProof3 DependentProof6 PrepareProof PrepareProof2 PrepareProof3 PrepareProof4 PrepareProof5
  WholeProof WholeProof3 TruthProof3 ParityProof4 InfeasibleProof InfeasibleProof2.
From Verif Require ScreenModel PresolveProof5.
Import ListNotations.
Local Open Scope nat_scope.

(** ** Which types an inequality can have *)
Lemma partition_equal x c : fst (classify x c) = ExclusiveOR \/ fst (classify x c) = SetPartitioning -> ct_sense c = Equal.
Proof.
  destruct (classify x c) as [t key] eqn:E. cbn [fst]. intros T. unfold classify in E. cbn [first_verdict] in E.
  assert (Sin : forall r, b_singleton c = Some r -> r = (Singleton, None)) by (unfold b_singleton; destruct (_ =? _); congruence).
  destruct (b_singleton c) as [r|]; [rewrite (Sin r eq_refl) in E; injection E as <- <-; destruct T as [T|T]; discriminate T|].
  destruct (b_pair_equal x c) as [r|] eqn:Ep.
  { revert Ep. unfold b_pair_equal. destruct (ex_sens (ct_expr c)) as [|[v0 c0] [|[v1 c1] [|]]]; try (intros X; discriminate X).
    match goal with |- (if ?b then _ else _) = _ -> _ => destruct b eqn:G end; [|intros X; discriminate X].
    bools. intros _. apply equal_sense. assumption. }
  destruct (b_pair_inequality x c) as [r|] eqn:Ei.
  { exfalso. subst r. revert Ei. unfold b_pair_inequality. destruct (ex_sens (ct_expr c)) as [|[v0 c0] [|[v1 c1] [|]]]; try discriminate.
    walk; intros F; try discriminate; injection F as <- <-; destruct T as [T|T]; discriminate T. }
  destruct (b_trinomial x c) as [r|] eqn:Et.
  { exfalso. subst r. revert Et. unfold b_trinomial. destruct (_ && _); [|discriminate].
    destruct (with_coef c 1) as [|? [|? [|]]]; destruct (with_coef c (-(2))) as [|? [|]];
      destruct (with_coef c (-(1))) as [|? [|? [|]]]; destruct (with_coef c 2) as [|? [|]];
      intros F; try discriminate; injection F as <- <-; destruct T as [T|T]; discriminate T. }
  destruct (b_set c) as [r|] eqn:Es.
  { subst r. revert Es. unfold b_set. walk; intros F; try discriminate F; injection F as <- <-; destruct T as [T|T]; try discriminate T; bools; apply equal_sense; assumption. }
  destruct (b_flow x c) as [r|] eqn:Ef.
  { exfalso. subst r. revert Ef. unfold b_flow. cbv zeta. destruct (_ && _); [|discriminate]. destruct (forallb _ _).
    - lists; walk; lists; walk; intros F; try discriminate; injection F as <- <-; destruct T as [T|T]; discriminate T.
    - walk; intros F; try discriminate; injection F as <- <-; destruct T as [T|T]; discriminate T. }
  destruct (b_minmax x c) as [r|] eqn:Em.
  { exfalso. subst r. revert Em. unfold b_minmax. destruct (ct_is_integer c); [|discriminate]. cbv zeta.
    lists; walk; intros F; try discriminate; injection F as <- <-; destruct T as [T|T]; discriminate T. }
  destruct (b_knapsack x c) as [r|] eqn:Ek.
  { exfalso. subst r. revert Ek. unfold b_knapsack. cbv zeta. walk; intros F; try discriminate; injection F as <- <-; destruct T as [T|T]; discriminate T. }
  destruct (b_gf2 x c) as [r|] eqn:Eg; [|injection E as <- <-; destruct T as [T|T]; discriminate T].
  exfalso. subst r. revert Eg. unfold b_gf2. destruct ((qe _ _ || _) && _ && _); [|discriminate].
  destruct (filter _ _) as [|[k a] [|]]; try discriminate. cbv zeta.
  destruct (if ltq 0 a then _ else _) as [lo hi]. walk; intros F; try discriminate. injection F as <- <-. destruct T as [T|T]; discriminate T.
Qed.

Lemma no_partitions x cs t : (forall c, In c cs -> ct_sense c <> Equal) -> t = ExclusiveOR \/ t = SetPartitioning -> type_refs x cs t = [].
Proof.
  intros Ne T. destruct (type_refs x cs t) as [|i l] eqn:E; [reflexivity|]. exfalso.
  assert (I : In i (type_refs x cs t)) by (rewrite E; left; reflexivity). apply in_type_refs in I as (c & Ec & Tc).
  apply (Ne c (nth_error_In _ _ Ec)), (partition_equal x c). rewrite Tc. exact T.
Qed.
Lemma no_picks opt names s : (forall c, In c (ds_cons s) -> ct_enabled c = true -> ct_sense c <> Equal) -> picks opt names s = [].
Proof.
  intros Ne. destruct (picks opt names s) as [|c l] eqn:E; [reflexivity|]. exfalso.
  assert (I : In c (picks opt names s)) by (rewrite E; left; reflexivity). apply pick_facts in I as (A & B & (C & _) & _).
  exact (Ne _ (nth_error_In _ _ A) B C).
Qed.
Lemma no_extraction opt names s : (forall c, In c (ds_cons s) -> ct_enabled c = true -> ct_sense c <> Equal) -> extract opt names s = Some (O, s).
Proof.
  intros Ne. assert (E : exists s', extract opt names s = Some (O, s')).
  { unfold extract. cbv zeta. rewrite (no_picks opt names s Ne). cbn [map all_some length]. eexists. reflexivity. }
  destruct E as [s' E]. pose proof (extract_nothing _ _ _ _ E). subst s'. exact E.
Qed.
Lemma no_dependents fuel sw su m s s2 : (forall c, In c (ds_cons s) -> ct_enabled c = true -> ct_sense c <> Equal) ->
  prepare_dependents fuel sw su m s = Some (Ok s2) -> s2 = s.
Proof.
  intros Ne. unfold prepare_dependents. destruct (_ && _); [|congruence]. destruct fuel as [|f]; cbn [dependent_loop]; [discriminate|].
  rewrite (no_extraction _ _ s Ne). congruence.
Qed.

(** ** No implicit equalities *)
Lemma scan_nothing addr is01 cs : (forall c d, In c cs -> In d cs -> opposite addr c d = false) ->
  forall l skip added, equality_scan addr is01 l skip cs added = (cs, added).
Proof.
  intros No. induction l as [|i tl IH]; intros skip added; cbn [equality_scan]; [reflexivity|]. destruct skip as [|k]; [|apply IH].
  destruct (nth_error cs i) as [c|] eqn:Ei; [|apply IH]. destruct (negb (ct_enabled c)); [apply IH|].
  assert (G : match opposite_scan addr cs c tl O with
    | ScanEnd => (cs, added) | ScanOther k => equality_scan addr is01 tl k cs added
    | ScanFound j => equality_scan addr is01 tl O (disable_at (disable_at cs i) j) (added ++ [c_setup (ct_expr c) Equal is01]) end = (cs, added)).
  { destruct (opposite_scan addr cs c tl O) as [|k|j] eqn:Sc; [reflexivity|apply IH|]. exfalso.
    destruct (opposite_scan_found _ _ _ _ _ _ Sc) as (d & Ej & _ & Op). rewrite (No c d (nth_error_In _ _ Ei) (nth_error_In _ _ Ej)) in Op. discriminate. }
  destruct (ct_sense c); [exact G|apply IH|exact G].
Qed.
Lemma csense_eqb_iff a b : csense_eqb a b = true <-> a = b.
Proof. destruct a, b; cbn; split; congruence. Qed.
Lemma not_opposite addr s c d : well_formed (ds_cons s) -> no_opposites s -> In c (ds_cons s) -> In d (ds_cons s) -> opposite addr c d = false.
Proof.
  intros W No Ic Id. destruct (No c d Ic Id) as [N1 N2]. unfold opposite. destruct (csense_eqb (ct_sense c) (ct_sense d)) eqn:Es; cbn [negb andb orb].
  - apply csense_eqb_iff in Es. destruct (e_equal addr (ct_expr c) (e_neg (ct_expr d))) eqn:E; [|reflexivity]. exfalso. apply (N2 Es). intros x.
    rewrite (equal_eval addr _ _ x (W c Ic) (wf_neg _ (W d Id)) E). apply eval_neg.
  - rewrite orb_false_r. destruct (e_equal addr (ct_expr c) (ct_expr d)) eqn:E; [|reflexivity]. exfalso. apply N1.
    + intros X. apply csense_eqb_iff in X. congruence.
    + intros x. exact (equal_eval addr _ _ x (W c Ic) (W d Id) E).
Qed.
Lemma no_implicit addr is01 refs s : well_formed (ds_cons s) -> no_opposites s -> extract_implicit_equalities addr is01 refs (ds_cons s) = ds_cons s.
Proof.
  intros W No. unfold extract_implicit_equalities. cbv zeta. destruct (Nat.leb _ 1); [reflexivity|].
  rewrite scan_nothing; [apply app_nil_r|]. intros c d Ic Id. exact (not_opposite addr s c d W No Ic Id).
Qed.

(** ** The phases *)
Definition bound_of (s : dstate) (v : nat) : Z := Z.max (Z.abs (va_lower (ds_vars s v))) (Z.abs (va_upper (ds_vars s v))).
Lemma weight_reach s l : weight (bound_of s) l = reach (ds_vars s) l.
Proof. induction l as [|[v a] l IH]; [reflexivity|]. cbn [weight reach]. rewrite IH. reflexivity. Qed.
Lemma start_ok s : proper_model s -> only_inequalities s -> small_rows s -> state_ok (bound_of s) (ds_vars s) (ds_cons s).
Proof.
  intros P Ne Sm. constructor; [apply P|intros c I _; split; [exact (Ne c I)|rewrite weight_reach; exact (Sm c I)]|apply P|apply P|exact (pm_sound s P)|].
  intros v. unfold bound_of. lia.
Qed.

Section Inequalities.
  Context (fuel : nat) (sw : switches) (su : surroundings) (m : bool) (s : dstate).
  Hypothesis P : proper_model s.
  Hypothesis Ae : as_entered s.
  Hypothesis On : sw_presolve sw = true.
  Hypothesis Ne : only_inequalities s.
  Hypothesis Op : sw_implicit sw = false \/ no_opposites s.
  Hypothesis Sm : small_rows s.
  Hypothesis Ca : calm_sets sw su m s.

  Lemma reduce_inequalities s1 : prepare_reduce fuel sw su m s = Some (Ok s1) -> exists p,
    reduce_problem_size fuel m (coef (ex_sens (ds_obj s))) (mkP (ds_number s) (ds_vars s) (ds_cons s)) = Some (Ok p) /\ s1 = after s p.
  Proof.
    pose proof (ft_coherent _ (proper_fit s P)) as Co. unfold prepare_reduce. rewrite On. cbv zeta. set (refs := type_refs _ _).
    assert (E1 : (if sw_implicit sw then extract_implicit_equalities (su_addr su) (is01_of (ds_vars s)) refs (ds_cons s) else ds_cons s) = ds_cons s).
    { destruct Op as [-> |No]; [reflexivity|]. destruct (sw_implicit sw); [|reflexivity]. apply no_implicit; [|exact No]. intros c I. apply (co_cons s Co c I). }
    rewrite E1. assert (E2 : (if sw_set_cons sw then remove_redundant_set_constraints refs (ds_vars s) (ds_cons s) else (ds_vars s, ds_cons s)) = (ds_vars s, ds_cons s)).
    { destruct (sw_set_cons sw); [|reflexivity]. unfold remove_redundant_set_constraints, refs. rewrite !no_partitions by auto. reflexivity. }
    rewrite E2. cbn [fst snd]. destruct (reduce_problem_size _ _ _ _) as [[p| |]|]; try discriminate. intros E. injection E as <-. exists p. split; reflexivity.
  Qed.
  Lemma after_ok p : reduce_problem_size fuel m (coef (ex_sens (ds_obj s))) (mkP (ds_number s) (ds_vars s) (ds_cons s)) = Some (Ok p) ->
    fit (after s p) /\ (forall c, In c (ps_cons p) -> ct_enabled c = true -> ct_sense c <> Equal) /\ forall y, solution p y -> solution (mkP (ds_number s) (ds_vars s) (ds_cons s)) y.
  Proof.
    intros E. pose proof (proper_fit s P) as Ft. destruct (size_ok _ _ _ _ _ _ _ _ (co_obj s (ft_coherent s Ft)) (pm_decided s P) (start_ok s P Ne Sm) E) as [[T L Md Mf So _] H].
    destruct (size_coherent _ _ _ s _ (ft_coherent s Ft) (ft_clean s Ft) E) as [Co Cl]. destruct (size_touched _ _ _ _ _ E) as [_ Le]. cbn [ps_cons] in Le.
    split; [|split; [intros c I En; exact (proj1 (L c I En))|exact H]].
    constructor; [exact Co|exact Cl| |exact (ft_whole s Ft)]. apply mkGood; [exact T|exact Md|exact Mf|exact So|].
    exact (lessened_flags _ _ Le (gd_flags _ _ (ft_good s Ft))).
  Qed.
  Lemma sets_inequalities s1 : fit s1 -> set_calm sw su m s1 ->
    fit (prepare_sets sw su m s1) /\ forall y, legal (ds_vars (prepare_sets sw su m s1)) y -> satisfies_all (ds_cons (prepare_sets sw su m s1)) y -> legal (ds_vars s1) y /\ satisfies_all (ds_cons s1) y.
  Proof.
    intros Ft Sc. unfold set_calm in Sc. unfold prepare_sets in *. cbv zeta in *. cbn [ds_vars ds_cons] in *.
    set (refs := type_refs (vctx (su_name su) (ds_vars s1)) (ds_cons s1)) in *.
    set (vs := if sw_presolve sw && sw_set_vars sw then _ else ds_vars s1) in *.
    set (cs := if sw_presolve sw && sw_duplicates sw then _ else ds_cons s1).
    assert (Fx : fixing (ds_vars s1) vs) by (unfold vs; destruct (sw_presolve sw && sw_set_vars sw); [apply variables_fixing|apply fixing_refl]).
    assert (Le : lessened (ds_cons s1) cs) by (unfold cs; destruct (sw_presolve sw && sw_duplicates sw); [apply duplicates_lessened|apply lessened_refl]).
    assert (Cs : forall y, satisfies_all (ds_cons s1) y <-> satisfies_all cs y).
    { unfold cs. destruct (sw_presolve sw && sw_duplicates sw); [|reflexivity]. apply remove_duplicated_spec; [intros t; apply type_refs_nodup|].
      intros c I. apply (co_cons s1 (ft_coherent s1 Ft) c I). }
    assert (Im : forall y, legal vs y -> legal (ds_vars s1) y).
    { unfold vs in Sc |- *. destruct (sw_presolve sw) eqn:E1, (sw_set_vars sw) eqn:E2; cbn [andb] in *; try (intros y L; exact L).
      destruct (Sc eq_refl eq_refl) as [Same|(UB & SP & WZ & NT)]; [intros y; apply (proj1 (legal_same _ _ y Same))|].
      exact (proj1 (proj2 (redundant_variables_spec (ds_number s1) m (ds_obj s1) (ds_cons s1) (ds_vars s1) (co_obj s1 (ft_coherent s1 Ft)) UB SP WZ NT (su_caddr su) refs (su_name su)))). }
    split; [|intros y Ly Sy; split; [exact (Im y Ly)|exact (proj2 (Cs y) Sy)]].
    assert (D : derived (ds_cons s1) cs) by (apply lessened_derived, Le).
    destruct (fixing_coherent s1 vs cs (ft_coherent s1 Ft) (ft_clean s1 Ft)) as [Co Cl]; [intros v; apply Fx|exact D|].
    constructor; [exact Co|exact Cl| |exact (ft_whole s1 Ft)]. cbn [ds_vars ds_cons].
    assert (L0 : legal vs (start_point vs)) by (apply start_legal; intros v; destruct (Fx v) as (-> & -> & _); apply (fit_bounds s1 Ft)).
    apply (fixing_good (ds_vars s1) vs (ds_cons s1) cs (start_point vs) (ft_good s1 Ft) Fx D); [|apply Im, L0|exact L0].
    exact (lessened_flags _ _ Le (gd_flags _ _ (ft_good s1 Ft))).
  Qed.

  Lemma solves_legal (t : dstate) y : (forall v, ds_dep t v = None) -> solves t y <-> legal (ds_vars t) y /\ satisfies_all (ds_cons t) y.
  Proof.
    intros Nd. split.
    - intros [R C _]. split; [|exact C]. intros v. specialize (R v (Nd v)). unfold within in R. destruct (va_fixed (ds_vars t v)); split; intros F; try discriminate; exact R.
    - intros [L C]. constructor; [|exact C|intros v k E; rewrite Nd in E; discriminate]. intros v _. destruct (L v) as [A B]. unfold within. destruct (va_fixed (ds_vars t v)); auto.
  Qed.

  Lemma prepared_inequalities r : prepare fuel sw su m s = Some (Ok r) -> exists s3, search_ready m s3 r /\ settled r /\ ds_number s3 = ds_number s /\ ds_obj s3 = ds_obj s /\
    forall y, solves s3 y -> solves s y.
  Proof.
    intros Pr. unfold prepare in Pr. destruct (prepare_problem fuel sw su m s) as [[q| |]|] eqn:Eq; try discriminate. cbn [PresolveModel.bind] in Pr. injection Pr as Pr.
    unfold prepare_problem in Eq. destruct (prepare_reduce fuel sw su m s) as [[s1| |]|] eqn:E1; try discriminate.
    destruct (prepare_dependents fuel sw su m s1) as [[s2| |]|] eqn:E2; try discriminate. injection Eq as <-.
    destruct (reduce_inequalities s1 E1) as (p & Ep & Es). destruct (after_ok p Ep) as (Ft & Nq & Sp).
    assert (s2 = s1) by (apply (no_dependents fuel sw su m s1 s2); [rewrite Es; exact Nq|exact E2]). subst s2.
    rewrite <- Es in Ft. pose proof (Ca fuel s1 s1 E1 E2) as Sc. destruct (sets_inequalities s1 Ft Sc) as [Ft3 S3].
    exists (prepare_sets sw su m s1). split; [exact (search_rest sw su m _ _ r Ft3 (refines_refl m _) eq_refl Pr)|].
    split; [exact (settled_rest fuel sw su m s (proper_plain s P) Ae (or_introl On) s1 r (fit_slim _ Ft) (fit_slim _ Ft3) E1 Pr)|].
    split; [subst s1; reflexivity|]. split; [subst s1; reflexivity|]. intros y Sy.
    apply solves_legal; [apply P|]. apply solves_legal in Sy; [|subst s1; apply P]. destruct Sy as [Ly Cy]. destruct (S3 y Ly Cy) as [L1 C1]. subst s1.
    exact (Sp y (conj L1 C1)).
  Qed.
End Inequalities.

Lemma inequalities_solution fuel order sw su o nrm red ext sq lg root m x a s an rn : (forall l, Permutation (order l) l) -> proper_model s -> as_entered s -> sw_presolve sw = true ->
  only_inequalities s -> sw_implicit sw = false \/ no_opposites s -> small_rows s -> calm_sets sw su m s ->
  p_solve fuel order sw su o nrm red ext sq lg root m x a s = Some (Ok (Done (an, rn))) -> an_feasible an = true -> solution_of s (wo_defined o) an.
Proof.
  intros Pe P Ae On Ne Op Sm Ca E F. destruct (p_prepared _ _ _ _ _ _ _ _ _ _ _ _ _ _ _ _ E) as [r Pr].
  destruct (prepared_inequalities fuel sw su m s P Ae On Ne Op Sm Ca r Pr) as (s3 & Rd & St & Nu & Ob & So).
  destruct (p_eq fuel order sw su o nrm red ext sq lg root m x a s r _ Pr E) as (b & _ & E').
  pose proof (truth_answer su o m s3 r (prepare_parities order sw su r) Rd St (parities_refixed order sw su m s3 r Pe Rd) lg root
    (with_relaxations (ScreenModel.naive_dual_bound m (ds_obj (fst (prepare_parities order sw su r))) (ds_vars (fst (prepare_parities order sw su r)))) b
      (lagrange_phase x (prepare_parities order sw su r)) a)) as T.
  rewrite <- E' in T. destruct T as (_ & _ & T). destruct (T F) as (y & Y1 & Y2 & Y3). exists y. rewrite Nu in Y1. rewrite Ob in Y3.
  split; [exact Y1|]. split; [exact (So y Y2)|exact Y3].
Qed.
