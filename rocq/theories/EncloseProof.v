(** Proofs for C88: with presolve on, the reported bound holds for every solution of an
    MPS file with inequalities only. *)
From Coq Require Import List NArith ZArith QArith Qabs Bool Arith String Lia Lqa Permutation.
From Verif Require Import ExprModel ExprSpec ExprProof ConstraintModel ConstraintSpec VariableModel TypeModel TypeSpec PresolveModel PresolveSpec DuplicateModel
  DependentModel DependentSpec DependentProof6 SelectionModel SelectionSpec PrepareModel PrepareSpec PrepareProof PrepareProof2 PrepareProof3 PrepareProof5 TextModel MpsModel MpsSpec NamesModel NamesSpec
  JsonModel OptionModel CommandModel CommandSpec LpModel LpSpec WholeModel WholeSpec WholeProof RelaxModel RelaxSpec OfferModel ParityModel ParitySpec ParityProof4
  InfeasibleSpec InfeasibleProof2 InfeasibleProof3 FileModel FileSpec FileProof FileProof2 FileProof3 CertifySpec CertifyProof EncloseSpec DefaultSpec DefaultProof DefaultProof2.
From Verif Require InfeasibleProof SolverModel PrepareProof7 ParityProof.
Import ListNotations.
Local Open Scope nat_scope.

Lemma no_parities su s : (forall c, In c (ds_cons s) -> ct_sense c <> Equal) -> parity_items su s = [].
Proof.
  intros Ne. destruct (parity_items su s) as [|[c k] l] eqn:E; [reflexivity|]. exfalso.
  assert (I : In (c, k) (parity_items su s)) by (rewrite E; left; reflexivity). apply ParityProof.item_row in I as [Ic C]. exact (Ne c Ic (pr_equation _ _ _ C)).
Qed.
Lemma lessened_sense cs cs' : lessened cs cs' -> (forall c, In c cs -> ct_sense c <> Equal) -> forall c, In c cs' -> ct_sense c <> Equal.
Proof.
  induction 1 as [|a b l l' E H IH]; intros Ne c I; [destruct I|]. destruct I as [->|I]; [|apply IH; [intros d J; apply Ne; now right|exact I]].
  specialize (Ne a (or_introl eq_refl)). destruct E as [->| ->]; exact Ne.
Qed.

(** ** A model with inequalities only *)
Section Model.
  Context (fuel : nat) (order : list nat -> list nat) (sw : PrepareModel.switches) (su : surroundings) (m : bool) (s : dstate).
  Hypothesis Pe : forall l, Permutation (order l) l.
  Hypothesis P : proper_model s.
  Hypothesis Ae : as_entered s.
  Hypothesis On : sw_presolve sw = true.
  Hypothesis Ne : only_inequalities s.
  Hypothesis Op : sw_implicit sw = false \/ no_opposites s.
  Hypothesis Sm : small_rows s.
  Hypothesis Ca : calm_sets sw su m s.

  Lemma inequalities_calm : calm_rounds sw su m s.
  Proof.
    intros g s1 E _ _ f. destruct (reduce_inequalities g sw su m s P On Ne Op s1 E) as (p & Ep & Es). destruct (after_ok g m s P Ne Sm p Ep) as (_ & Nq & _).
    destruct f as [|f]; cbn [calm]; [exact Logic.I|]. rewrite no_extraction; [exact Logic.I|]. rewrite Es. exact Nq.
  Qed.
  Lemma inequalities_parts r : prepare fuel sw su m s = Some (Ok r) -> settled r /\ ds_obj (fst r) = ds_obj s /\ ds_number (fst r) = ds_number s /\
    (forall c, In c (ds_cons (fst r)) -> ct_sense c <> Equal) /\ inside_M (bound_of s) (ds_vars (fst r)).
  Proof.
    intros Pr. destruct (prepared_inequalities fuel sw su m s P Ae On Ne Op Sm Ca r Pr) as (_ & _ & St & _). split; [exact St|].
    unfold prepare in Pr. destruct (prepare_problem fuel sw su m s) as [[q| |]|] eqn:Eq; try discriminate. cbn [PresolveModel.bind] in Pr. injection Pr as Pr.
    unfold prepare_problem in Eq. destruct (prepare_reduce fuel sw su m s) as [[s1| |]|] eqn:E1; try discriminate.
    destruct (prepare_dependents fuel sw su m s1) as [[s2| |]|] eqn:E2; try discriminate. injection Eq as <-.
    destruct (reduce_inequalities fuel sw su m s P On Ne Op s1 E1) as (p & Ep & Es). destruct (after_ok fuel m s P Ne Sm p Ep) as (Ft & Nq & _).
    assert (s2 = s1) by (apply (no_dependents fuel sw su m s1 s2); [rewrite Es; exact Nq|exact E2]). subst s2. rewrite <- Es in Ft.
    pose proof (Ca fuel s1 s1 E1 E2) as Sc. destruct (sets_inequalities sw su m On s1 Ft Sc) as [Ft3 _].
    pose proof (size_ok _ _ _ _ _ _ _ _ (co_obj s (ft_coherent s (proper_fit s P))) (pm_decided s P) (start_ok s P Ne Sm) Ep) as [[_ _ _ _ _ In1] _].
    destruct (size_touched _ _ _ _ _ Ep) as [_ Le]. cbn [ps_cons] in Le.
    set (s3 := prepare_sets sw su m s1) in *. destruct (selections_slim sw su s3 (fit_slim _ Ft3)) as (_ & _ & Rd & _).
    destruct (start_done sw su _ r Rd Pr) as (_ & T1 & T2 & T3 & _ & _ & T6 & _). destruct (PrepareProof7.selections_untouched sw su s3) as (U1 & _ & _ & U4 & U5 & _). cbv zeta in *.
    destruct (rest_selections sw su s3) as (_ & _ & _ & _ & Ls). rewrite T1, T2, T3, U1, U4.
    split; [subst s1; reflexivity|]. split; [subst s1; reflexivity|]. split.
    - apply (lessened_sense _ _ Ls). unfold s3, prepare_sets. cbv zeta. cbn [ds_cons].
      assert (Le3 : forall refs, lessened (ds_cons s1) (if sw_presolve sw && sw_duplicates sw then remove_duplicated_constraints (su_addr su) refs (ds_cons s1) else ds_cons s1))
        by (intros refs; destruct (sw_presolve sw && sw_duplicates sw); [apply duplicates_lessened|apply lessened_refl]).
      apply (lessened_sense _ _ (Le3 _)). subst s1. cbn [after ds_cons]. apply (lessened_sense _ _ Le), Ne.
    - intros v. destruct (T6 v) as (S1 & S2 & _). destruct (U5 v) as (B1 & B2 & _). rewrite S1, S2, B1, B2.
      assert (Fx : fixing (ds_vars s1) (ds_vars s3)).
      { unfold s3, prepare_sets. cbv zeta. cbn [ds_vars]. destruct (sw_presolve sw && sw_set_vars sw); [apply variables_fixing|apply fixing_refl]. }
      destruct (Fx v) as (-> & -> & _). subst s1. exact (In1 v).
  Qed.
  Lemma inequalities_bound o nrm red ext sq lg root x a out : (exists z, solves s z) -> wo_defined o = true ->
    (forall po envs late, rx_pdlp x = Some (po, envs, late) -> powers red ext /\ norm_like nrm /\ (forall q, 0 < q -> 0 < sq q)%Q /\ (forall e, In e envs -> 0 < pe_weight e)%Q /\
       (forall v, v < ds_number s -> (bound_of s v <= 536870911)%Z)) ->
    (if m then 0 <= ex_const (ds_obj s) else ex_const (ds_obj s) <= 0)%Q -> (rx_lagrange x <> None -> m = true) ->
    p_solve fuel order sw su o nrm red ext sq lg root m x a s = Some (Ok out) -> bounds_all m s (reported_bound out).
  Proof.
    intros Fe Df Rx K Lx E. destruct (InfeasibleProof.p_prepared _ _ _ _ _ _ _ _ _ _ _ _ _ _ _ _ E) as [r Pr]. destruct (inequalities_parts r Pr) as (St & Ob & Nu & Nq & Ins).
    pose proof (no_parities su (fst r) Nq) as Np.
    refine (q_bound fuel order sw su o m s r Pe P Fe inequalities_calm Ca Pr _ _ _ nrm red ext sq lg root x a out St Df _ Lx E); rewrite ?Np.
    - intros c k c' k' [].
    - intros c k v b [].
    - right. intros c k [].
    - intros po envs late Ex. rewrite (idle_when order sw su r (or_intror Np)). destruct (Rx po envs late Ex) as (P1 & P2 & P3 & P4 & P5). split; [exact P1|]. split; [exact P2|]. split; [exact P3|].
      split; [exact P4|]. rewrite Ob, Nu. split; [|exact K]. intros v Iv _. apply in_seq in Iv. destruct (Ins v) as [A B]. specialize (P5 v ltac:(lia)). lia.
  Qed.
End Model.

(** ** The run *)
Section Answer.
  Context (fuel : nat) (order : list nat -> list nat) (su : surroundings) (on : ctype -> bool) (penalty : Q) (shrink user : bool)
    (nrm : list Q -> Q) (red ext : nat -> Q) (sq : Q -> Q) (lg : Z -> Q) (root : Q -> Q) (x : relaxations) (a : ninputs)
    (fs : files) (items : list item) (s : settings) (lines : list string) (f : content) (obj : string) (o : opts) (out : SolverModel.outcome (SolverModel.answer * SolverModel.run)).
  Hypothesis Pe : forall l, Permutation (order l) l.
  Hypothesis N1 : Forall well_named items.
  Hypothesis N2 : Forall well_numbered items.
  Hypothesis De : describes items s.
  Hypothesis Op : opens fs (st_mps s) lines.
  Hypothesis Co : contains lines f.
  Hypothesis Wf : well_formed f obj.
  Hypothesis Ir : integer_rows f obj.
  Hypothesis Th : thin_binaries fs s f.
  Hypothesis Oa : options_are fuel fs s o.
  Hypothesis On : switched o "is_enabled_presolve" true.
  Hypothesis Na : narrow f.
  Hypothesis Ne : inequalities f.
  Hypothesis Sm : small f.
  Hypothesis Pl : placed f obj.
  Hypothesis Im : switched o "is_enabled_extract_implicit_equality_constraints" false \/ one_sided f.
  Hypothesis Sv : switched o "is_enabled_remove_redundant_set_variables" false \/ weighted f.
  Hypothesis Re : forall po envs late, rx_pdlp x = Some (po, envs, late) -> solvable nrm red ext sq envs.
  Hypothesis Rn : run_command fuel order su on penalty shrink user nrm red ext sq lg root x a fs (flat_map words items) = Some (Ok (Some out)).

  Lemma default_bound y : file_solution fs s f y -> (reported_bound out <= row_value f y obj)%Q.
  Proof.
    intros Fy. assert (Fi : values_left fs s f) by (intros n I; exists (y n); apply (proj2 Fy n I)).
    destruct (run_parts fuel order su on penalty shrink user nrm red ext sq lg root x a fs items _ Rn) as (i & Se & E).
    pose proof (proper_entered fuel fs items s i lines f obj N1 N2 De Op Co Wf Ir Th Se Fi Na Sm Pl) as Pm.
    pose proof (inequalities_entered fuel fs items s i lines f obj N1 N2 De Op Co Wf Se Ne) as Oi.
    pose proof (small_entered fuel fs items s i lines f obj N1 N2 De Op Co Wf Ir Th Se Sm) as Sr.
    assert (Ae : as_entered (enter i)) by (eapply entered_as; eassumption). assert (Nu : ds_number (enter i) = List.length (columns f)) by (eapply entered_number; eassumption).
    pose proof (fun name b => switches fuel fs items s f o N1 N2 De Oa On Im Sv i name b Se) as Sw.
    assert (P1 : sw_presolve (switches_of (in_options i)) = true) by exact (Sw _ _ On).
    assert (P2 : sw_implicit (switches_of (in_options i)) = false \/ no_opposites (enter i)).
    { destruct Im as [X|X]; [left; exact (Sw _ _ X)|right; eapply opposites_entered; eassumption]. }
    destruct (p_model_same _ _ _ _ _ _ _ _ _ _ _ _ _ _ _ _ _ _ E) as (a' & _ & E').
    assert (P3 : calm_sets (switches_of (in_options i)) (with_user su (in_selections i)) true (enter i)).
    { destruct Sv as [X|X].
      - intros g s1 s2 _ _ _ Y. assert (Z := Sw _ _ X). cbn [switches_of sw_set_vars] in Y. congruence.
      - destruct (weighted_entered fuel fs items s i lines f obj N1 N2 De Op Co Wf Ir Th Se X) as (c & Ic & Bc). exact (calm_weighted _ _ _ _ c Pm P1 Oi P2 Sr Ic Bc). }
    destruct (solution_entered fuel fs items s i lines f obj N1 N2 De Op Co Wf Ir Th Se y Fy) as (z & Sz & Ez).
    pose proof (no_constant fuel fs items s i lines f obj N1 N2 De Op Co Wf Th Se) as Nc.
    assert (B : bounds_all true (enter i) (reported_bound out)).
    { refine (inequalities_bound fuel order _ _ true (enter i) Pe Pm Ae P1 Oi P2 Sr P3 (mkWo penalty shrink true user) nrm red ext sq lg root x a' out (ex_intro _ z Sz) eq_refl _ _ (fun _ => eq_refl) E').
      - intros po envs late Ex. destruct (Re po envs late Ex) as (R1 & R2 & R3 & R4). split; [exact R1|]. split; [exact R2|]. split; [exact R3|]. split; [exact R4|].
        intros v Lv. unfold bound_of.
        assert (Ev : (exists n, nth_error (columns f) v = Some n /\ var_of fs s f n (ds_vars (enter i) v)) \/ (nth_error (columns f) v = None /\ ds_vars (enter i) v = no_variable))
          by (eapply entered_var; eassumption).
        destruct Ev as [(n & Jn & (_ & Bw & _))|[_ ->]]; [|cbn; lia]. pose proof (Na n (nth_error_In _ _ Jn)) as Nn. rewrite <- Bw in Nn. cbn [fst snd] in Nn.
        pose proof (pm_sound _ Pm v) as (So & _). lia.
      - rewrite Nc. apply Qle_refl. }
    specialize (B z Sz). cbv beta iota in B. rewrite Ez in B. exact B.
  Qed.
End Answer.
