(** Proofs for C80, continued: the user's model. *)
From Coq Require Import List NArith ZArith QArith Qabs Bool Arith Lia Lqa Permutation.
From Verif Require Import ExprModel ExprSpec ExprProof ConstraintModel ConstraintSpec VariableModel TypeModel TypeSpec PresolveModel PresolveSpec
  DuplicateModel DependentModel DependentSpec SelectionModel SelectionSpec BinMatModel PrepareModel PrepareSpec EvalModel EvalSpec2 TabuModel LagrangeModel LoopSpec SolverModel SolverSpec WholeModel WholeSpec
  RelaxModel RelaxSpec OfferModel ParityModel TruthSpec.
From Verif Require Import PrepareProof PrepareProof5 WholeProof WholeProof2 ParityProof2 TruthProof2.
From Verif Require ScreenModel OfferProof5.
Import ListNotations.
Local Open Scope nat_scope.

(** Further variables fixed, to whatever values. *)
Definition refixed (r r' : dstate * list sel) : Prop :=
  (ds_number (fst r') = ds_number (fst r) /\ ds_cons (fst r') = ds_cons (fst r) /\ ds_obj (fst r') = ds_obj (fst r) /\ ds_exprs (fst r') = ds_exprs (fst r) /\
   ds_dep (fst r') = ds_dep (fst r) /\ snd r' = snd r) /\
  (forall v, va_sense (ds_vars (fst r') v) = va_sense (ds_vars (fst r) v) /\ va_lower (ds_vars (fst r') v) = va_lower (ds_vars (fst r) v) /\ va_upper (ds_vars (fst r') v) = va_upper (ds_vars (fst r) v)) /\
  forall v, ds_vars (fst r') v = ds_vars (fst r) v \/ va_fixed (ds_vars (fst r) v) = false /\ ds_dep (fst r) v = None.
Lemma refixed_self r : refixed r r.
Proof. split; [auto 10|]. split; auto. Qed.
Lemma parities_refixed order sw su m s r : (forall l, Permutation (order l) l) -> search_ready m s r -> refixed r (prepare_parities order sw su r).
Proof.
  intros Op Rd. unfold prepare_parities. cbv zeta. destruct (_ && _); [|apply refixed_self]. destruct (gf2_solve _ _ _) as [y|]; [|apply refixed_self]. set (l := order _ ++ _).
  split; [cbn; auto 10|]. cbn [fst ds_vars]. split; intros v; destruct (in_dec Nat.eq_dec v l) as [I|I].
  - destruct (proj1 (solved_vars y l (ds_vars (fst r)) v) I) as (_ & _ & -> & -> & ->). auto.
  - rewrite (proj2 (solved_vars y l (ds_vars (fst r)) v) I). auto.
  - right. split; [exact (proj1 (listed order su r Op v I))|exact (listed_free order su m s r Op Rd v I)].
  - left. exact (proj2 (solved_vars y l (ds_vars (fst r)) v) I).
Qed.

Section Answer.
  Context (su : surroundings) (o : search_options) (m : bool) (s : dstate) (r r' : dstate * list sel).
  Hypothesis Rd : search_ready m s r.
  Hypothesis St : settled r.
  Hypothesis Rf : refixed r r'.
  Let n := ds_number (fst r).
  Let vs := ds_vars (fst r).
  Let vs' := ds_vars (fst r').
  Let is01 := zero_one_in n vs.

  Lemma r_list : defined_list (fst r') = defined_list (fst r).
  Proof. destruct Rf as ((E1 & _ & _ & _ & E5 & _) & _). unfold defined_list. rewrite E1, E5. reflexivity. Qed.
  Lemma r_prepared : SolverSpec.prepared is01 (search_problem su m r') (with_x (search_state o m r') (fun v => va_value (vs v))) mem_setup.
  Proof.
    pose proof (search_prepared su o m s r Rd St) as ((W & Dk & De & Fl & X0) & Df & Rs & Sr & Sb & Zo & Mc).
    pose proof Rf as ((E1 & E2 & E3 & E4 & E5 & E6) & Es & Ef).
    assert (Cc : forall c, In c (md_cons (ms_model (search_state o m r'))) -> exists c1, In c1 (md_cons (ms_model (search_state o m r))) /\
       ct_expr c = ct_expr c1 /\ ct_enabled c = ct_enabled c1 /\ ct_max_abs c = ct_max_abs c1 /\ ct_only_binary_var c = ct_only_binary_var c1 /\ ct_sense c = ct_sense c1).
    { intros c I. cbn [search_state ms_model md_cons] in I. rewrite E2 in I. apply in_reset in I as (c0 & I & ->). exists (c_reset_penalty c0 (global_penalty o (fst r))). split; [exact (in_map (fun c => c_reset_penalty c (global_penalty o (fst r))) _ _ I)|]. cbn. auto. }
    split; [|split; [|split; [|split; [|split; [|split]]]]].
    - split; [|split; [|split; [|split]]]; cbn [with_x ms_model ms_exprs ms_deps ms_x ms_fixed].
      + destruct W as (W1 & W2 & W3). split; [|split].
        * intros c I. destruct (Cc c I) as (c1 & I1 & Ex & _). cbn [with_x ms_model] in *. specialize (W1 c1 I1). rewrite Ex. exact W1.
        * cbn [search_state with_x ms_model md_obj]. rewrite E3. exact W2.
        * cbn [search_state with_x ms_exprs]. rewrite E4. exact W3.
      + intros d I. assert (I' : In d (map fst (ms_deps (search_state o m r)))) by (cbn [search_state ms_deps] in *; rewrite <- r_list; exact I).
        destruct (Dk d I') as [D1 D2]. split.
        * intros c J En. destruct (Cc c J) as (c1 & I1 & Ex & Ee & _). rewrite Ex. apply (D1 c1 I1). congruence.
        * cbn [with_x search_state ms_model md_obj]. rewrite E3. exact D2.
      + intros q I Hq d J. cbn [search_state ms_exprs ms_deps] in I, J. rewrite E4 in I. rewrite r_list in J. exact (De q I Hq d J).
      + intros c I En. destruct (Cc c I) as (c1 & I1 & Ex & Ee & Em & Eb & Esn). rewrite Ex, Em, Eb. assert (En1 : ct_enabled c1 = true) by congruence. exact (Fl c1 I1 En1).
      + exact X0.
    - intros d I. cbn [with_x search_state ms_deps] in I. rewrite r_list in I. destruct (Df d I) as [A B]. split; [exact A|]. cbn [with_x search_state ms_fixed] in *.
      destruct (Ef d) as [X|[_ X]]; [rewrite X; exact B|]. destruct (defined_key _ d (sr_coherent _ _ _ Rd) I) as (N & _). contradiction.
    - intros d i I. cbn [with_x search_state ms_deps ms_exprs] in *. rewrite r_list in *. rewrite E4. exact (Rs d i I).
    - cbn [search_problem pb_vars pb_sels] in *. rewrite E6. destruct Sr as [S1 S2]. split; [exact S1|]. intros t I. destruct (S2 t I) as [Nd X]. split; [exact Nd|]. intros v J. rewrite (proj1 (Es v)). apply X, J.
    - intros v L. cbn [search_problem pb_n pb_vars] in *. rewrite E1 in L. specialize (Sb v L). destruct (Es v) as (-> & -> & ->). exact Sb.
    - intros v H. destruct (Zo v H) as [L K]. cbn [search_problem pb_n pb_vars pb_sels] in *. rewrite E1, E6. destruct (Es v) as (-> & -> & ->). auto.
    - exact Mc.
  Qed.

  Lemma truth_meets (rn : run) (an : answer) : truthful (search_problem su m r') (search_state o m r') rn an -> an_feasible an = true ->
    meets r (inside r (an_x an)) /\ (wo_defined o = true -> (an_objective an == e_eval (ds_obj (fst r)) (inside r (an_x an)))%Q).
  Proof.
    pose proof Rf as ((E1 & E2 & E3 & E4 & E5 & E6) & Es & Ef). intros (V & Fx & Df & _ & Ob & _ & Fe) F. pose proof (sr_coherent _ _ _ Rd) as Co. split.
    - apply (answer_meets su o m s r Rd St).
      + destruct V as [V1 V2]. cbn [search_problem pb_n pb_sels] in V1, V2. rewrite E6 in V1. rewrite E1 in V2. split; [exact V1|]. intros v L. specialize (V2 v L).
        cbn [placed search_problem pb_vars v_with_value va_sense va_lower va_upper va_value] in *. destruct (Es v) as (A & B & C). rewrite A, B, C in V2. exact V2.
      + intros v Fv. assert (X : ds_vars (fst r') v = ds_vars (fst r) v) by (destruct (Ef v) as [X|[X _]]; [exact X|congruence]). rewrite <- X in Fv |- *. exact (Fx v Fv).
      + intros d k E. pose proof (co_bound _ Co d k E) as L.
        apply (Df d k (nth k (ds_exprs (fst r)) no_expr, true, 0%Q)); cbn [search_state ms_deps ms_exprs]; rewrite ?r_list, ?E4; [apply (defined_in _ _ _ Co), E| |apply defined_nodup].
        apply (map_nth_error (fun e => (e, true, 0%Q))). apply nth_error_nth'. exact L.
      + apply Fe in F. intros c I En. cbn [search_state ms_model md_cons] in I. apply in_reset in I as (c0 & I & ->). apply (F (c_reset_penalty c0 (global_penalty o (fst r')))); [|exact En].
        cbn [search_state ms_model md_cons]. rewrite E2. apply (in_map (fun c => c_reset_penalty c (global_penalty o (fst r')))), I.
    - intros D. rewrite (Ob D). cbn [search_state ms_model md_obj]. rewrite E3. apply eval_agree. intros v I. symmetry. apply (inside_in r), (st_objective r St v I).
  Qed.
  Lemma truth_solution (rn : run) (an : answer) : truthful (search_problem su m r') (search_state o m r') rn an -> an_feasible an = true -> solution_of s (wo_defined o) an.
  Proof.
    intros T F. destruct (truth_meets rn an T F) as [M E]. destruct (proj1 (sr_keeps _ _ _ Rd) _ M) as [S Ob]. exists (inside r (an_x an)). split; [|split; [exact S|]].
    - intros v L. apply (inside_in r). rewrite (sr_number _ _ _ Rd). exact L.
    - intros D. rewrite (E D). exact Ob.
  Qed.
  Lemma truth_answer lg root (a : inputs) :
    match solve lg root (search_problem su m r') a (search_state o m r') mem_setup with
    | Done (an, rn) => orderly (in_limit a) rn /\ truthful (search_problem su m r') (search_state o m r') rn an /\ (an_feasible an = true -> solution_of s (wo_defined o) an)
    | Rejected rn y => orderly (in_limit a) rn /\ In y (visited rn) /\ ~ valid_start (pb_n (search_problem su m r')) (placed (search_problem su m r') y) (pb_sels (search_problem su m r'))
    | NotANumber rn => orderly (in_limit a) rn
    end.
  Proof.
    pose proof (solve_truth lg root _ a (search_state o m r') _ mem_setup _ r_prepared) as H.
    destruct (solve lg root (search_problem su m r') a (search_state o m r') mem_setup) as [[an rn]|rn y|rn]; [|exact H|exact H].
    destruct H as [O T]. split; [exact O|]. split; [exact T|]. exact (truth_solution rn an T).
  Qed.
End Answer.
