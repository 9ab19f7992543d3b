(** Proofs for C89: the solution file with default options. *)
From Coq Require Import List NArith ZArith QArith Qabs Bool Arith String Permutation Lia Lqa.
From Verif Require Import ExprModel ExprSpec ExprProof ConstraintModel ConstraintSpec VariableModel TypeModel PresolveModel PresolveSpec
  DependentModel DependentSpec SelectionModel PrepareModel PrepareSpec TextModel MpsModel MpsSpec NamesModel NamesSpec JsonModel OptionModel CommandModel CommandSpec
  SolverModel WholeModel WholeSpec RelaxModel OfferModel ParityModel InfeasibleSpec FileModel FileSpec FileProof FileProof2 FileProof3 DefaultSpec DefaultProof.
From Verif Require CommandProof4 ParityProof4 InfeasibleProof3 NamesProof MpsProof2 MpsProof3 ScreenProof2.
From Verif Require Import MpsProof MpsProof2.
Import ListNotations.
From Verif Require Import DefaultProof2 IncumbentModel IncumbentSpec IncumbentProof2.
Local Open Scope Z_scope.

Section Answer.
  Context (show : Q -> string) (fuel : nat) (order : list nat -> list nat) (su : surroundings) (on : ctype -> bool) (penalty : Q) (shrink user : bool)
    (nrm : list Q -> Q) (red ext : nat -> Q) (sq : Q -> Q) (lg : Z -> Q) (root : Q -> Q) (x : relaxations) (a : ninputs)
    (fs : files) (items : list item) (s : settings) (lines : list string) (f : content) (obj : string) (o : opts).
  Hypothesis Pe : forall l, Permutation (order l) l.
  Hypothesis N1 : Forall well_named items.
  Hypothesis N2 : Forall well_numbered items.
  Hypothesis De : describes items s.
  Hypothesis Op : opens fs (st_mps s) lines.
  Hypothesis Co : contains lines f.
  Hypothesis Wf : well_formed f obj.
  Hypothesis Ir : integer_rows f obj.
  Hypothesis Th : thin_binaries fs s f.
  Hypothesis Oa : options_are fuel fs s o.
  Hypothesis On : switched o "is_enabled_presolve" true.
  Hypothesis Fi : values_left fs s f.
  Hypothesis Na : narrow f.
  Hypothesis Ne : inequalities f.
  Hypothesis Sm : small f.
  Hypothesis Pl : placed f obj.
  Hypothesis Im : switched o "is_enabled_extract_implicit_equality_constraints" false \/ one_sided f.
  Hypothesis Sv : switched o "is_enabled_remove_redundant_set_variables" false \/ weighted f.

  Lemma default_run_answer an rn : run_command fuel order su on penalty shrink user nrm red ext sq lg root x a fs (flat_map words items) = Some (Ok (Some (Done (an, rn)))) ->
    exists i, CommandModel.setup fuel fs (flat_map words items) = Some (Ok (Ready i)) /\ (an_feasible an = true -> answered fs s f obj i an).
  Proof.
    intros Rn. destruct (run_parts fuel order su on penalty shrink user nrm red ext sq lg root x a fs items _ Rn) as (i & Se & E). exists i. split; [exact Se|]. intros F.
    pose proof (proper_entered fuel fs items s i lines f obj N1 N2 De Op Co Wf Ir Th Se Fi Na Sm Pl) as Pm.
    pose proof (inequalities_entered fuel fs items s i lines f obj N1 N2 De Op Co Wf Se Ne) as Oi.
    pose proof (small_entered fuel fs items s i lines f obj N1 N2 De Op Co Wf Ir Th Se Sm) as Sr.
    assert (Ae : as_entered (enter i)) by (eapply entered_as; eassumption). assert (Nu : ds_number (enter i) = List.length (columns f)) by (eapply entered_number; eassumption).
    assert (P1 : sw_presolve (switches_of (in_options i)) = true) by exact (DefaultProof2.switches fuel fs items s f o N1 N2 De Oa On Im Sv i _ _ Se On).
    assert (P2 : sw_implicit (switches_of (in_options i)) = false \/ no_opposites (enter i)).
    { destruct Im as [X|X]; [left; exact (DefaultProof2.switches fuel fs items s f o N1 N2 De Oa On Im Sv i _ _ Se X)|right; eapply opposites_entered; eassumption]. }
    destruct (ParityProof4.p_model_same _ _ _ _ _ _ _ _ _ _ _ _ _ _ _ _ _ _ E) as (a' & _ & E').
    assert (P3 : calm_sets (switches_of (in_options i)) (with_user su (in_selections i)) true (enter i)).
    { destruct Sv as [X|X].
      - intros g s1 s2 _ _ _ Y. assert (Z := DefaultProof2.switches fuel fs items s f o N1 N2 De Oa On Im Sv i _ _ Se X). cbn [switches_of sw_set_vars] in Y. congruence.
      - destruct (weighted_entered fuel fs items s i lines f obj N1 N2 De Op Co Wf Ir Th Se X) as (c & Ic & Bc). exact (calm_weighted _ _ _ _ c Pm P1 Oi P2 Sr Ic Bc). }
    destruct (InfeasibleProof3.inequalities_solution _ _ _ _ _ _ _ _ _ _ _ _ _ _ _ _ _ Pe Pm Ae P1 Oi P2 Sr P3 E' F) as (z & Z1 & Z2 & Z3).
    assert (Es : exists y, (forall j n, nth_error (columns f) j = Some n -> y n = z j) /\ file_solution fs s f y /\ (e_eval (ds_obj (enter i)) z == row_value f y obj)%Q).
    { eapply entered_solution; try eassumption. eapply fixed_inside; eassumption. }
    destruct Es as (y & Y1 & Y2 & Y3).
    exists y. split; [|split; [exact Y2|split]].
    - intros j n J. rewrite (Y1 j n J). apply Z1. rewrite Nu. apply nth_error_Some. congruence.
    - rewrite (Z3 eq_refl). exact Y3.
    - intros j n w J Fw. assert (Jc : nth_error (columns f) j = Some n).
      { destruct (instance_facts fuel fs items s i lines f obj N1 N2 De Op Co Wf Th Se) as (im & _ & _ & _ & Nm & _). rewrite <- Nm. exact (map_nth_error fst _ _ J). }
      rewrite (Y1 j n Jc). destruct Z2 as [R _ _]. specialize (R j eq_refl). unfold DependentSpec.within in R. cbn [enter ds_vars] in R. unfold entered_vars in R. rewrite J in R. rewrite Fw in R. exact R.
  Qed.
  Definition saved_said := written_said show fuel order su on penalty shrink user nrm red ext sq lg root x a fs items s lines f obj N1 N2 De Op Co Wf Th default_run_answer.
  Definition saved_restart := written_restart show fuel order su on penalty shrink user nrm red ext sq lg root x a fs items s lines f obj N1 N2 De Op Co Wf Th default_run_answer.
  Definition saved_undefined := written_undefined show fuel order su on penalty shrink user nrm red ext sq lg root x a fs items s lines f obj N1 N2 De Op Co Wf Th default_run_answer.
End Answer.
