(** Proofs for C85: without presolve the reported bound holds for every solution of the
    MPS file. *)
From Coq Require Import List NArith ZArith QArith Qabs Bool Arith String Lia Lqa.
From Verif Require Import ExprModel ExprSpec ExprProof ConstraintModel ConstraintSpec VariableModel TypeModel TypeSpec PresolveModel PresolveSpec DuplicateModel
  DependentModel DependentSpec DependentProof6 SelectionModel SelectionSpec SelectionProof3 PrepareModel PrepareSpec PrepareProof3 PrepareProof5 TextModel MpsModel MpsSpec NamesModel NamesSpec NamesProof
  JsonModel OptionModel CommandModel CommandSpec LpModel LpSpec LagrangeModel WholeModel WholeSpec WholeProof RelaxModel RelaxSpec RelaxProof RelaxProof2 RelaxProof3 RelaxProof4 OfferModel ParityModel ParityProof4
  FileModel FileSpec FileProof FileProof2 FileProof3 CertifySpec.
From Verif Require CommandProof4 InfeasibleProof SolverModel PrepareProof7 WholeProof3 ScreenModel.
Import ListNotations.
Local Open Scope Z_scope.

(** ** A model solved without presolve *)
Section Off.
  Context (fuel : nat) (order : list nat -> list nat) (sw : switches) (su : surroundings) (m : bool) (s : dstate) (r : dstate * list sel).
  Hypothesis P : plain_model s.
  Hypothesis Of : sw_presolve sw = false.
  Hypothesis Pr : prepare fuel sw su m s = Some (Ok r).
  Lemma off_start : prepare_start sw su (prepare_selections sw su s) = Ok r.
  Proof. unfold prepare in Pr. rewrite (PrepareProof7.presolve_off fuel sw su m s Of) in Pr. cbn [PresolveModel.bind] in Pr. injection Pr as E. exact E. Qed.
  Lemma off_parts : (forall x, meets r x <-> solves s x) /\ ds_cons (fst r) = ds_cons (fst (prepare_selections sw su s)) /\ ds_dep (fst r) = ds_dep s /\ ds_obj (fst r) = ds_obj s /\
    ds_number (fst r) = ds_number s /\ same_but_value (ds_vars (fst (prepare_selections sw su s))) (ds_vars (fst r)) /\ lessened (ds_cons s) (ds_cons (fst r)).
  Proof.
    destruct (selections_slim sw su s (plain_slim s P)) as (_ & _ & Rd & Mt). destruct (rest_selections sw su s) as (R1 & R2 & _ & R4 & R5).
    destruct (start_done sw su _ r Rd off_start) as (Mt' & T1 & T2 & T3 & _ & T5 & T6 & _). rewrite T3, T5, T1, T2.
    split; [intros x; rewrite Mt'; apply Mt|]. auto 10.
  Qed.
  Lemma off_all_in_force : all_in_force r.
  Proof.
    destruct off_parts as (Mt & _ & _ & _ & _ & _ & Le). intros _ y M c I. refine (lessened_hold _ _ y Le _ c I). intros k K.
    apply (sv_cons _ _ (proj1 (Mt y) M) k K), (pl_enabled _ P), K.
  Qed.
  Lemma off_selected c : In c (sel_cons r) -> ct_sense c = Equal /\ (forall y, meets r y -> satisfies c y) /\ forall v, In v (keys (ct_expr c)) -> ds_dep (fst r) v = None.
  Proof.
    destruct off_parts as (Mt & Cq & Dp & _ & _ & _ & Le). pose proof (selection_origin sw su s) as So. destruct (selections_slim sw su s (plain_slim s P)) as (_ & _ & Rd & _). pose proof off_start as St.
    assert (Cn : forall t, In t (snd r) -> exists t', In t' (snd (prepare_selections sw su s)) /\ sl_con t' = sl_con t).
    { unfold prepare_start in St. destruct (prepare_selections sw su s) as [sq sels]. cbn [fst snd] in *. destruct (verify _ _ _ _ _ _) as [[vs' sels']|] eqn:V; [|discriminate]. injection St as <-. cbn [snd].
      destruct Rd as (Rd & Sn & _). cbn [fst snd] in *.
      assert (Sa : sane_bounds (ds_number sq) (ds_vars sq)) by (intros v _; destruct (Sn v) as (S1 & S2 & _); split; [exact S1|intros X; apply S2; auto]).
      destruct (verify_spec _ _ _ _ _ _ _ _ Rd Sa V) as (_ & _ & Ca & _). clear -Ca. induction Ca as [|a b l l' H Ca IH]; intros t [].
      - subst t. exists a. split; [now left|]. symmetry. apply H.
      - destruct (IH t H0) as (t' & I & E). exists t'. split; [now right|exact E]. }
    intros I. unfold sel_cons in I. apply in_flat_map in I as (t & It & I). destruct (Cn t It) as (t' & It' & Et).
    destruct (So t' It') as (d & Ed & En & Se & Bi). rewrite Et in *. destruct (lessened_nth _ _ _ _ Le Ed) as (d' & Ed' & Or). rewrite Ed' in I. destruct I as [<-|[]].
    assert (Sd : ct_sense d' = ct_sense d /\ ct_expr d' = ct_expr d) by (destruct Or as [->| ->]; split; reflexivity). destruct Sd as [Sd Xd].
    split; [congruence|]. split.
    - intros y M. apply Mt in M. unfold satisfies. rewrite Sd, Xd. exact (sv_cons _ _ M d (nth_error_In _ _ Ed) En).
    - intros v _. rewrite Dp. apply (pl_no_dependents s P).
  Qed.
  Lemma off_bound o nrm red ext sq lg root x a out : as_entered s -> free_binaries s -> wo_defined o = true ->
    (forall po envs late, rx_pdlp x = Some (po, envs, late) -> relaxable nrm red ext sq m r envs) -> (rx_lagrange x <> None -> m = true) ->
    p_solve fuel order sw su o nrm red ext sq lg root m x a s = Some (Ok out) -> bounds_all m s (reported_bound out).
  Proof.
    intros Ae Fb Df Rx Lx E. destruct (p_eq fuel order sw su o nrm red ext sq lg root m x a s r out Pr E) as (b & Eb & ->). rewrite (InfeasibleProof.off_idle order sw su r Of) in Eb |- *.
    pose proof (InfeasibleProof.off_ready fuel sw su m s r P Of Pr) as Rd. pose proof (WholeProof3.off_settled fuel sw su m s P Ae (or_intror Fb) r Of Pr) as St.
    intros y Sy. exact (proj1 (final_bound su o m s r off_all_in_force Rd (st_objective r St) Df off_selected nrm red ext sq lg root x a b Rx Lx Eb y Sy)).
  Qed.
End Off.

(** ** A solution of the file is one of the instance *)
Lemma fixed_interval f obj n z : well_formed f obj -> In (BFx z) (bounds_of f n) -> interval f n = (z, z).
Proof.
  intros (_ & _ & _ & _ & _ & _ & _ & _ & W9) Iz. apply in_split in Iz as (l & l' & Sp). pose proof (W9 n l z l' Sp) as ->.
  unfold interval. rewrite Sp. destruct (l ++ [BFx z])%list as [|b bs] eqn:Eb; [destruct l; discriminate|]. rewrite <- Eb, fold_left_app. reflexivity.
Qed.
Section Instance.
  Context (fuel : nat) (fs : files) (items : list item) (s : settings) (i : instance) (lines : list string) (f : content) (obj : string).
  Hypothesis N1 : Forall well_named items.
  Hypothesis N2 : Forall well_numbered items.
  Hypothesis De : describes items s.
  Hypothesis Op : opens fs (st_mps s) lines.
  Hypothesis Co : contains lines f.
  Hypothesis Wf : well_formed f obj.
  Hypothesis Ir : integer_rows f obj.
  Hypothesis Th : thin_binaries fs s f.
  Hypothesis Rd : CommandModel.setup fuel fs (flat_map words items) = Some (Ok (Ready i)).

  Lemma pinned n v w z : (va_lower v, va_upper v) = interval f n -> (va_fixed v = true -> va_lower v <= va_value v <= va_upper v) -> (va_fixed v = true <-> exists z, In (BFx z) (bounds_of f n)) ->
    prepared fs s n v w -> st_mutable s = EmptyString \/ st_fixed s = EmptyString -> va_fixed w = true -> left_to fs s f n z -> z = va_value w.
  Proof.
    intros Iv Va Fx (_ & Pm & Pf & Pn & _) Ex Fw (L1 & L2 & L3).
    assert (Fv : va_fixed v = true -> z = va_value v).
    { intros F. specialize (Va F). apply Fx in F as (k & Ik). rewrite (fixed_interval f obj n k Wf Ik) in Iv, L1. injection Iv as E1 E2. cbn [fst snd] in L1. lia. }
    destruct (string_dec (st_mutable s) EmptyString) as [Em|Em].
    - destruct (string_dec (st_fixed s) EmptyString) as [Ef|Ef].
      + destruct (Pn Em Ef) as [Q1 Q2]. rewrite Q1 in Fw. rewrite (Q2 (or_introl Fw)). exact (Fv Fw).
      + destruct (Pf Ef) as (ls & O & Q1 & Q2 & Q3). destruct (given_dec ls n) as [[t G]|G].
        * destruct (Q2 t G) as (q & A & Ne). exact (nearest_once q _ _ (L3 Ef ls t q O G A) Ne).
        * apply Q1 in Fw as [F|[t G']]; [rewrite (Q3 G (or_introl F)); exact (Fv F)|destruct (never_last ls n t G G')].
    - destruct (Pm Em) as (ls & O & Q1 & Q2). rewrite (Q2 (or_introl Fw)). apply (L2 Em ls O). intros Li. apply Q1 in Li. congruence.
  Qed.
  Lemma instance_pinned j n z : nth_error (columns f) j = Some n -> va_fixed (ds_vars (enter i) j) = true -> left_to fs s f n z -> z = va_value (ds_vars (enter i) j).
  Proof.
    intros Jn Fw Lz. destruct (CommandProof4.result fuel fs items s i N1 N2 De Rd) as (Ex & ls & m & im & o & O & R & I & _ & _ & _ & Iv & _).
    rewrite (opened fs _ _ _ O Op) in R. pose proof (import_from lines f obj (st_accept s) m im Wf Co R I) as Im.
    assert (Lj : (j < List.length (im_vars im))%nat) by (rewrite <- (map_length fst), (if_names _ _ _ _ Im); apply nth_error_Some; congruence).
    specialize (Iv j). destruct (nth_error (im_vars im) j) as [[n' v]|] eqn:E; [|apply nth_error_None in E; lia]. destruct Iv as (w & Ew & Pp).
    destruct (if_vars _ _ _ _ Im j n' v E) as (A1 & _ & A3 & _ & _ & A6 & A7). assert (n' = n) as -> by congruence.
    cbn [enter ds_vars] in *. unfold entered_vars in *. rewrite Ew in *. exact (pinned n v w z A3 A6 A7 Pp Ex Fw Lz).
  Qed.
  Lemma solution_entered y : file_solution fs s f y -> exists x, solves (enter i) x /\ (e_eval (ds_obj (enter i)) x == row_value f y obj)%Q.
  Proof.
    intros [Fe Lt]. set (x := fun j => match nth_error (columns f) j with Some n => y n | None => 0 end). exists x.
    pose proof (instance_facts fuel fs items s i lines f obj N1 N2 De Op Co Wf Th Rd) as (im & Im & Ic & Io & Nm & Va & _).
    destruct (if_means _ _ _ _ Im y) as [Me Mo]. cbv zeta in Me, Mo. apply Me in Fe. destruct Fe as [_ Cs].
    assert (X : forall j, (j < List.length (columns f))%nat -> x j = y (nth j (columns f) EmptyString)).
    { intros j L. unfold x. destruct (nth_error (columns f) j) as [n|] eqn:E; [|apply nth_error_None in E; lia]. rewrite (nth_error_nth _ _ EmptyString E). reflexivity. }
    pose proof (entered_number fuel fs items s i lines f obj N1 N2 De Op Co Wf Th Rd) as Nu.
    split; [constructor|].
    - intros j _. unfold DependentSpec.within. destruct (entered_var fuel fs items s i lines f obj N1 N2 De Op Co Wf Th Rd j) as [(n & Jn & (_ & Bw & _))|[Jn ->]]; unfold x; rewrite Jn; [|reflexivity].
      pose proof (Lt n (nth_error_In _ _ Jn)) as Ln. destruct (va_fixed (ds_vars (enter i) j)) eqn:F; [exact (instance_pinned j n _ Jn F Ln)|].
      destruct Ln as [Ln _]. rewrite <- Bw in Ln. exact Ln.
    - intros c J _. destruct (entered_con fuel fs items s i lines f obj N1 N2 De Op Co Wf Ir Th Rd c J) as (_ & e & k & _ & E & _ & _ & _ & _ & K).
      cbn [enter ds_cons] in J. apply in_map_iff in J as ([n c'] & Y & J). cbn in Y. subst c'. rewrite Ic in J. specialize (Cs n c J). unfold satisfies.
      assert (Ev : (e_eval (ct_expr c) (fun j => y (nth j (columns f) EmptyString)) == e_eval (ct_expr c) x)%Q).
      { apply eval_agree. intros v Jv. symmetry. apply X. rewrite E in Jv. cbn [c_setup ct_expr] in Jv. rewrite <- Nu. exact (K v Jv). }
      destruct (ct_sense c); cbn [holds] in *; rewrite Ev in Cs; exact Cs.
    - intros v k D. discriminate D.
    - cbn [enter ds_obj]. rewrite Io, <- Mo. apply eval_agree. intros v J. apply X. exact (proj2 (if_obj _ _ _ _ Im) v J).
  Qed.
  (** The objective has no constant. *)
  Lemma no_constant : (ex_const (ds_obj (enter i)) == 0)%Q.
  Proof.
    pose proof (instance_facts fuel fs items s i lines f obj N1 N2 De Op Co Wf Th Rd) as (im & Im & _ & Io & _). cbn [enter ds_obj]. rewrite Io.
    destruct (if_means _ _ _ _ Im (fun _ => 0)) as [_ Mo]. cbv zeta in Mo. rewrite eval_lin in Mo.
    assert (L : (lin (ex_sens (im_objective im)) (fun _ => 0%Z) == 0)%Q) by (generalize (ex_sens (im_objective im)); intros l; induction l as [|[v a] l IH]; cbn [lin]; [reflexivity|rewrite IH; unfold inject_Z; ring]).
    assert (Rv : (row_value f (fun _ => 0%Z) obj == 0)%Q).
    { unfold row_value. generalize (filter (fun t : string * string * Q => String.eqb (snd (fst t)) obj) (triples (f_cols f))). intros l. induction l as [|t l IH]; cbn; [reflexivity|]. unfold sum in IH. cbn in IH. rewrite IH. ring. }
    lra.
  Qed.
End Instance.

(** ** The run *)
Section Answer.
  Context (fuel : nat) (order : list nat -> list nat) (su : surroundings) (on : ctype -> bool) (penalty : Q) (shrink user : bool)
    (nrm : list Q -> Q) (red ext : nat -> Q) (sq : Q -> Q) (lg : Z -> Q) (root : Q -> Q) (x : relaxations) (a : ninputs)
    (fs : files) (items : list item) (s : settings) (lines : list string) (f : content) (obj : string) (out : SolverModel.outcome (SolverModel.answer * SolverModel.run)).
  Hypothesis N1 : Forall well_named items.
  Hypothesis N2 : Forall well_numbered items.
  Hypothesis De : describes items s.
  Hypothesis Op : opens fs (st_mps s) lines.
  Hypothesis Co : contains lines f.
  Hypothesis Wf : well_formed f obj.
  Hypothesis Ir : integer_rows f obj.
  Hypothesis Th : thin_binaries fs s f.
  Hypothesis Of : presolve_off fuel fs s.
  Hypothesis Re : forall po envs late, rx_pdlp x = Some (po, envs, late) -> file_relaxable nrm red ext sq f envs.
  Hypothesis Rn : run_command fuel order su on penalty shrink user nrm red ext sq lg root x a fs (flat_map words items) = Some (Ok (Some out)).
  Lemma file_bound y : file_solution fs s f y -> (reported_bound out <= row_value f y obj)%Q.
  Proof.
    intros Fy. destruct (run_parts fuel order su on penalty shrink user nrm red ext sq lg root x a fs items out Rn) as (i & Se & E).
    pose proof (values_inside fuel order su on penalty shrink user nrm red ext sq lg root x a fs items s lines f obj out N1 N2 De Op Co Wf Ir Th Of i Se E) as Fi.
    pose proof (switched_off fuel fs items s N1 N2 De Of i Se) as Off.
    assert (Ae : as_entered (enter i)) by (eapply entered_as; eassumption). assert (Fr : free_binaries (enter i)) by (eapply entered_free; eassumption).
    assert (Nu : ds_number (enter i) = List.length (columns f)) by (eapply entered_number; eassumption).
    destruct (p_model_same _ _ _ _ _ _ _ _ _ _ _ _ _ _ _ _ _ _ E) as (a' & _ & E').
    assert (Pl : plain_model (enter i)) by (eapply entered_plain; eassumption).
    destruct (InfeasibleProof.p_prepared _ _ _ _ _ _ _ _ _ _ _ _ _ _ _ _ E') as [r Pr].
    destruct (off_parts _ _ _ _ _ _ Pl Off Pr) as (_ & _ & _ & Ob & Nr & Sb & _).
    pose proof (no_constant fuel fs items s i lines f obj N1 N2 De Op Co Wf Th Se) as Nc.
    assert (B : bounds_all true (enter i) (reported_bound out)).
    { refine (off_bound _ _ _ _ _ _ _ Pl Off Pr _ _ _ _ _ _ _ _ _ _ Ae Fr _ _ _ E'); [reflexivity| |reflexivity].
      intros po envs late Ex. destruct (Re po envs late Ex) as (P1 & P2 & P3 & P4 & P5). split; [exact P1|]. split; [exact P2|]. split; [exact P3|]. split; [exact P4|]. split.
      - intros v Iv _. apply in_seq in Iv. destruct (Sb v) as (S1 & S2 & _).
        destruct (PrepareProof7.selections_untouched (switches_of (in_options i)) (with_user su (in_selections i)) (enter i)) as (_ & _ & _ & _ & Un & _). destruct (Un v) as (U1 & U2 & _). cbv zeta in U1, U2.
        rewrite S1, S2, U1, U2. assert (Ev : (exists n, nth_error (columns f) v = Some n /\ var_of fs s f n (ds_vars (enter i) v)) \/ (nth_error (columns f) v = None /\ ds_vars (enter i) v = no_variable))
          by (eapply entered_var; eassumption). destruct Ev as [(n & Jn & (_ & Bw & _))|[_ ->]]; [|cbn; lia]. specialize (P5 n (nth_error_In _ _ Jn)). rewrite <- Bw in P5. exact P5.
      - rewrite Ob. rewrite Nc. apply Qle_refl. }
    destruct (solution_entered fuel fs items s i lines f obj N1 N2 De Op Co Wf Ir Th Se y Fy) as (z & Sz & Ez). specialize (B z Sz). cbv beta iota in B. rewrite Ez in B. exact B.
  Qed.
End Answer.
