(** Proofs for C83: the answer; examples. *)
From Coq Require Import List NArith ZArith QArith Qabs Bool Arith String Ascii Lia Lqa.
From Verif Require Import ExprModel ExprSpec ConstraintModel VariableModel TypeModel PresolveModel PresolveSpec DuplicateModel
  DependentModel DependentSpec SelectionModel PrepareModel PrepareSpec PrepareProof6 TextModel MpsModel MpsSpec NamesModel NamesSpec NamesProof JsonModel OptionModel CommandModel CommandSpec
  SolverModel WholeModel WholeSpec WholeProof4 RelaxModel OfferModel ParityModel FileModel FileSpec FileProof FileProof2.
From Verif Require CommandProof4 ParityProof4 InfeasibleProof SelectionProof2 SelectionProof3 SelectionSpec PrepareProof7.
Import ListNotations.
Local Open Scope Z_scope.

(** The start is accepted only if the fixed variables have values within their bounds. *)
Lemma checked_start fuel sw su m s r : coherent s -> (forall v, va_sense (ds_vars s v) = VBinary \/ va_sense (ds_vars s v) = VInteger) ->
  (forall v, va_lower (ds_vars s v) <= va_upper (ds_vars s v) /\ (va_sense (ds_vars s v) = VBinary -> 0 <= va_lower (ds_vars s v) /\ va_upper (ds_vars s v) <= 1)) ->
  sw_presolve sw = false -> prepare fuel sw su m s = Some (Ok r) ->
  forall v, (v < ds_number s)%nat -> va_fixed (ds_vars s v) = true ->
    (va_sense (ds_vars s v) = VBinary -> va_value (ds_vars s v) = 0 \/ va_value (ds_vars s v) = 1) /\
    (va_sense (ds_vars s v) = VInteger -> va_lower (ds_vars s v) <= va_value (ds_vars s v) <= va_upper (ds_vars s v)).
Proof.
  intros Co Se Bo Of P v Lv Fv. unfold prepare in P. rewrite (PrepareProof7.presolve_off fuel sw su m s Of) in P.
  set (q := prepare_selections sw su s) in *. destruct (PrepareProof7.selections_untouched sw su s) as (_ & _ & _ & Nn & Un & _). fold q in Nn, Un.
  assert (Rd : SelectionSpec.selections_ready (ds_vars (fst q)) (snd q) /\ forall t w, In t (snd q) -> In w (sl_vars t) -> va_sense (ds_vars s w) = VBinary).
  { unfold q, prepare_selections. destruct (_ && _).
    - rewrite SelectionProof2.extract_eq.
      pose proof (SelectionProof2.extracted_senses (su_name su) (su_cname su) (sw_mode sw) (su_user su) (vctx (su_name su) (ds_vars s)) (ds_vars s) (ds_cons s)) as HS.
      pose proof (SelectionProof2.extracted_origin (su_name su) (su_cname su) (sw_mode sw) (su_user su) (vctx (su_name su) (ds_vars s)) (ds_vars s) (ds_cons s)) as HO.
      pose proof (SelectionProof2.extracted_disjoint (su_name su) (su_cname su) (sw_mode sw) (su_user su) (vctx (su_name su) (ds_vars s)) (ds_vars s) (ds_cons s)) as HD.
      cbv zeta in HS. cbn [fst snd ds_vars]. split.
      + split; [exact HD|]. intros t I. destruct (HO t I) as (c & (E & _) & Pm & _). split.
        * apply (Permutation.Permutation_NoDup (Permutation.Permutation_sym Pm)). exact (proj1 (co_cons s Co c (nth_error_In _ _ E))).
        * intros w J. destruct (HS w) as [A _]. rewrite A by eauto. reflexivity.
      + intros t w I J. destruct (HO t I) as (c & (_ & _ & _ & Bin) & Pm & _). apply Bin, (Permutation.Permutation_in _ Pm), J.
    - cbn [fst snd]. split; [|intros t w []]. split; [|intros t []]. intros [|i] j t u D E; discriminate. }
  destruct q as [s' sels] eqn:Q. cbn [fst snd] in *. cbn [PresolveModel.bind prepare_start] in P.
  destruct (verify _ _ _ _ _ sels) as [[vs' sels']|] eqn:V; [|discriminate]. clear P.
  apply SelectionProof3.verify_spec in V; [|exact (proj1 Rd)|].
  2:{ intros w _. destruct (Un w) as (A1 & A2 & _ & _ & A5). cbv zeta in *. rewrite A1, A2. destruct (Bo w) as [B1 B2]. split; [exact B1|]. destruct A5 as [A5|(t & I & J)]; [rewrite A5; exact B2|].
      intros _. apply B2. exact (proj2 Rd t w I J). }
  destruct V as (Sm & [Ch Va] & _). destruct (Sm v) as (S1 & S2 & S3 & S4 & S5). destruct (Un v) as (U1 & U2 & U3 & U4 & U5). cbv zeta in *.
  assert (Ev : va_value (vs' v) = va_value (ds_vars s v)) by (rewrite S5; [exact U4|rewrite U3; exact Fv]). rewrite Nn in Va. destruct (Va v Lv) as [V1 V2]. rewrite S4, Ev in V1, V2. rewrite S1, S2, U1, U2 in V2.
  destruct U5 as [U5|(t & I & J)].
  - rewrite U5 in V1, V2. auto.
  - pose proof (proj2 Rd t v I J) as Bi. split; [intros _|congruence]. destruct (Ch t I) as (w & W1 & W2 & W3). rewrite <- Ev. destruct (Nat.eq_dec v w) as [->|D]; [now right|left; exact (W3 v J D)].
Qed.

Section Answer.
  Context (fuel : nat) (order : list nat -> list nat) (su : surroundings) (on : ctype -> bool) (penalty : Q) (shrink user : bool)
    (nrm : list Q -> Q) (red ext : nat -> Q) (sq : Q -> Q) (lg : Z -> Q) (root : Q -> Q) (x : relaxations) (a : ninputs)
    (fs : files) (items : list item) (s : settings) (lines : list string) (f : content) (obj : string) (out : SolverModel.outcome (answer * run)).
  Hypothesis N1 : Forall well_named items.
  Hypothesis N2 : Forall well_numbered items.
  Hypothesis De : describes items s.
  Hypothesis Op : opens fs (st_mps s) lines.
  Hypothesis Co : contains lines f.
  Hypothesis Wf : well_formed f obj.
  Hypothesis Ir : integer_rows f obj.
  Hypothesis Th : thin_binaries fs s f.
  Hypothesis Of : presolve_off fuel fs s.
  Hypothesis Rn : run_command fuel order su on penalty shrink user nrm red ext sq lg root x a fs (flat_map words items) = Some (Ok (Some out)).

  Lemma run_parts : exists i, CommandModel.setup fuel fs (flat_map words items) = Some (Ok (Ready i)) /\
    p_solve_model fuel order (switches_of (in_options i)) (with_user su (in_selections i)) on (in_pairs i) (mkWo penalty shrink true user) nrm red ext sq lg root true x a (enter i) = Some (Ok out).
  Proof.
    unfold run_command in Rn. destruct (CommandModel.setup fuel fs (flat_map words items)) as [[[|i]| |]|] eqn:Se; try discriminate.
    destruct (p_solve_model _ _ _ _ _ _ _ _ _ _ _ _ _ _ _ _ _) as [[r| |]|] eqn:E; cbn [bind] in Rn; try discriminate. injection Rn as ->. eauto.
  Qed.
  Lemma switched_off i : CommandModel.setup fuel fs (flat_map words items) = Some (Ok (Ready i)) -> sw_presolve (switches_of (in_options i)) = false.
  Proof.
    intros Se. cbn [switches_of sw_presolve]. unfold preprocess_flag, flag. destruct (CommandProof4.result fuel fs items s i N1 N2 De Se) as (_ & ls & m & im & o & _ & _ & _ & O & _ & _ & _ & _ & Pa & _).
    rewrite (Pa "preprocess"%string "is_enabled_presolve"%string); [|intros X; discriminate X]. destruct Of as (Ne & text & o' & T & S & P). destruct O as [[X _]|[_ (text' & T' & S')]]; [contradiction|].
    rewrite T in T'. injection T' as <-. rewrite S in S'. injection S' as <-. rewrite P. reflexivity.
  Qed.
  Lemma values_inside i : CommandModel.setup fuel fs (flat_map words items) = Some (Ok (Ready i)) ->
    p_solve_model fuel order (switches_of (in_options i)) (with_user su (in_selections i)) on (in_pairs i) (mkWo penalty shrink true user) nrm red ext sq lg root true x a (enter i) = Some (Ok out) ->
    forall v, va_fixed (ds_vars (enter i) v) = true -> va_lower (ds_vars (enter i) v) <= va_value (ds_vars (enter i) v) <= va_upper (ds_vars (enter i) v).
  Proof.
    intros Se E v Fv. destruct (ParityProof4.p_model_same _ _ _ _ _ _ _ _ _ _ _ _ _ _ _ _ _ _ E) as (a' & _ & E').
    destruct (InfeasibleProof.p_prepared _ _ _ _ _ _ _ _ _ _ _ _ _ _ _ _ E') as [pr Pr].
    assert (Nu : ds_number (enter i) = List.length (columns f)) by (eapply entered_number; eassumption).
    assert (Ev : (exists n, nth_error (columns f) v = Some n /\ var_of fs s f n (ds_vars (enter i) v)) \/ (nth_error (columns f) v = None /\ ds_vars (enter i) v = no_variable))
      by (eapply entered_var; eassumption).
    destruct Ev as [(n & Jn & (_ & _ & L & Se' & T & _))|[_ ->]]; [|cbn; lia].
    assert (Lv : (v < ds_number (enter i))%nat) by (rewrite Nu; apply nth_error_Some; congruence).
    assert (Ck := checked_start _ _ _ _ _ _ (entered_coherent fuel fs items s i lines f obj N1 N2 De Op Co Wf Ir Th Se) (senses fuel fs items s i lines f obj N1 N2 De Op Co Wf Th Se)
      (entered_bounds fuel fs items s i lines f obj N1 N2 De Op Co Wf Th Se) (switched_off i Se) Pr v Lv Fv). destruct Ck as [C1 C2].
    rewrite Se' in C1, C2. clear Pr E E'. set (w := ds_vars (enter i) v) in *. unfold thin in T.
    unfold binary_or_integer in C1, C2. destruct ((va_lower w =? 0) && (va_upper w =? 1)) eqn:E1.
    { cbn [orb] in C1. apply andb_true_iff in E1 as [A1 A2]. apply Z.eqb_eq in A1, A2. rewrite A1, A2. destruct (C1 eq_refl) as [X|X]; rewrite X; lia. }
    destruct ((va_lower w =? 0) && (va_upper w =? 0)) eqn:E2.
    { apply andb_true_iff in E2 as [A1 A2]. apply Z.eqb_eq in A1, A2. apply T. left. congruence. }
    destruct ((va_lower w =? 1) && (va_upper w =? 1)) eqn:E3.
    { apply andb_true_iff in E3 as [A1 A2]. apply Z.eqb_eq in A1, A2. apply T. right. congruence. }
    cbn [orb] in C2. exact (C2 eq_refl).
  Qed.
  Lemma file_answer : match out with
    | Done (an, _) => an_feasible an = true -> exists y, (forall j n, nth_error (columns f) j = Some n -> y n = an_x an j) /\ file_solution fs s f y /\
        (an_objective an == row_value f y obj)%Q
    | _ => True end.
  Proof.
    destruct run_parts as (i & Se & E). destruct out as [[an rn]| |] eqn:Eo; [|exact Logic.I|exact Logic.I]. intros F. pose proof (values_inside i Se) as Fi. rewrite Eo in Fi. specialize (Fi E). pose proof (switched_off i Se) as Off.
    assert (Ae : as_entered (enter i)) by (eapply entered_as; eassumption). assert (Fr : free_binaries (enter i)) by (eapply entered_free; eassumption).
    assert (Nu : ds_number (enter i) = List.length (columns f)) by (eapply entered_number; eassumption).
    destruct (ParityProof4.p_model_same _ _ _ _ _ _ _ _ _ _ _ _ _ _ _ _ _ _ E) as (a' & _ & E').
    assert (Pl : plain_model (enter i)) by (eapply entered_plain; eassumption).
    destruct (InfeasibleProof.off_solution _ _ _ _ _ _ _ _ _ _ _ _ _ _ _ _ _ Pl Ae Fr Off E' F) as (z & Z1 & Z2 & Z3).
    assert (Es : exists y, (forall j n, nth_error (columns f) j = Some n -> y n = z j) /\ file_solution fs s f y /\ (e_eval (ds_obj (enter i)) z == row_value f y obj)%Q)
      by (eapply entered_solution; eassumption).
    destruct Es as (y & Y1 & Y2 & Y3).
    exists y. split; [|split; [exact Y2|]].
    - intros j n J. rewrite (Y1 j n J). apply Z1. rewrite Nu. apply nth_error_Some. congruence.
    - rewrite (Z3 eq_refl). exact Y3.
  Qed.
  Lemma file_values n : In n (columns f) -> exists z, left_to fs s f n z.
  Proof.
    intros In'. destruct run_parts as (i & Se & E). pose proof (values_inside i Se E) as Fi. destruct (In_nth_error _ _ In') as [j Jn].
    assert (Ev : (exists n, nth_error (columns f) j = Some n /\ var_of fs s f n (ds_vars (enter i) j)) \/ (nth_error (columns f) j = None /\ ds_vars (enter i) j = no_variable))
      by (eapply entered_var; eassumption).
    destruct Ev as [(n' & J & (_ & Bw & L & _ & _ & Fl))|[J _]]; [|congruence]. assert (n' = n) as -> by congruence.
    exists (if va_fixed (ds_vars (enter i) j) then va_value (ds_vars (enter i) j) else va_lower (ds_vars (enter i) j)). split.
    - rewrite <- Bw. cbn [fst snd]. destruct (va_fixed (ds_vars (enter i) j)) eqn:F; [exact (Fi j F)|lia].
    - apply Fl. destruct (va_fixed (ds_vars (enter i) j)); [reflexivity|exact Logic.I].
  Qed.
End Answer.

(** ** A command line *)
Definition text (ls : list string) : string := fold_right (fun l r => append l (String LF r)) EmptyString ls.
Local Open Scope string_scope.
Definition d_head : list string :=
  ["NAME  demo"; "ROWS"; " N  cost"; " L  cap"; " E  pick"; "COLUMNS"; " MARKER  'MARKER'  'INTORG'"; " x  cost  -1  cap  2"; " x  pick  1"; " y  cost  3  cap  1"; " y  pick  1"; " z  cost  -1  cap  1";
   " MARKER  'MARKER'  'INTEND'"; "RHS"; " rhs  cap  4  pick  1"; "BOUNDS"].
Definition d_lines (fx : bool) : list string := (d_head ++ [if fx then " FX  bnd  z  0" else " UP  bnd  z  5"; "ENDATA"])%list.
Definition d_content (fx : bool) : content :=
  mkContent [(KN, "cost"); (KL, "cap"); (KE, "pick")]
    [Marker true; Column "x" [("cost", (-1)); ("cap", 2)]; Column "x" [("pick", 1)]; Column "y" [("cost", 3); ("cap", 1)]; Column "y" [("pick", 1)]; Column "z" [("cost", (-1)); ("cap", 1)]; Marker false]%Q
    [("cap", 4); ("pick", 1)]%Q [(if fx then BFx 0 else BUp 5, "z")].
Definition d_files (fx : bool) : files := fun n =>
  if (n =? "demo.mps")%string then Some (text (d_lines fx))
  else if (n =? "off.json")%string then Some "{""preprocess"": {""is_enabled_presolve"": false}}"
  else if (n =? "fix.txt")%string then Some (text ["x 0.2"; "w 7"])
  else if (n =? "five.txt")%string then Some (text ["x 0"; "z 5"])
  else if (n =? "one.txt")%string then Some (text ["z 1"])
  else if (n =? "far.txt")%string then Some (text ["z 9"])
  else None.
Definition d_items (fixed : string) : list item := [IFile FFixed fixed; IMps "demo.mps"; IFile FOption "off.json"].
Definition d_run (fx : bool) (fixed : string) := run_command 100 (fun l => l) p_around (fun _ => true) 100%Q false false (fun _ => 1%Q) (fun _ => 1%Q) (fun _ => 1%Q) (fun q => q)
  w_lg (fun q => q) (mkRx None None) InfeasibleProof.u_inputs (d_files fx) (flat_map words (d_items fixed)).
Definition d_view (r : option (PresolveModel.outcome (option (SolverModel.outcome (answer * run))))) := match r with Some (Ok (Some o)) => WholeProof4.shown 3 (Some (Ok o)) | _ => None end.
