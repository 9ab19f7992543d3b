(** Proofs for C90: the written JSON file. *)
From Coq Require Import List NArith ZArith QArith Qabs Bool Arith String Ascii Lia Lqa Permutation.
From Verif Require Import ExprModel ConstraintModel VariableModel TypeModel PresolveModel PresolveSpec SelectionModel PrepareModel TextModel TextProof TextProof2 MpsModel MpsSpec MpsProof3 NamesModel NamesSpec NamesProof NamesProof3 JsonModel JsonSpec OptionModel
  CommandModel CommandSpec CommandProof2 CommandProof3 CommandProof4 SolverModel WholeModel WholeSpec RelaxModel OfferModel ParityModel FileModel FileSpec FileProof FileProof2 FileProof3 IncumbentModel IncumbentSpec IncumbentProof IncumbentProof2
  ArraySpec ReportModel ReportSpec ReportProof4 WrittenModel WrittenSpec.
From Verif Require CommandProof5.
Import ListNotations.
Local Open Scope Z_scope.

Lemma import_solution_shapes tbl m : forall m', import_solution tbl m = Ok m' -> map px_shape m' = map px_shape m.
Proof.
  induction m as [|p tl IH]; intros m'; cbn [import_solution]; [intros [= <-]; reflexivity|].
  intros H. apply bind_ok in H. destruct H as (l & _ & H). apply bind_ok in H. destruct H as (r & E & [= <-]). cbn. f_equal. apply IH. exact E.
Qed.
(** The group of variables has the shape of a list. *)
Lemma one_shape fuel fs items s i lines f obj : Forall well_named items -> Forall well_numbered items -> describes items s -> opens fs (st_mps s) lines -> contains lines f -> well_formed f obj ->
  CommandModel.setup fuel fs (flat_map words items) = Some (Ok (Ready i)) -> map px_shape (in_vars i) = [[Z.of_nat (List.length (columns f))]].
Proof.
  intros W N D Op Co Wf H. destruct (setup_inv fuel fs _ s i (parse_described items s W N D) H) as (X & im & o & L & O & A).
  assert (Nm : map fst (im_vars im) = columns f).
  { unfold load_mps in L. apply bind_ok in L. destruct L as (ls & L1 & L). apply bind_ok in L. destruct L as (m & L2 & L3). apply open_ok in L1. rewrite (opens_unique _ _ _ _ L1 Op) in L2.
    exact (if_names _ _ _ _ (import_from lines f obj (st_accept s) m im Wf Co L2 L3)). }
  rewrite <- Nm, map_length. unfold apply_files in A. set (m0 := [mkProxy "variables" [Z.of_nat (List.length (im_vars im))] (im_vars im)]) in A.
  apply bind_ok in A. destruct A as (m1 & M1 & A). apply bind_ok in A. destruct A as (m2 & M2 & A). apply bind_ok in A. destruct A as (sels & Sel & A).
  apply bind_ok in A. destruct A as ([o' pairs] & Prs & A). apply bind_ok in A. destruct A as (m3 & M3 & A). injection A as <-. cbn [in_vars].
  assert (Ea : forall g m, map px_shape (each g m) = map px_shape m) by (intros g m; unfold each; rewrite map_map; reflexivity).
  assert (L1 : map px_shape m1 = map px_shape m0). { destruct (is_empty (st_mutable s)); [injection M1 as <-; reflexivity|]. apply bind_ok in M1. destruct M1 as (ls & _ & [= <-]). reflexivity. }
  assert (L2 : map px_shape m2 = map px_shape m0). { destruct (is_empty (st_fixed s)); [injection M2 as <-; exact L1|]. apply bind_ok in M2. destruct M2 as (ls & _ & M2). apply bind_ok in M2. destruct M2 as (tbl & _ & [= <-]). unfold fix_variables. rewrite Ea. exact L1. }
  destruct (is_empty (st_initial s)); [injection M3 as <-; exact L2|]. apply bind_ok in M3. destruct M3 as (ls & _ & M3). apply bind_ok in M3. destruct M3 as (tbl & _ & M3). rewrite (import_solution_shapes _ _ _ M3). exact L2.
Qed.
Lemma put_from_length x l : forall k, List.length (put_from k x l) = List.length l.
Proof. induction l as [|[n v] l IH]; intros k; [reflexivity|]. cbn [put_from List.length]. now rewrite IH. Qed.
Lemma rounded_eq p q r : (p == q)%Q -> rounded p r -> rounded q r.
Proof. intros E [A B]. split; [rewrite <- E; exact A|]. intros k e H K. rewrite <- E. apply (B k e); [rewrite E; exact H|exact K]. Qed.

Section Written.
  Context (rr : row_report) (fuel : nat) (order : list nat -> list nat) (su : surroundings) (on : ctype -> bool) (penalty : Q) (shrink user : bool)
    (nrm : list Q -> Q) (red ext : nat -> Q) (sq : Q -> Q) (lg : Z -> Q) (root : Q -> Q) (x : relaxations) (a : ninputs)
    (fs : files) (items : list item) (s : settings) (lines : list string) (f : content) (obj : string).
  Hypothesis N1 : Forall well_named items.
  Hypothesis N2 : Forall well_numbered items.
  Hypothesis De : describes items s.
  Hypothesis Op : opens fs (st_mps s) lines.
  Hypothesis Co : contains lines f.
  Hypothesis Wf : well_formed f obj.
  Hypothesis Th : thin_binaries fs s f.
  Hypothesis Ans : forall an rn, run_command fuel order su on penalty shrink user nrm red ext sq lg root x a fs (flat_map words items) = Some (Ok (Some (Done (an, rn)))) ->
    exists i, CommandModel.setup fuel fs (flat_map words items) = Some (Ok (Ready i)) /\ (an_feasible an = true -> answered fs s f obj i an).

  Lemma written_values_json i an y : CommandModel.setup fuel fs (flat_map words items) = Some (Ok (Ready i)) -> (forall j n, nth_error (columns f) j = Some n -> y n = an_x an j) ->
    exists name, rp_var (incumbent_report rr i an) = [(name, mkVp [Z.of_nat (List.length (columns f))] (map (fun n => VInt (y n)) (columns f)) (columns f))].
  Proof.
    intros Se Y. destruct (one_proxy fuel fs items s i N1 N2 De Se) as [p Ep]. pose proof (one_shape fuel fs items s i lines f obj N1 N2 De Op Co Wf Se) as Sh. rewrite Ep in Sh. cbn in Sh. injection Sh as Sh.
    destruct (instance_facts fuel fs items s i lines f obj N1 N2 De Op Co Wf Th Se) as (im & _ & _ & _ & Nm & _). rewrite Ep in Nm. cbn [elements flat_map] in Nm. rewrite app_nil_r in Nm.
    exists (px_name p). unfold incumbent_report. cbn [rp_var]. rewrite Ep. cbn [put_proxies setup_unique_names variable_values map px_name px_shape px_elems].
    rewrite name_elements_same.
    2:{ intros e J. apply (in_map fst) in J. rewrite put_from_names, Nm in J. exact (proj1 (columns_plain lines f _ Co J)). }
    rewrite put_from_names, Nm, Sh. f_equal. f_equal. f_equal.
    transitivity (map (fun e => VInt (snd e)) (map (fun e => (fst e, va_value (snd e))) (put_from 0 (an_x an) (px_elems p)))); [rewrite map_map; reflexivity|].
    rewrite put_from_values, Nm. assert (L : List.length (px_elems p) = List.length (columns f)) by (rewrite <- Nm, map_length; reflexivity). rewrite L.
    assert (G : forall l k, (forall j n, nth_error l j = Some n -> y n = an_x an (k + j)%nat) -> map (fun e => VInt (snd e)) (combine l (map (an_x an) (seq k (List.length l)))) = map (fun n => VInt (y n)) l).
    { induction l as [|n l IH]; intros k H; [reflexivity|]. cbn [List.length seq map combine snd]. f_equal; [f_equal; rewrite (H 0%nat n eq_refl); f_equal; lia|]. apply IH. intros j m E. rewrite (H (S j) m E). f_equal. lia. }
    apply G. exact Y.
  Qed.

  Lemma elements_number i : CommandModel.setup fuel fs (flat_map words items) = Some (Ok (Ready i)) -> List.length (elements (in_vars i)) = List.length (columns f).
  Proof. intros Se. destruct (instance_facts fuel fs items s i lines f obj N1 N2 De Op Co Wf Th Se) as (im & _ & _ & _ & Nm & _). rewrite <- Nm, map_length. reflexivity. Qed.
  Lemma written_json r : report_of rr fuel order su on penalty shrink user nrm red ext sq lg root x a fs (flat_map words items) = Some r -> rp_feasible r = true ->
    columns f <> [] -> Forall plain (columns f) -> sound_summary r -> sound_names (rr_expr rr) -> sound_names (rr_con rr) -> sound_names (rr_vio rr) ->
    exists y, file_solution fs s f y /\ saved_as r f y (row_value f y obj).
  Proof.
    unfold report_of. destruct (CommandModel.setup fuel fs (flat_map words items)) as [[[|i]| |]|] eqn:Se; try discriminate.
    destruct (run_command fuel order su on penalty shrink user nrm red ext sq lg root x a fs (flat_map words items)) as [[[[[an rn]| |]|]| |]|] eqn:Rn; try discriminate. intros [= <-] Fe Nc Pl Ss S1 S2 S3.
    destruct (Ans an rn eq_refl) as (i' & Se' & A). assert (i' = i) as -> by congruence. destruct (A Fe) as (y & Y1 & Y2 & Y3 & _). exists y. split; [exact Y2|].
    destruct (written_values_json i an y Se Y1) as (name & V).
    assert (Sv : sound_names (rp_var (incumbent_report rr i an))).
    { rewrite V. split; [cbn [flat_map snd vp_names]; rewrite app_nil_r; apply columns_nodup|]. apply Forall_cons; [|apply Forall_nil]. cbn [snd vp_names vp_values]. split; [|split; [exact Pl|]].
      - split; [split; [intros X; discriminate X|apply Forall_cons; [|apply Forall_nil]; destruct (columns f); [contradiction|cbn [List.length]; lia]]|]. cbn [vp_shape vp_values vp_names]. rewrite map_length. split; [cbn [volume]; lia|]. split; [reflexivity|].
        apply Forall_forall. intros v J. apply in_map_iff in J as (n & <- & J). destruct (proj2 Y2 n J) as (B & _). pose proof (interval_int lines f n Co) as [B1 B2]. unfold INT_MIN, INT_MAX in *. cbn [sound_value]. lia.
      - apply Forall_forall. intros v J. apply in_map_iff in J as (n & <- & J). exact Logic.I. }
    destruct (by_name (incumbent_report rr i an) Ss Sv S1 S2 S3) as (file & m & Wr & Rd & (K1 & K2 & K3 & K4 & K5 & (q & K6 & K6') & _) & (l & L1 & L2) & _).
    exists file, m, l. split; [exact Wr|]. split; [exact Rd|]. split; [exact K2|]. split; [rewrite K3; cbn [incumbent_report rp_variables]; do 3 f_equal; exact (elements_number i Se)|]. split; [rewrite K5; cbn [incumbent_report rp_feasible]; cbn [incumbent_report rp_feasible] in Fe; rewrite Fe; reflexivity|].
    split; [|split; [exact L1|]].
    - exists q. split; [exact K6|]. cbn [incumbent_report rp_objective] in K6'. exact (rounded_eq _ _ _ Y3 K6').
    - intros n J. destruct (In_nth_error _ _ J) as [j E]. rewrite V in L2. destruct (L2 name _ j n (VInt (y n)) (or_introl eq_refl) E) as (w & W1 & W2); [cbn [vp_values]; exact (map_nth_error (fun n => VInt (y n)) _ _ E)|].
      rewrite W1, W2. reflexivity.
  Qed.
End Written.
Lemma written_name (rr : row_report) (fuel : nat) (order : list nat -> list nat) (su : surroundings) (on : ctype -> bool) (penalty : Q) (shrink user : bool)
    (nrm : list Q -> Q) (red ext : nat -> Q) (sq : Q -> Q) (lg : Z -> Q) (root : Q -> Q) (x : relaxations) (a : ninputs)
    (fs : files) (items : list item) (s : settings) r dir stem extension : Forall well_named items -> Forall well_numbered items -> describes items s ->
    report_of rr fuel order su on penalty shrink user nrm red ext sq lg root x a fs (flat_map words items) = Some r ->
    st_mps s = append dir (append stem (append "." extension)) -> (dir = "" \/ exists d, dir = append d "/" \/ dir = append d "\")%string ->
    ~ In "/"%char (list_ascii_of_string stem) -> ~ In "\"%char (list_ascii_of_string stem) -> ~ In "."%char (list_ascii_of_string extension) -> rp_name r = stem.
Proof.
  intros N1 N2 De.     unfold report_of. destruct (CommandModel.setup fuel fs (flat_map words items)) as [[[|i]| |]|] eqn:Se; try discriminate.
    destruct (run_command fuel order su on penalty shrink user nrm red ext sq lg root x a fs (flat_map words items)) as [[[[[an rn]| |]|]| |]|] eqn:Rn; try discriminate. intros [= <-] A B C D E.
    exact (CommandProof5.instance_name fuel fs items s i dir stem extension N1 N2 De Se A B C D E).
Qed.
