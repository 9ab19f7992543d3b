(** Proofs for C84: what the written file says, and reading it back. *)
From Coq Require Import List NArith ZArith QArith Qabs Bool Arith String Ascii Lia Lqa Permutation.
From Verif Require Import ExprModel ConstraintModel VariableModel TypeModel PresolveModel PresolveSpec DuplicateModel DependentModel DependentSpec SelectionModel PrepareModel PrepareSpec TextModel TextProof TextProof2 MpsModel MpsSpec MpsProof3 NamesModel NamesSpec NamesProof NamesProof3 JsonModel OptionModel
  CommandModel CommandSpec CommandProof2 CommandProof3 CommandProof4 SolverModel WholeModel WholeSpec RelaxModel OfferModel ParityModel FileModel FileSpec FileProof FileProof2 FileProof3 IncumbentModel IncumbentSpec IncumbentProof.
From Verif Require CommandProof5 ParityProof4 InfeasibleProof.
Import ListNotations.
Local Open Scope Z_scope.

(** What a successful start tells about the files. *)
Lemma start_files fuel fs items s i : Forall well_named items -> Forall well_numbered items -> describes items s ->
  CommandModel.setup fuel fs (flat_map words items) = Some (Ok (Ready i)) ->
  (forall name, In name [st_mutable s; st_fixed s; st_selection s; st_pairs s] -> name <> EmptyString -> exists ls, opens fs name ls) /\
  (forall ls, st_fixed s <> EmptyString -> opens fs (st_fixed s) ls -> readable ls).
Proof.
  intros W N D H. destruct (setup_inv fuel fs _ s i (parse_described items s W N D) H) as (X & im & o & L & O & A).
  unfold apply_files in A. set (m0 := [mkProxy "variables" [Z.of_nat (List.length (im_vars im))] (im_vars im)]) in A.
  apply bind_ok in A. destruct A as (m1 & M1 & A). apply bind_ok in A. destruct A as (m2 & M2 & A). apply bind_ok in A. destruct A as (sels & Sel & A).
  apply bind_ok in A. destruct A as ([o' pairs] & Prs & _). split.
  - intros name I Ne. apply empty_false in Ne. cbn [In] in I. destruct I as [<-|[<-|[<-|[<-|[]]]]]; rewrite Ne in *.
    + apply bind_ok in M1. destruct M1 as (ls & Op & _). apply open_ok in Op. eauto.
    + apply bind_ok in M2. destruct M2 as (ls & Op & _). apply open_ok in Op. eauto.
    + apply bind_ok in Sel. destruct Sel as (ls & Op & _). apply open_ok in Op. eauto.
    + apply bind_ok in Prs. destruct Prs as (ls & Op & _). apply open_ok in Op. eauto.
  - intros ls Ne Op. apply empty_false in Ne. rewrite Ne in M2. apply bind_ok in M2. destruct M2 as (ls' & Op' & M2). apply open_ok in Op'. rewrite (opens_unique _ _ _ _ Op Op').
    apply bind_ok in M2. destruct M2 as (tbl & R & _). exact (read_readable _ _ _ R).
Qed.
Lemma space_free_lf s : all_chars (fun c => negb (is_space c)) s = true -> ~ In LF (list_ascii_of_string s).
Proof.
  induction s as [|c s IH]; cbn [all_chars list_ascii_of_string]; [intros _ []|]. rewrite andb_true_iff. intros [H K] [->|I]; [vm_compute in H; discriminate|exact (IH K I)].
Qed.
Lemma in_append c a b : In c (list_ascii_of_string (append a b)) <-> In c (list_ascii_of_string a) \/ In c (list_ascii_of_string b).
Proof. induction a as [|d a IH]; cbn [append list_ascii_of_string In]; [tauto|]. rewrite IH. tauto. Qed.
Lemma plain_lf n : plain_name n -> ~ In LF (list_ascii_of_string n).
Proof. intros [_ B]. apply space_free_lf, blank_free_all, B. Qed.

(** The settings with another initial file. *)
Definition with_initial (s : settings) (name : string) : settings :=
  mkSettings (st_mps s) (st_option s) name (st_mutable s) (st_fixed s) (st_selection s) (st_pairs s) (st_common s) (st_accept s) (st_extract s) (st_loading_time s) (st_export s).
Lemma describes_initial items s name : Forall well_numbered items -> describes items s -> describes (items ++ [IFile FInitial name]) (with_initial s name).
Proof.
  intros N D. rewrite (describes_unique _ _ _ D (fold_describes items N)).
  assert (E : with_initial (fold_left put items st_init) name = fold_left put (items ++ [IFile FInitial name]) st_init).
  { rewrite fold_left_app. cbn [fold_left]. destruct (fold_left put items st_init). reflexivity. }
  rewrite E. apply fold_describes. apply Forall_app. split; [exact N|]. constructor; [exact Logic.I|constructor].
Qed.

Lemma word_lf n : word n -> ~ In LF (list_ascii_of_string n).
Proof. intros [_ H]. apply space_free_lf, H. Qed.
Lemma first_line t : plain_name t -> TextModel.items_of (append "=obj= " t) = ["=obj="%string; t].
Proof.
  intros P. change (append "=obj= " t) with (append "=obj=" (String " "%char t)). unfold TextModel.items_of. rewrite split_word_space; [|split; [intros X; discriminate X|reflexivity]|reflexivity].
  rewrite split_word_end; [reflexivity|now apply plain_word].
Qed.

(** The values of an answer: a solution of the file, with the values of fixed variables. *)
Definition answered (fs : files) (s : settings) (f : content) (obj : string) (i : instance) (an : answer) : Prop :=
  exists y, (forall j n, nth_error (columns f) j = Some n -> y n = an_x an j) /\ file_solution fs s f y /\ (an_objective an == row_value f y obj)%Q /\
    forall j n w, nth_error (elements (in_vars i)) j = Some (n, w) -> va_fixed w = true -> y n = va_value w.

Section Written.
  Context (show : Q -> string) (fuel : nat) (order : list nat -> list nat) (su : surroundings) (on : ctype -> bool) (penalty : Q) (shrink user : bool)
    (nrm : list Q -> Q) (red ext : nat -> Q) (sq : Q -> Q) (lg : Z -> Q) (root : Q -> Q) (x : relaxations) (a : ninputs)
    (fs : files) (items : list item) (s : settings) (lines : list string) (f : content) (obj : string).
  Hypothesis N1 : Forall well_named items.
  Hypothesis N2 : Forall well_numbered items.
  Hypothesis De : describes items s.
  Hypothesis Op : opens fs (st_mps s) lines.
  Hypothesis Co : contains lines f.
  Hypothesis Wf : well_formed f obj.
  Hypothesis Th : thin_binaries fs s f.
  (** What is known about the answer. *)
  Hypothesis Ans : forall an rn, run_command fuel order su on penalty shrink user nrm red ext sq lg root x a fs (flat_map words items) = Some (Ok (Some (Done (an, rn)))) ->
    exists i, CommandModel.setup fuel fs (flat_map words items) = Some (Ok (Ready i)) /\ (an_feasible an = true -> answered fs s f obj i an).

  (** The lines. *)
  Lemma written_lines i an y : CommandModel.setup fuel fs (flat_map words items) = Some (Ok (Ready i)) -> (forall j n, nth_error (columns f) j = Some n -> y n = an_x an j) ->
    incumbent_lines show i an = (if an_feasible an then append "=obj= " (show (an_objective an)) else "=infeas="%string) :: value_lines (map (fun n => (n, y n)) (columns f)).
  Proof.
    intros Se Y. destruct (one_proxy fuel fs items s i N1 N2 De Se) as [p Ep].
    destruct (instance_facts fuel fs items s i lines f obj N1 N2 De Op Co Wf Th Se) as (im & _ & _ & _ & Nm & _). rewrite Ep in Nm. cbn [elements flat_map] in Nm. rewrite app_nil_r in Nm.
    rewrite (lines_shape show i an p Ep).
    - f_equal. f_equal. rewrite Nm. assert (L : List.length (px_elems p) = List.length (columns f)) by (rewrite <- Nm, map_length; reflexivity). rewrite L.
      assert (G : forall l k, (forall j n, nth_error l j = Some n -> y n = an_x an (k + j)%nat) -> combine l (map (an_x an) (seq k (List.length l))) = map (fun n => (n, y n)) l).
      { induction l as [|n l IH]; intros k H; [reflexivity|]. cbn [List.length seq map combine]. f_equal; [f_equal; rewrite (H 0%nat n eq_refl); f_equal; lia|]. apply IH. intros j m E. rewrite (H (S j) m E). f_equal. lia. }
      apply G. exact Y.
    - intros n J. rewrite Nm in J. exact (proj1 (columns_plain lines f n Co J)).
  Qed.
  Lemma written_values head y : gives_values (head :: value_lines (map (fun n => (n, y n)) (columns f))) f y.
  Proof.
    intros n J. apply listed_value.
    - intros e I. apply in_map_iff in I as (m & <- & I). exact (columns_plain lines f m Co I).
    - rewrite map_map. cbn. rewrite map_id. apply columns_nodup.
    - apply in_map_iff. eauto.
  Qed.

  Lemma written_said lines' : write_incumbent show fuel order su on penalty shrink user nrm red ext sq lg root x a fs (flat_map words items) = Some lines' ->
    says_infeasible lines' \/ exists y, says_objective show lines' (row_value f y obj) /\ gives_values lines' f y /\ file_solution fs s f y.
  Proof.
    unfold write_incumbent. destruct (CommandModel.setup fuel fs (flat_map words items)) as [[[|i]| |]|] eqn:Se; try discriminate.
    destruct (run_command fuel order su on penalty shrink user nrm red ext sq lg root x a fs (flat_map words items)) as [[[[[an rn]| |]|]| |]|] eqn:Rn; try discriminate. intros [= <-].
    destruct (Ans an rn eq_refl) as (i' & Se' & A). assert (i' = i) as -> by congruence. destruct (an_feasible an) eqn:Fe.
    - right. destruct (A eq_refl) as (y & Y1 & Y2 & Y3 & _). exists y. rewrite (written_lines i an y Se Y1), Fe. split; [exists (an_objective an); split; [exact Y3|reflexivity]|]. split; [apply written_values|exact Y2].
    - left. unfold says_infeasible, incumbent_lines, solution_lines. rewrite Fe. reflexivity.
  Qed.

  Lemma written_restart name lines' : write_incumbent show fuel order su on penalty shrink user nrm red ext sq lg root x a fs (flat_map words items) = Some lines' ->
    readable_objective lines' -> name <> EmptyString -> ~ In name [st_mps s; st_option s; st_mutable s; st_fixed s; st_selection s; st_pairs s] ->
    exists y i', gives_values lines' f y /\ file_solution fs s f y /\
      CommandModel.setup fuel (with_file fs name lines') (flat_map words (items ++ [IFile FInitial name])) = Some (Ok (Ready i')) /\
      forall j n, nth_error (columns f) j = Some n -> exists w, nth_error (elements (in_vars i')) j = Some (n, w) /\ va_value w = y n.
  Proof.
    intros Wr Ro Ne Nn. unfold write_incumbent in Wr. destruct (CommandModel.setup fuel fs (flat_map words items)) as [[[|i]| |]|] eqn:Se; try discriminate.
    destruct (run_command fuel order su on penalty shrink user nrm red ext sq lg root x a fs (flat_map words items)) as [[[[[an rn]| |]|]| |]|] eqn:Rn; try discriminate. injection Wr as <-.
    destruct (Ans an rn eq_refl) as (i' & Se' & A). assert (i' = i) as -> by congruence. destruct Ro as (t & r & z & H0 & Pt & At & Nr & Iz).
    destruct (an_feasible an) eqn:Fe. 2:{ exfalso. unfold incumbent_lines, solution_lines in H0. rewrite Fe in H0. discriminate H0. }
    destruct (A eq_refl) as (y & Y1 & Y2 & Y3 & Y4). rewrite (written_lines i an y Se Y1), Fe in *. cbn [hd_error] in H0. injection H0 as H0.
    set (head := append "=obj= " (show (an_objective an))) in *. set (ls := head :: value_lines (map (fun n => (n, y n)) (columns f))) in *.
    set (fs' := with_file fs name ls). set (s' := with_initial s name). set (items' := items ++ [IFile FInitial name]).
    assert (Gv : gives_values ls f y) by apply written_values.
    assert (Iy : forall n, In n (columns f) -> is_int (y n)).
    { intros n J. destruct (proj2 Y2 n J) as (B & _). pose proof (interval_int lines f n Co) as [B1 B2]. unfold INT_MIN, INT_MAX in *. unfold is_int. lia. }
    assert (Lf : forall l, In l ls -> ~ In LF (list_ascii_of_string l)).
    { intros l [<-|J].
      - unfold head. rewrite H0. rewrite in_append. intros [K|K]; [vm_compute in K; repeat (destruct K as [K|K]; [discriminate K|]); exact K|exact (plain_lf t Pt K)].
      - apply in_map_iff in J as (e & <- & J). apply in_map_iff in J as (n & <- & J). cbn [fst snd]. rewrite !in_append. intros [K|[K|K]].
        + exact (plain_lf n (columns_plain lines f n Co J) K).
        + vm_compute in K. destruct K as [K|[]]. discriminate K.
        + exact (word_lf _ (print_int_word (y n)) K). }
    assert (On : opens fs' name ls).
    { exists (fold_right (fun l r => append l (String LF r)) EmptyString ls). split; [unfold fs', with_file; rewrite String.eqb_refl; reflexivity|]. symmetry. exact (CommandProof5.file_lines ls Lf). }
    assert (Oo : forall m, In m [st_mps s; st_option s; st_mutable s; st_fixed s; st_selection s; st_pairs s] -> fs' m = fs m).
    { intros m J. unfold fs', with_file. destruct (String.eqb_spec m name) as [->|]; [contradiction|reflexivity]. }
    assert (Oe : forall m l, In m [st_mps s; st_option s; st_mutable s; st_fixed s; st_selection s; st_pairs s] -> (opens fs' m l <-> opens fs m l)).
    { intros m l J. unfold opens. rewrite (Oo m J). reflexivity. }
    assert (Rl : readable ls).
    { intros l n u [<-|J] G.
      - unfold gives in G. destruct G as [rest G]. unfold head in G. rewrite H0 in G. rewrite first_line in G by exact Pt. injection G as <- <- _. eauto.
      - apply in_map_iff in J as (e & <- & J). apply in_map_iff in J as (m & <- & J). cbn [fst snd] in G. apply value_line_gives in G as [_ ->]; [|exact (columns_plain lines f m Co J)].
        destruct (int_nearest (y m)) as (q & Q1 & Q2). exists q, (y m). auto. }
    pose proof (describes_initial items s name N2 De) as De'. fold s' items' in De'.
    assert (W' : Forall well_named items') by (apply Forall_app; split; [exact N1|]; constructor; [exact Logic.I|constructor]).
    assert (N' : Forall well_numbered items') by (apply Forall_app; split; [exact N2|]; constructor; [exact Logic.I|constructor]).
    destruct (CommandProof4.result fuel fs items s i N1 N2 De Se) as (Ex & ls0 & m & im & o & O & R & I & Oo' & _ & _ & Iv & _).
    destruct (start_files fuel fs items s i N1 N2 De Se) as (Fo & Fr).
    assert (Nms : map fst (im_vars im) = columns f). { pose proof (opens_unique _ _ _ _ O Op) as ->. exact (if_names _ _ _ _ (import_from lines f obj (st_accept s) m im Wf Co R I)). }
    destruct (ready fuel fs' items' s' ls0 m im o) as (i' & Rd'); try assumption.
    - unfold items'. intros X. apply app_eq_nil in X as [_ X]. discriminate X.
    - apply Oe; [cbn; tauto|exact O].
    - destruct Oo' as [X|[X (text & T & S')]]; [now left|right]. split; [exact X|]. exists text. split; [|exact S']. rewrite <- T. apply Oo. cbn. tauto.
    - intros m' J Nm'. cbn [s' with_initial st_mutable st_fixed st_selection st_pairs st_initial In] in J.
      assert (C : m' = name \/ In m' [st_mutable s; st_fixed s; st_selection s; st_pairs s]) by (cbn; intuition). destruct C as [->|C]; [eauto|].
      destruct (Fo m' C Nm') as (l & Ol). exists l. apply Oe; [cbn in C |- *; tauto|exact Ol].
    - intros l X Ol. apply (Fr l X). apply Oe; [cbn; tauto|exact Ol].
    - intros l X Ol. rewrite (opens_unique _ _ _ _ Ol On). exact Rl.
    - intros j n v J. intros _ init Oi. rewrite (opens_unique _ _ _ _ Oi On).
      assert (Jc : nth_error (columns f) j = Some n) by (rewrite <- Nms; exact (map_nth_error fst _ _ J)).
      assert (In' : In n (columns f)) by exact (nth_error_In _ _ Jc).
      pose proof (Gv n In') as G. destruct (proj2 Y2 n In') as (_ & L2 & L3). specialize (Iv j). rewrite J in Iv. destruct Iv as (w & Ew & (_ & _ & Pf & Pn & _)).
      cbn [s' with_initial st_mutable st_fixed]. split; [|split; [|split]].
      + intros l X Ol Nl. rewrite <- (L2 X l); [exact G| |exact Nl]. apply Oe; [cbn; tauto|exact Ol].
      + intros l text q z' X Ol Lg Aq Nz. assert (Ol' : opens fs (st_fixed s) l) by (apply Oe; [cbn; tauto|exact Ol]). rewrite <- (nearest_once q _ _ (L3 X l text q Ol' Lg Aq) Nz). exact G.
      + intros l X Ol Ng Fv. assert (Ol' : opens fs (st_fixed s) l) by (apply Oe; [cbn; tauto|exact Ol]). destruct (Pf X) as (l' & Ol2 & Q1 & _ & Q3). rewrite <- (opens_unique _ _ _ _ Ol' Ol2) in *.
        rewrite <- (Q3 Ng (or_introl Fv)). rewrite <- (Y4 j n w Ew (proj2 Q1 (or_introl Fv))). exact G.
      + intros X X' Fv. destruct (Pn X X') as [Q1 Q2]. rewrite <- (Q2 (or_introl Fv)). rewrite <- (Y4 j n w Ew) by congruence. exact G.
    - exists y, i'. split; [exact Gv|]. split; [exact Y2|]. split; [exact Rd'|].
      intros j n J. destruct (CommandProof4.result fuel fs' items' s' i' W' N' De' Rd') as (_ & ls2 & m2 & im2 & _ & O2 & R2 & I2 & _ & _ & _ & Iv2 & _).
      assert (O2' : opens fs (st_mps s) ls2) by (apply Oe; [cbn; tauto|exact O2]). rewrite (opens_unique _ _ _ _ O2' O) in R2. rewrite R2 in R. injection R as ->. cbn [s' with_initial st_accept] in I2. rewrite I2 in I. injection I as ->.
      specialize (Iv2 j). rewrite <- Nms in J. destruct (nth_error (im_vars im) j) as [[n' v]|] eqn:Ej.
      + rewrite (map_nth_error fst _ _ Ej) in J. injection J as ->. destruct Iv2 as (w & Ew & (_ & _ & _ & _ & Pi)). exists w. split; [exact Ew|]. destruct (Pi Ne) as (init & Oi & Fv). rewrite (opens_unique _ _ _ _ Oi On) in Fv.
        apply (file_value_unique ls n); [exact Fv|]. apply Gv. rewrite <- Nms. apply in_map_iff. exists (n, v). split; [reflexivity|]. exact (nth_error_In _ _ Ej).
      + exfalso. apply nth_error_None in Ej. assert (X : (j < List.length (map fst (im_vars im)))%nat) by (apply nth_error_Some; congruence). rewrite map_length in X. lia.
  Qed.

  (** An objective that does not fit an int. *)
  Lemma written_undefined name lines' : write_incumbent show fuel order su on penalty shrink user nrm red ext sq lg root x a fs (flat_map words items) = Some lines' ->
    unreadable_objective lines' -> name <> EmptyString -> ~ In name [st_mps s; st_option s; st_mutable s; st_fixed s; st_selection s; st_pairs s] ->
    CommandModel.setup fuel (with_file fs name lines') (flat_map words (items ++ [IFile FInitial name])) = Some UB.
  Proof.
    intros Wr Ro Ne Nn. unfold write_incumbent in Wr. destruct (CommandModel.setup fuel fs (flat_map words items)) as [[[|i]| |]|] eqn:Se; try discriminate.
    destruct (run_command fuel order su on penalty shrink user nrm red ext sq lg root x a fs (flat_map words items)) as [[[[[an rn]| |]|]| |]|] eqn:Rn; try discriminate. injection Wr as <-.
    destruct (Ans an rn eq_refl) as (i' & Se' & A). assert (i' = i) as -> by congruence. destruct Ro as (t & r & z & H0 & Pt & At & Nr & Iz).
    destruct (an_feasible an) eqn:Fe. 2:{ exfalso. unfold incumbent_lines, solution_lines in H0. rewrite Fe in H0. discriminate H0. }
    destruct (A eq_refl) as (y & Y1 & _). rewrite (written_lines i an y Se Y1), Fe in *. cbn [hd_error] in H0. injection H0 as H0.
    set (head := append "=obj= " (show (an_objective an))) in *. set (ls := head :: value_lines (map (fun n => (n, y n)) (columns f))) in *.
    set (fs' := with_file fs name ls). set (items' := items ++ [IFile FInitial name]).
    assert (Lf : forall l, In l ls -> ~ In LF (list_ascii_of_string l)).
    { intros l [<-|J].
      - unfold head. rewrite H0. rewrite in_append. intros [K|K]; [vm_compute in K; repeat (destruct K as [K|K]; [discriminate K|]); exact K|exact (plain_lf t Pt K)].
      - apply in_map_iff in J as (e & <- & J). apply in_map_iff in J as (n & <- & J). cbn [fst snd]. rewrite !in_append. intros [K|[K|K]].
        + exact (plain_lf n (columns_plain lines f n Co J) K).
        + vm_compute in K. destruct K as [K|[]]. discriminate K.
        + exact (word_lf _ (print_int_word (y n)) K). }
    assert (On : opens fs' name ls).
    { exists (fold_right (fun l r => append l (String LF r)) EmptyString ls). split; [unfold fs', with_file; rewrite String.eqb_refl; reflexivity|]. symmetry. exact (CommandProof5.file_lines ls Lf). }
    assert (Oo : forall m, In m [st_mps s; st_option s; st_mutable s; st_fixed s; st_selection s; st_pairs s] -> fs' m = fs m).
    { intros m J. unfold fs', with_file. destruct (String.eqb_spec m name) as [->|]; [contradiction|reflexivity]. }
    assert (Oe : forall m, In m [st_mps s; st_option s; st_mutable s; st_fixed s; st_selection s; st_pairs s] -> open_lines fs' m = open_lines fs m).
    { intros m J. unfold open_lines. rewrite (Oo m J). reflexivity. }
    pose proof (describes_initial items s name N2 De) as De'. fold items' in De'.
    assert (W' : Forall well_named items') by (apply Forall_app; split; [exact N1|]; constructor; [exact Logic.I|constructor]).
    assert (N' : Forall well_numbered items') by (apply Forall_app; split; [exact N2|]; constructor; [exact Logic.I|constructor]).
    destruct (setup_inv fuel fs _ s i (parse_described items s N1 N2 De) Se) as (X & im & o & L & O & Ap).
    unfold CommandModel.setup. rewrite (parse_described items' _ W' N' De').
    assert (L' : load_mps fs' (with_initial s name) = Ok im) by (rewrite <- L; unfold load_mps; cbn [with_initial st_mps st_accept]; rewrite Oe by (cbn; tauto); reflexivity).
    assert (O' : load_options fuel fs' (with_initial s name) = Some (Ok o)) by (rewrite <- O; unfold load_options; cbn [with_initial st_option]; rewrite Oo by (cbn; tauto); reflexivity).
    rewrite L', O'. cbn [with_initial st_mutable st_fixed].
    assert (B : negb (is_empty (st_mutable s)) && negb (is_empty (st_fixed s)) = false) by (destruct X as [E|E]; rewrite E; [reflexivity|apply andb_false_r]). rewrite B.
    assert (Ap' : apply_files fs' (with_initial s name) im o = UB).
    { unfold apply_files in *. cbn [with_initial st_mutable st_fixed st_selection st_pairs st_initial]. rewrite (Oe (st_mutable s)), (Oe (st_fixed s)), (Oe (st_selection s)), (Oe (st_pairs s)) by (cbn; tauto).
      set (m0 := [mkProxy "variables" [Z.of_nat (List.length (im_vars im))] (im_vars im)]) in *.
      apply bind_ok in Ap. destruct Ap as (m1 & M1 & Ap). rewrite M1. cbn [PresolveModel.bind]. apply bind_ok in Ap. destruct Ap as (m2 & M2 & Ap). rewrite M2. cbn [PresolveModel.bind].
      apply bind_ok in Ap. destruct Ap as (sels & Sel & Ap). rewrite Sel. cbn [PresolveModel.bind]. apply bind_ok in Ap. destruct Ap as (op & Prs & _). rewrite Prs. cbn [PresolveModel.bind].
      rewrite (proj2 (empty_false name) Ne). apply open_ok in On. rewrite On. cbn [PresolveModel.bind]. unfold read_names_and_values, ls. cbn [read_values]. unfold head. rewrite H0, (first_line t Pt).
      unfold value_of. rewrite At. replace (Qround.Qfloor ((1 # 2) + r)) with z by (symmetry; apply nearest_floor; exact Nr). unfold to_int, is_int in *. unfold INT_MIN, INT_MAX in *.
      destruct ((-2147483648 <=? z) && (z <=? 2147483647)) eqn:C; [|reflexivity]. exfalso. apply Iz. apply andb_true_iff in C as [C1 C2]. apply Z.leb_le in C1, C2. lia. }
    rewrite Ap'. destruct (flat_map words items') as [|a0 r0] eqn:F; [|reflexivity]. exfalso. unfold items' in F. rewrite flat_map_app in F. apply app_eq_nil in F as [_ F]. discriminate F.
  Qed.
End Written.

(** ** Without presolve *)
Section Answer.
  Context (show : Q -> string) (fuel : nat) (order : list nat -> list nat) (su : surroundings) (on : ctype -> bool) (penalty : Q) (shrink user : bool)
    (nrm : list Q -> Q) (red ext : nat -> Q) (sq : Q -> Q) (lg : Z -> Q) (root : Q -> Q) (x : relaxations) (a : ninputs)
    (fs : files) (items : list item) (s : settings) (lines : list string) (f : content) (obj : string).
  Hypothesis N1 : Forall well_named items.
  Hypothesis N2 : Forall well_numbered items.
  Hypothesis De : describes items s.
  Hypothesis Op : opens fs (st_mps s) lines.
  Hypothesis Co : contains lines f.
  Hypothesis Wf : well_formed f obj.
  Hypothesis Ir : integer_rows f obj.
  Hypothesis Th : thin_binaries fs s f.
  Hypothesis Of : presolve_off fuel fs s.

  (** The answer, with the values of fixed variables. *)
  Lemma run_answer an rn : run_command fuel order su on penalty shrink user nrm red ext sq lg root x a fs (flat_map words items) = Some (Ok (Some (Done (an, rn)))) ->
    exists i, CommandModel.setup fuel fs (flat_map words items) = Some (Ok (Ready i)) /\ (an_feasible an = true -> answered fs s f obj i an).
  Proof.
    intros Rn. destruct (run_parts fuel order su on penalty shrink user nrm red ext sq lg root x a fs items _ Rn) as (i & Se & E). exists i. split; [exact Se|]. intros F.
    assert (Fi := values_inside fuel order su on penalty shrink user nrm red ext sq lg root x a fs items s lines f obj _ N1 N2 De Op Co Wf Ir Th Of i Se E).
    assert (Off : sw_presolve (switches_of (in_options i)) = false) by (eapply switched_off; eassumption).
    assert (Ae : as_entered (enter i)) by (eapply entered_as; eassumption). assert (Fr : free_binaries (enter i)) by (eapply entered_free; eassumption).
    assert (Nu : ds_number (enter i) = List.length (columns f)) by (eapply entered_number; eassumption).
    destruct (ParityProof4.p_model_same _ _ _ _ _ _ _ _ _ _ _ _ _ _ _ _ _ _ E) as (a' & _ & E').
    assert (Pl : plain_model (enter i)) by (eapply entered_plain; eassumption).
    destruct (InfeasibleProof.off_solution _ _ _ _ _ _ _ _ _ _ _ _ _ _ _ _ _ Pl Ae Fr Off E' F) as (z & Z1 & Z2 & Z3).
    assert (Es : exists y, (forall j n, nth_error (columns f) j = Some n -> y n = z j) /\ file_solution fs s f y /\ (e_eval (ds_obj (enter i)) z == row_value f y obj)%Q)
      by (eapply entered_solution; eassumption).
    destruct Es as (y & Y1 & Y2 & Y3).
    exists y. split; [|split; [exact Y2|split]].
    - intros j n J. rewrite (Y1 j n J). apply Z1. rewrite Nu. apply nth_error_Some. congruence.
    - rewrite (Z3 eq_refl). exact Y3.
    - intros j n w J Fw. assert (Jc : nth_error (columns f) j = Some n).
      { destruct (instance_facts fuel fs items s i lines f obj N1 N2 De Op Co Wf Th Se) as (im & _ & _ & _ & Nm & _). rewrite <- Nm. exact (map_nth_error fst _ _ J). }
      rewrite (Y1 j n Jc). destruct Z2 as [R _ _]. specialize (R j eq_refl). unfold within in R. cbn [enter ds_vars] in R. unfold entered_vars in R. rewrite J in R. rewrite Fw in R. exact R.
  Qed.
  Definition incumbent_said := written_said show fuel order su on penalty shrink user nrm red ext sq lg root x a fs items s lines f obj N1 N2 De Op Co Wf Th run_answer.
  Definition restart := written_restart show fuel order su on penalty shrink user nrm red ext sq lg root x a fs items s lines f obj N1 N2 De Op Co Wf Th run_answer.
  Definition restart_undefined := written_undefined show fuel order su on penalty shrink user nrm red ext sq lg root x a fs items s lines f obj N1 N2 De Op Co Wf Th run_answer.
End Answer.
