(** C71: what the command line of the stand-alone solver makes of its arguments and files. *)
From Coq Require Import List ZArith QArith Bool String Ascii Lia.
From Verif Require Import ExprModel ConstraintModel VariableModel PresolveModel TextModel MpsModel NamesModel NamesSpec JsonModel OptionModel CommandModel CommandSpec CommandProof2 CommandProof4 CommandProof5.
Import ListNotations.
Local Open Scope string_scope.
Local Open Scope list_scope.

(** A command line made of options, switches and file names gives exactly one group of
    settings: of options that are repeated the last one counts. *)
Theorem C71_arguments : forall items : list item, Forall well_named items -> Forall well_numbered items ->
  exists s, parse (flat_map words items) st_init = Ok s /\ describes items s /\ forall s', describes items s' -> s' = s.
Proof. exact arguments. Qed.
Print Assumptions C71_arguments.
(** Every command line is of that form, except that it may end in an option whose value
    is missing: then an argument beyond the last is read. *)
Theorem C71_every_command_line : forall args : list string, exists items, Forall well_named items /\
  (args = flat_map words items \/ exists a, In a value_letters /\ args = flat_map words items ++ [a] /\ parse args st_init = UB).
Proof. exact every_command_line. Qed.
Print Assumptions C71_every_command_line.
(** Only an empty command line prints the usage. *)
Theorem C71_usage : forall fuel fs args, setup fuel fs args = Some (Ok Usage) <-> args = [].
Proof. exact no_arguments. Qed.
Print Assumptions C71_usage.
(** Mutable and fixed variables together are rejected before any file is read. *)
Theorem C71_both_rejected : forall fuel fs items s, Forall well_named items -> Forall well_numbered items -> describes items s ->
  st_mutable s <> "" -> st_fixed s <> "" -> setup fuel fs (flat_map words items) = Some Throw.
Proof. exact both_given. Qed.
Print Assumptions C71_both_rejected.

(** What the solver starts from is the MPS file changed by exactly the files that were
    given: which variables are fixed and at what, the initial values, the selection
    constraints, the options and the pairs to flip. *)
Theorem C71_start : forall fuel fs items s i, Forall well_named items -> Forall well_numbered items -> describes items s ->
  setup fuel fs (flat_map words items) = Some (Ok (Ready i)) ->
  (st_mutable s = "" \/ st_fixed s = "") /\
  exists lines m im o,
    opens fs (st_mps s) lines /\ read_mps lines = Ok m /\ import_mps (st_accept s) m = Ok im /\
    ((st_option s = "" /\ o = initialize) \/ (st_option s <> "" /\ exists text, fs (st_option s) = Some text /\ setup_file fuel text = Some (Ok o))) /\
    in_cons i = im_cons im /\ in_objective i = im_objective im /\
    (forall j, match nth_error (im_vars im) j with
               | None => nth_error (elements (in_vars i)) j = None
               | Some (n, v) => exists w, nth_error (elements (in_vars i)) j = Some (n, w) /\ prepared fs s n v w
               end) /\
    (forall k n c, nth_error (im_cons im) k = Some (n, c) -> exists b, nth_error (in_selections i) k = Some b /\
       (b = true <-> st_selection s <> "" /\ exists ls, opens fs (st_selection s) ls /\ listed ls n)) /\
    (forall section name, (section, name) <> ("neighborhood", "is_enabled_two_flip_move") -> param (in_options i) section name = param o section name) /\
    (st_pairs s = "" -> in_options i = o /\ in_pairs i = []) /\
    (st_pairs s <> "" -> param (in_options i) "neighborhood" "is_enabled_two_flip_move" = Some (VBool true) /\
       exists ls, opens fs (st_pairs s) ls /\ (NoDup (map fst (im_vars im)) -> described (map fst (im_vars im)) ls (in_pairs i))).
Proof. exact result. Qed.
Print Assumptions C71_start.
(** It starts whenever the files can be read and the initial solution agrees with the
    fixed variables, ... *)
Theorem C71_starts : forall fuel fs items s lines m im o, items <> [] -> Forall well_named items -> Forall well_numbered items -> describes items s ->
  st_mutable s = "" \/ st_fixed s = "" ->
  opens fs (st_mps s) lines -> read_mps lines = Ok m -> import_mps (st_accept s) m = Ok im ->
  ((st_option s = "" /\ o = initialize) \/ (st_option s <> "" /\ exists text, fs (st_option s) = Some text /\ setup_file fuel text = Some (Ok o))) ->
  (forall name, In name [st_mutable s; st_fixed s; st_selection s; st_pairs s; st_initial s] -> name <> "" -> exists ls, opens fs name ls) ->
  (forall ls, st_fixed s <> "" -> opens fs (st_fixed s) ls -> readable ls) -> (forall ls, st_initial s <> "" -> opens fs (st_initial s) ls -> readable ls) ->
  (forall j n v, nth_error (im_vars im) j = Some (n, v) -> agreeing fs s n v) ->
  exists i, setup fuel fs (flat_map words items) = Some (Ok (Ready i)).
Proof. exact ready. Qed.
Print Assumptions C71_starts.
(** ... and not otherwise. *)
Theorem C71_agreement_needed : forall fuel fs items s i, Forall well_named items -> Forall well_numbered items -> describes items s ->
  setup fuel fs (flat_map words items) = Some (Ok (Ready i)) ->
  forall lines m im, opens fs (st_mps s) lines -> read_mps lines = Ok m -> import_mps (st_accept s) m = Ok im ->
  forall j n v, nth_error (im_vars im) j = Some (n, v) -> agreeing fs s n v.
Proof. exact ready_agrees. Qed.
Print Assumptions C71_agreement_needed.
(** The instance is called like its file, without directory and extension. *)
Theorem C71_name : forall fuel fs items s i dir stem ext, Forall well_named items -> Forall well_numbered items -> describes items s ->
  setup fuel fs (flat_map words items) = Some (Ok (Ready i)) ->
  st_mps s = append dir (append stem (append "." ext)) -> (dir = "" \/ exists d, dir = append d "/" \/ dir = append d "\") ->
  ~ In "/"%char (list_ascii_of_string stem) -> ~ In "\"%char (list_ascii_of_string stem) -> ~ In "."%char (list_ascii_of_string ext) -> in_name i = stem.
Proof. exact instance_name. Qed.
Print Assumptions C71_name.
(** A file that is written line by line is read line by line. *)
Theorem C71_lines : forall ls : list string, (forall l, In l ls -> ~ In LF (list_ascii_of_string l)) -> lines_of (fold_right (fun l r => append l (String LF r)) "" ls) = ls.
Proof. exact file_lines. Qed.
Print Assumptions C71_lines.
(** So is one whose last line has no line feed. *)
Theorem C71_last_line : forall (ls : list string) (l : string), (forall l, In l ls -> ~ In LF (list_ascii_of_string l)) -> ~ In LF (list_ascii_of_string l) -> l <> "" ->
  lines_of (fold_right (fun l r => append l (String LF r)) l ls) = (ls ++ [l])%list.
Proof. exact file_last_line. Qed.
Print Assumptions C71_last_line.

(** ** Examples *)
Definition text (ls : list string) : string := fold_right (fun l r => append l (String LF r)) "" ls.
Definition cl_mps : string := text
  ["NAME  demo"; "ROWS"; " N  cost"; " L  cap"; " E  pick"; "COLUMNS"; " MARKER  'MARKER'  'INTORG'"; " x  cost  1  cap  2"; " x  pick  1"; " y  cost  3  cap  1"; " y  pick  1"; " z  cap  1";
   " MARKER  'MARKER'  'INTEND'"; "RHS"; " rhs  cap  10  pick  1"; "BOUNDS"; " FX  bnd  z  3"; "ENDATA"].
Definition cl_files : files := fun n =>
  if (n =? "data/demo.mps")%string then Some cl_mps
  else if (n =? "fix.txt")%string then Some (text ["x 1"; "w 7"])
  else if (n =? "mut.txt")%string then Some (text ["x"; "y"])
  else if (n =? "ini.txt")%string then Some (text ["x 0.6"; "z 3"])
  else if (n =? "sel.txt")%string then Some (text ["pick"])
  else if (n =? "pair.txt")%string then Some (text ["x y 2 2 2 1"; "x w 1 1 1 1"])
  else None.
Definition cl_items : list item := [IFile FFixed "nowhere"; IFile FInitial "ini.txt"; ISwitch WAccept; ICommon "-3"; IFile FSelection "sel.txt"; IMps "data/demo.mps"; IFile FPairs "pair.txt"; IFile FFixed "fix.txt"; ICommon "7"].
Definition view (i : instance) := (in_name i, map (fun e => (fst e, va_value (snd e), va_fixed (snd e))) (elements (in_vars i)), in_selections i, in_pairs i, param (in_options i) "neighborhood" "is_enabled_two_flip_move").
Example C71_example : Forall well_named cl_items /\ Forall well_numbered cl_items /\
  (exists s, parse (flat_map words cl_items) st_init = Ok s /\ st_common s = 7%Z /\ st_fixed s = "fix.txt" /\ st_accept s = true /\ st_export s = false) /\
  (exists i, setup 100 cl_files (flat_map words cl_items) = Some (Ok (Ready i)) /\
     view i = ("demo", [("x", 1, true); ("y", 0, false); ("z", 3, true)]%Z, [false; true], [(0, 1)%nat], Some (VBool true))) /\
  setup 100 cl_files ["data/demo.mps"; "-i"; "ini.txt"; "-m"; "mut.txt"] = Some Throw /\
  setup 100 cl_files ["data/demo.mps"; "-f"; "fix.txt"; "-m"; "mut.txt"] = Some Throw.
Proof.
  split. { repeat (apply Forall_cons; [first [exact Logic.I|cbn; intuition discriminate]|]). apply Forall_nil. }
  split. { repeat (apply Forall_cons; [first [exact Logic.I|exists (-3)%Z; split; [reflexivity|unfold is_int; lia]|exists 7%Z; split; [reflexivity|unfold is_int; lia]]|]). apply Forall_nil. }
  split. { eexists. split; [vm_compute; reflexivity|]. repeat split. }
  split. { eexists. split; [vm_compute; reflexivity|]. vm_compute. reflexivity. }
  split; vm_compute; reflexivity.
Qed.

(** A word that looks like an option is taken for the MPS file. *)
Theorem C71_unknown_option_refuted : exists fs i, setup 100 fs ["data/demo.mps"] = Some (Ok (Ready i)) /\
  setup 100 fs ["data/demo.mps"; "--verbose"] = Some Throw /\ setup 100 fs ["--verbose"; "data/demo.mps"] = Some (Ok (Ready i)).
Proof. exists cl_files. eexists. split; [vm_compute; reflexivity|]. split; vm_compute; reflexivity. Qed.
Print Assumptions C71_unknown_option_refuted.
(** A list of mutable variables also overrules the MPS file: a variable the file fixes at
    3 starts fixed at 0 (or free, if it is listed). *)
Theorem C71_mutable_overrules_refuted : exists fs i i', setup 100 fs ["data/demo.mps"] = Some (Ok (Ready i)) /\ setup 100 fs ["data/demo.mps"; "-m"; "mut.txt"] = Some (Ok (Ready i')) /\
  (exists v, nth_error (elements (in_vars i)) 2 = Some ("z", v) /\ va_fixed v = true /\ va_value v = 3%Z) /\
  (exists v, nth_error (elements (in_vars i')) 2 = Some ("z", v) /\ va_fixed v = true /\ va_value v = 0%Z).
Proof.
  exists cl_files. eexists. eexists. split; [vm_compute; reflexivity|]. split; [vm_compute; reflexivity|].
  split; eexists; (split; [vm_compute; reflexivity|]; split; reflexivity).
Qed.
Print Assumptions C71_mutable_overrules_refuted.
(** Without an extension the name is cut at a dot of the directory. *)
Theorem C71_name_refuted : base_name "../data.v2/model" = "data" /\ base_name "./model" = "".
Proof. split; reflexivity. Qed.
Print Assumptions C71_name_refuted.
