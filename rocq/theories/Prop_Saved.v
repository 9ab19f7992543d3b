(** C89: the solution file written with default options. *)
From Coq Require Import List ZArith QArith Bool String Permutation.
From Verif Require Import ExprModel ConstraintModel VariableModel TypeModel PresolveModel SelectionModel PrepareModel TextModel MpsModel MpsSpec NamesModel NamesSpec JsonModel OptionModel CommandModel CommandSpec
  SolverModel WholeModel RelaxModel OfferModel ParityModel FileModel FileSpec FileProof3 FileProof4 DefaultSpec DefaultProof3 IncumbentModel IncumbentSpec SavedProof SavedProof2.
Import ListNotations.
Local Open Scope string_scope.
Local Open Scope Z_scope.

(** C89: the command line names an MPS file with inequalities as in C86; presolve is on, as it is by default.  If a
    solution file is written, its first line says that no feasible solution was found, or the file gives every column of
    the MPS file a value such that all rows, all bounds and all values asked for hold, and its first line shows the
    objective of these values. *)
Theorem C89_incumbent (show : Q -> string) (fuel : nat) (order : list nat -> list nat) (su : surroundings) (on : ctype -> bool) (penalty : Q) (shrink user : bool)
  (nrm : list Q -> Q) (red ext : nat -> Q) (sq : Q -> Q) (lg : Z -> Q) (root : Q -> Q) (x : relaxations) (a : ninputs)
  (fs : files) (items : list item) (s : settings) (lines : list string) (f : content) (obj : string) (o : opts) (written : list string) :
  (forall l, Permutation (order l) l) ->
  Forall well_named items -> Forall well_numbered items -> describes items s ->
  opens fs (st_mps s) lines -> contains lines f -> well_formed f obj -> integer_rows f obj -> thin_binaries fs s f ->
  options_are fuel fs s o -> switched o "is_enabled_presolve" true ->
  values_left fs s f -> narrow f -> inequalities f -> small f -> placed f obj ->
  switched o "is_enabled_extract_implicit_equality_constraints" false \/ one_sided f ->
  switched o "is_enabled_remove_redundant_set_variables" false \/ weighted f ->
  write_incumbent show fuel order su on penalty shrink user nrm red ext sq lg root x a fs (flat_map words items) = Some written ->
  says_infeasible written \/ exists y, says_objective show written (row_value f y obj) /\ gives_values written f y /\ file_solution fs s f y.
Proof.
  intros A B C D E F G H I J K L M N O P Q R.
  exact (saved_said show fuel order su on penalty shrink user nrm red ext sq lg root x a fs items s lines f obj o A B C D E F G H I J K L M N O P Q R written).
Qed.
Print Assumptions C89_incumbent.

(** C89: so the file written for an MPS file without a solution says that none was found. *)
Theorem C89_infeasible (show : Q -> string) (fuel : nat) (order : list nat -> list nat) (su : surroundings) (on : ctype -> bool) (penalty : Q) (shrink user : bool)
  (nrm : list Q -> Q) (red ext : nat -> Q) (sq : Q -> Q) (lg : Z -> Q) (root : Q -> Q) (x : relaxations) (a : ninputs)
  (fs : files) (items : list item) (s : settings) (lines : list string) (f : content) (obj : string) (o : opts) (written : list string) :
  (forall l, Permutation (order l) l) ->
  Forall well_named items -> Forall well_numbered items -> describes items s ->
  opens fs (st_mps s) lines -> contains lines f -> well_formed f obj -> integer_rows f obj -> thin_binaries fs s f ->
  options_are fuel fs s o -> switched o "is_enabled_presolve" true ->
  values_left fs s f -> narrow f -> inequalities f -> small f -> placed f obj ->
  switched o "is_enabled_extract_implicit_equality_constraints" false \/ one_sided f ->
  switched o "is_enabled_remove_redundant_set_variables" false \/ weighted f ->
  (forall y, ~ file_solution fs s f y) ->
  write_incumbent show fuel order su on penalty shrink user nrm red ext sq lg root x a fs (flat_map words items) = Some written ->
  says_infeasible written.
Proof.
  intros A B C D E F G H I J K L M N O P Q R No W.
  destruct (C89_incumbent show fuel order su on penalty shrink user nrm red ext sq lg root x a fs items s lines f obj o written A B C D E F G H I J K L M N O P Q R W) as [Y|(y & _ & _ & Y)]; [exact Y|].
  exfalso. exact (No y Y).
Qed.
Print Assumptions C89_infeasible.

(** C89: the file can be given back with "-i", as in C84. *)
Theorem C89_restart (show : Q -> string) (fuel : nat) (order : list nat -> list nat) (su : surroundings) (on : ctype -> bool) (penalty : Q) (shrink user : bool)
  (nrm : list Q -> Q) (red ext : nat -> Q) (sq : Q -> Q) (lg : Z -> Q) (root : Q -> Q) (x : relaxations) (a : ninputs)
  (fs : files) (items : list item) (s : settings) (lines : list string) (f : content) (obj : string) (o : opts) (name : string) (written : list string) :
  (forall l, Permutation (order l) l) ->
  Forall well_named items -> Forall well_numbered items -> describes items s ->
  opens fs (st_mps s) lines -> contains lines f -> well_formed f obj -> integer_rows f obj -> thin_binaries fs s f ->
  options_are fuel fs s o -> switched o "is_enabled_presolve" true ->
  values_left fs s f -> narrow f -> inequalities f -> small f -> placed f obj ->
  switched o "is_enabled_extract_implicit_equality_constraints" false \/ one_sided f ->
  switched o "is_enabled_remove_redundant_set_variables" false \/ weighted f ->
  write_incumbent show fuel order su on penalty shrink user nrm red ext sq lg root x a fs (flat_map words items) = Some written ->
  readable_objective written -> name <> "" -> ~ In name [st_mps s; st_option s; st_mutable s; st_fixed s; st_selection s; st_pairs s] ->
  exists y i, gives_values written f y /\ file_solution fs s f y /\
    CommandModel.setup fuel (with_file fs name written) (flat_map words (items ++ [IFile FInitial name])) = Some (Ok (Ready i)) /\
    forall j n, nth_error (columns f) j = Some n -> exists w, nth_error (elements (in_vars i)) j = Some (n, w) /\ va_value w = y n.
Proof.
  intros A B C D E F G H I J K L M N O P Q R.
  exact (saved_restart show fuel order su on penalty shrink user nrm red ext sq lg root x a fs items s lines f obj o A B C D E F G H I J K L M N O P Q R name written).
Qed.
Print Assumptions C89_restart.

(** With an equality, or with a row that asks for more than 100000, the file that is written shows a solution although
    the MPS file has none (the files of C86_equality_refuted and C86_large_refuted). *)
Theorem C89_unsolvable_refuted (c : case) : c = Half \/ c = Far -> exists written, e_saved c = Some written /\
  ~ says_infeasible written /\ readable_objective written /\ forall y, ~ file_solution (e_files c) e_settings (e_content c) y.
Proof.
  intros [-> | ->].
  - exists ["=obj= 0"; "x 0"; "y 0"; "z 0"]. split; [exact (proj1 (proj2 (proj2 e_saves)))|]. split; [intros X; discriminate X|]. split; [exact (e_reads "0" 0 _ eq_refl eq_refl)|]. intros y. apply e_nothing. auto.
  - exists ["=obj= -1"; "x 1"; "y 0"; "z 0"]. split; [exact (proj2 (proj2 (proj2 e_saves)))|]. split; [intros X; discriminate X|]. split; [exact (e_reads "-1" (-1) _ eq_refl eq_refl)|]. intros y. apply e_nothing. auto.
Qed.
Print Assumptions C89_unsolvable_refuted.

(** The files written for the command lines of C86: a solution, none, and the two above. *)
Example C89_example : e_saved Fine = Some ["=obj= -1"; "x 1"; "y 0"; "z 0"] /\ e_saved Void = Some ["=infeas="; "x 1"; "y 0"; "z 1"] /\
  e_saved Half = Some ["=obj= 0"; "x 0"; "y 0"; "z 0"] /\ e_saved Far = Some ["=obj= -1"; "x 1"; "y 0"; "z 0"].
Proof. exact e_saves. Qed.
(** The other hypotheses: C86_hypotheses. *)
Example C89_hypotheses : readable_objective ["=obj= -1"; "x 1"; "y 0"; "z 0"] /\
  ~ In "incumbent.sol" [st_mps e_settings; st_option e_settings; st_mutable e_settings; st_fixed e_settings; st_selection e_settings; st_pairs e_settings].
Proof. split; [exact (e_reads "-1" (-1) _ eq_refl eq_refl)|cbn; intuition discriminate]. Qed.
