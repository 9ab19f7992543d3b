(** C84: the solution file of the stand-alone solver. *)
From Coq Require Import List ZArith QArith Bool String.
From Verif Require Import ExprModel ConstraintModel VariableModel TypeModel PresolveModel SelectionModel PrepareModel TextModel MpsModel MpsSpec NamesModel NamesSpec JsonModel OptionModel CommandModel CommandSpec
  SolverModel WholeModel RelaxModel OfferModel ParityModel FileModel FileSpec FileProof3 FileProof4 IncumbentModel IncumbentSpec IncumbentProof2 IncumbentProof3.
Import ListNotations.
Local Open Scope string_scope.
Local Open Scope Z_scope.

(** C84: the command line names an MPS file with integer coefficients (of any size) outside its objective, and an
    option file that switches presolve off.  If a solution file is written, its first line says that no feasible
    solution was found, or the file gives every column of the MPS file a value such that all rows, all bounds and all
    values asked for hold, and its first line shows the objective of these values. *)
Theorem C84_incumbent (show : Q -> string) (fuel : nat) (order : list nat -> list nat) (su : surroundings) (on : ctype -> bool) (penalty : Q) (shrink user : bool)
  (nrm : list Q -> Q) (red ext : nat -> Q) (sq : Q -> Q) (lg : Z -> Q) (root : Q -> Q) (x : relaxations) (a : ninputs)
  (fs : files) (items : list item) (s : settings) (lines : list string) (f : content) (obj : string) (written : list string) :
  Forall well_named items -> Forall well_numbered items -> describes items s ->
  opens fs (st_mps s) lines -> contains lines f -> well_formed f obj -> integer_rows f obj -> thin_binaries fs s f -> presolve_off fuel fs s ->
  write_incumbent show fuel order su on penalty shrink user nrm red ext sq lg root x a fs (flat_map words items) = Some written ->
  says_infeasible written \/ exists y, says_objective show written (row_value f y obj) /\ gives_values written f y /\ file_solution fs s f y.
Proof. intros A B C D E F G H I. exact (incumbent_said show fuel order su on penalty shrink user nrm red ext sq lg root x a fs items s lines f obj A B C D E F G H I written). Qed.
Print Assumptions C84_incumbent.

(** C84: the file can be given back.  The same command line with "-i" and the file written (under a name that no other
    option uses) is accepted, and every variable starts with the value of the solution, provided that the objective on
    the first line fits an int. *)
Theorem C84_restart (show : Q -> string) (fuel : nat) (order : list nat -> list nat) (su : surroundings) (on : ctype -> bool) (penalty : Q) (shrink user : bool)
  (nrm : list Q -> Q) (red ext : nat -> Q) (sq : Q -> Q) (lg : Z -> Q) (root : Q -> Q) (x : relaxations) (a : ninputs)
  (fs : files) (items : list item) (s : settings) (lines : list string) (f : content) (obj : string) (name : string) (written : list string) :
  Forall well_named items -> Forall well_numbered items -> describes items s ->
  opens fs (st_mps s) lines -> contains lines f -> well_formed f obj -> integer_rows f obj -> thin_binaries fs s f -> presolve_off fuel fs s ->
  write_incumbent show fuel order su on penalty shrink user nrm red ext sq lg root x a fs (flat_map words items) = Some written ->
  readable_objective written -> name <> "" -> ~ In name [st_mps s; st_option s; st_mutable s; st_fixed s; st_selection s; st_pairs s] ->
  exists y i, gives_values written f y /\ file_solution fs s f y /\
    CommandModel.setup fuel (with_file fs name written) (flat_map words (items ++ [IFile FInitial name])) = Some (Ok (Ready i)) /\
    forall j n, nth_error (columns f) j = Some n -> exists w, nth_error (elements (in_vars i)) j = Some (n, w) /\ va_value w = y n.
Proof. intros A B C D E F G H I. exact (restart show fuel order su on penalty shrink user nrm red ext sq lg root x a fs items s lines f obj A B C D E F G H I name written). Qed.
Print Assumptions C84_restart.

(** If it does not, reading the file is undefined behaviour: the line of the objective is read like that of a variable. *)
Theorem C84_large_objective_refuted (show : Q -> string) (fuel : nat) (order : list nat -> list nat) (su : surroundings) (on : ctype -> bool) (penalty : Q) (shrink user : bool)
  (nrm : list Q -> Q) (red ext : nat -> Q) (sq : Q -> Q) (lg : Z -> Q) (root : Q -> Q) (x : relaxations) (a : ninputs)
  (fs : files) (items : list item) (s : settings) (lines : list string) (f : content) (obj : string) (name : string) (written : list string) :
  Forall well_named items -> Forall well_numbered items -> describes items s ->
  opens fs (st_mps s) lines -> contains lines f -> well_formed f obj -> integer_rows f obj -> thin_binaries fs s f -> presolve_off fuel fs s ->
  write_incumbent show fuel order su on penalty shrink user nrm red ext sq lg root x a fs (flat_map words items) = Some written ->
  unreadable_objective written -> name <> "" -> ~ In name [st_mps s; st_option s; st_mutable s; st_fixed s; st_selection s; st_pairs s] ->
  CommandModel.setup fuel (with_file fs name written) (flat_map words (items ++ [IFile FInitial name])) = Some UB.
Proof. intros A B C D E F G H I. exact (restart_undefined show fuel order su on penalty shrink user nrm red ext sq lg root x a fs items s lines f obj A B C D E F G H I name written). Qed.
Print Assumptions C84_large_objective_refuted.

(** The files written for the command lines of C83: a solution, none, and a run that stops before. *)
Example C84_example : d_written "fix.txt" = Some ["=obj= 3"; "x 0"; "y 1"; "z 0"] /\ d_written "five.txt" = Some ["=infeas="; "x 0"; "y 1"; "z 5"] /\ d_written "far.txt" = None.
Proof. exact d_writes. Qed.
(** The other hypotheses: C83_hypotheses. *)
Example C84_hypotheses : readable_objective ["=obj= 3"; "x 0"; "y 1"; "z 0"] /\
  ~ In "incumbent.sol" (let s := d_settings "fix.txt" in [st_mps s; st_option s; st_mutable s; st_fixed s; st_selection s; st_pairs s]).
Proof. split; [exact d_readable|cbn; intuition discriminate]. Qed.
(** With a cost of 3000000000 the file written is not one that can be given back. *)
Example C84_large : e_written "fix.txt" = Some ["=obj= 3000000000"; "x 0"; "y 1"; "z 0"] /\ unreadable_objective ["=obj= 3000000000"; "x 0"; "y 1"; "z 0"].
Proof. split; [exact e_writes|exact e_unreadable]. Qed.
