(** Vocabulary for the property about the command line of the stand-alone solver. *)
From Coq Require Import List ZArith QArith Bool String Ascii.
From Verif Require Import VariableModel PresolveModel TextModel MpsModel NamesModel NamesSpec JsonModel OptionModel CommandModel.
Import ListNotations.
Local Open Scope string_scope.
Local Open Scope list_scope.

(** The parts of a command line: an option with a file name, the option with a number,
    a switch, and the MPS file. *)
Inductive file_option := FOption | FInitial | FMutable | FFixed | FSelection | FPairs.
Inductive switch := WAccept | WExtract | WLoadingTime | WExport.
Inductive item := IFile (k : file_option) (name : string) | ICommon (text : string) | ISwitch (w : switch) | IMps (name : string).
Definition file_letter (k : file_option) : string :=
  match k with FOption => "-p" | FInitial => "-i" | FMutable => "-m" | FFixed => "-f" | FSelection => "-s" | FPairs => "-x" end.
Definition switch_text (w : switch) : string :=
  match w with WAccept => "--accept-continuous" | WExtract => "--extract-flippable-variable-pairs"
             | WLoadingTime => "--include-mps-loading-time" | WExport => "--export-json-instance" end.
Definition words (i : item) : list string :=
  match i with IFile k name => [file_letter k; name] | ICommon t => ["-c"; t] | ISwitch w => [switch_text w] | IMps name => [name] end.
(** The options that take a value. *)
Definition value_letters : list string := ["-p"; "-i"; "-m"; "-f"; "-s"; "-x"; "-c"].
Definition reserved : list string := value_letters ++ map switch_text [WAccept; WExtract; WLoadingTime; WExport].
(** An MPS file is not called like an option. *)
Definition well_named (i : item) : Prop := match i with IMps name => ~ In name reserved | _ => True end.
(** Numbers are ints. *)
Definition well_numbered (i : item) : Prop := match i with ICommon t => exists z, t = print_int z /\ is_int z | _ => True end.

(** The last item that chooses something decides; [d] without any. *)
Definition last_choice {A} (pick : item -> option A) (d : A) (items : list item) (a : A) : Prop :=
  (exists before it after, items = before ++ it :: after /\ pick it = Some a /\ forall x, In x after -> pick x = None) \/
  ((forall x, In x items -> pick x = None) /\ a = d).
Definition file_option_eqb (a b : file_option) : bool :=
  match a, b with FOption, FOption | FInitial, FInitial | FMutable, FMutable | FFixed, FFixed | FSelection, FSelection | FPairs, FPairs => true | _, _ => false end.
Definition pick_file (k : file_option) (i : item) : option string :=
  match i with IFile k' name => if file_option_eqb k k' then Some name else None | _ => None end.
Definition pick_mps (i : item) : option string := match i with IMps name => Some name | _ => None end.
(** The settings a command line describes. *)
Definition describes (items : list item) (s : settings) : Prop :=
  last_choice pick_mps "" items (st_mps s) /\
  last_choice (pick_file FOption) "" items (st_option s) /\ last_choice (pick_file FInitial) "" items (st_initial s) /\
  last_choice (pick_file FMutable) "" items (st_mutable s) /\ last_choice (pick_file FFixed) "" items (st_fixed s) /\
  last_choice (pick_file FSelection) "" items (st_selection s) /\ last_choice (pick_file FPairs) "" items (st_pairs s) /\
  (exists t, last_choice (fun i => match i with ICommon t => Some t | _ => None end) "5" items t /\ t = print_int (st_common s)) /\
  (st_accept s = true <-> In (ISwitch WAccept) items) /\ (st_extract s = true <-> In (ISwitch WExtract) items) /\
  (st_loading_time s = true <-> In (ISwitch WLoadingTime) items) /\ (st_export s = true <-> In (ISwitch WExport) items).

(** The lines of a file that can be opened. *)
Definition opens (fs : files) (name : string) (lines : list string) : Prop := exists text, fs name = Some text /\ lines = lines_of text.
Definition listed (lines : list string) (n : string) : Prop := exists line rest, In line lines /\ items_of line = n :: rest.

(** What becomes of variable [v] of the MPS file, called [n]. *)
Definition prepared (fs : files) (s : settings) (n : string) (v w : var) : Prop :=
  same_bounds v w /\
  (st_mutable s <> "" -> exists lines, opens fs (st_mutable s) lines /\ (va_fixed w = false <-> listed lines n) /\
     (va_fixed w = true \/ st_initial s = "" -> va_value w = 0%Z)) /\
  (st_fixed s <> "" -> exists lines, opens fs (st_fixed s) lines /\
     (va_fixed w = true <-> va_fixed v = true \/ exists text, last_given lines n text) /\
     (forall text, last_given lines n text -> exists q, atof text = Some q /\ nearest q (va_value w)) /\
     (never_given lines n -> va_fixed v = true \/ st_initial s = "" -> va_value w = va_value v)) /\
  (st_mutable s = "" -> st_fixed s = "" -> va_fixed w = va_fixed v /\ (va_fixed v = true \/ st_initial s = "" -> va_value w = va_value v)) /\
  (st_initial s <> "" -> exists lines, opens fs (st_initial s) lines /\ file_value lines n (va_value w)).

(** The values an initial solution must give to the fixed variables. *)
Definition agreeing (fs : files) (s : settings) (n : string) (v : var) : Prop :=
  st_initial s <> "" -> forall init, opens fs (st_initial s) init ->
  (forall lines, st_mutable s <> "" -> opens fs (st_mutable s) lines -> ~ listed lines n -> file_value init n 0%Z) /\
  (forall lines text q z, st_fixed s <> "" -> opens fs (st_fixed s) lines -> last_given lines n text -> atof text = Some q -> nearest q z -> file_value init n z) /\
  (forall lines, st_fixed s <> "" -> opens fs (st_fixed s) lines -> never_given lines n -> va_fixed v = true -> file_value init n (va_value v)) /\
  (st_mutable s = "" -> st_fixed s = "" -> va_fixed v = true -> file_value init n (va_value v)).
