(** The stand-alone solver (printemps/standalone/mps_solver.h): the command line, the
    files it names, and the instance, options and pairs the solver starts from. *)
From Coq Require Import List ZArith QArith Bool String Ascii.
From Verif Require Import ExprModel ConstraintModel VariableModel PresolveModel TextModel MpsModel NamesModel JsonModel OptionModel.
Import ListNotations.
Local Open Scope string_scope.
Local Open Scope Z_scope.
Local Open Scope list_scope.

(** ** The command line *)

(** The members of MPSSolver the command line sets (mps_solver.h:22-33). *)
Record settings := mkSettings {
  st_mps : string; st_option : string; st_initial : string; st_mutable : string; st_fixed : string;
  st_selection : string; st_pairs : string; st_common : Z;
  st_accept : bool; st_extract : bool; st_loading_time : bool; st_export : bool }.
(** initialize (mps_solver.h:118-141), defaults 12-16. *)
Definition st_init : settings := mkSettings "" "" "" "" "" "" "" 5 false false false false.

(** atoi: white space, a sign, digits; the rest is ignored.  A number that is not an
    int is UB. *)
Fixpoint skip_blanks (s : string) : string :=
  match s with EmptyString => EmptyString | String c tl => if is_space c then skip_blanks tl else s end.
Definition atoi (s : string) : outcome Z :=
  let (neg, t) := split_sign (skip_blanks s) in
  let '(v, _, _) := span_digits t 0 0 in
  to_int (if neg then - v else v).

(** parse_command_line_arguments (mps_solver.h:144-192), of the arguments after the
    program's name.  args[i + 1] at the end of the list is UB. *)
Fixpoint parse (args : list string) (s : settings) : outcome settings :=
  match args with
  | [] => Ok s
  | a :: rest =>
      let '(mkSettings m p i u f c x n ac ex lt ej) := s in
      if (a =? "-p")%string then
        match rest with [] => UB | v :: tl => parse tl (mkSettings m v i u f c x n ac ex lt ej) end
      else if (a =? "-i")%string then
        match rest with [] => UB | v :: tl => parse tl (mkSettings m p v u f c x n ac ex lt ej) end
      else if (a =? "-m")%string then
        match rest with [] => UB | v :: tl => parse tl (mkSettings m p i v f c x n ac ex lt ej) end
      else if (a =? "-f")%string then
        match rest with [] => UB | v :: tl => parse tl (mkSettings m p i u v c x n ac ex lt ej) end
      else if (a =? "-s")%string then
        match rest with [] => UB | v :: tl => parse tl (mkSettings m p i u f v x n ac ex lt ej) end
      else if (a =? "-x")%string then
        match rest with [] => UB | v :: tl => parse tl (mkSettings m p i u f c v n ac ex lt ej) end
      else if (a =? "-c")%string then
        match rest with [] => UB | v :: tl => bind (atoi v) (fun z => parse tl (mkSettings m p i u f c x z ac ex lt ej)) end
      else if (a =? "--accept-continuous")%string then parse rest (mkSettings m p i u f c x n true ex lt ej)
      else if (a =? "--extract-flippable-variable-pairs")%string then parse rest (mkSettings m p i u f c x n ac true lt ej)
      else if (a =? "--include-mps-loading-time")%string then parse rest (mkSettings m p i u f c x n ac ex true ej)
      else if (a =? "--export-json-instance")%string then parse rest (mkSettings m p i u f c x n ac ex lt true)
      else parse rest (mkSettings a p i u f c x n ac ex lt ej)
  end.

(** ** Files *)

(** The files that can be opened, with their text. *)
Definition files := string -> option string.
(** while (std::getline(ifs, buffer)): the pieces between line feeds; there is no empty
    line after a final line feed. *)
Fixpoint split_lines (s cur : string) : list string :=
  match s with
  | EmptyString => if is_empty cur then [] else [cur]
  | String c tl => if Ascii.eqb c LF then cur :: split_lines tl EmptyString else split_lines tl (append cur (String c EmptyString))
  end.
Definition lines_of (text : string) : list string := split_lines text EmptyString.
(** Every reader throws if the file cannot be opened (mps.h:70-75,
    auxiliary_file_reader.h:28-32, 73-77, 117-121). *)
Definition open_lines (fs : files) (name : string) : outcome (list string) :=
  match fs name with Some text => Ok (lines_of text) | None => Throw end.

(** string_utility.h:117-132.  find_last_of gives npos if there is no such character:
    then substr(0, npos), and substr(npos + 1), are the whole string. *)
Fixpoint has_char (p : ascii -> bool) (s : string) : bool :=
  match s with EmptyString => false | String c tl => p c || has_char p tl end.
Fixpoint cut_before_last (p : ascii -> bool) (s : string) : string :=
  match s with
  | EmptyString => EmptyString
  | String c tl => if has_char p tl then String c (cut_before_last p tl) else if p c then EmptyString else s
  end.
Fixpoint cut_after_last (p : ascii -> bool) (s : string) : string :=
  match s with
  | EmptyString => EmptyString
  | String c tl => if has_char p tl then cut_after_last p tl else if p c then tl else s
  end.
Definition is_dot (c : ascii) : bool := Ascii.eqb c "."%char.
Definition is_separator (c : ascii) : bool := Ascii.eqb c "/"%char || Ascii.eqb c "\"%char.
Definition base_name (s : string) : string := cut_after_last is_separator (cut_before_last is_dot s).

(** ** Set-up *)

(** What the solver starts from. [in_selections]: is_user_defined_selection of each
    constraint. *)
Record instance := mkInst {
  in_name : string; in_vars : list proxy; in_cons : list (string * constr); in_selections : list bool;
  in_objective : expr; in_options : opts; in_pairs : list (nat * nat) }.
Inductive start := Usage | Ready (i : instance).

(** m_option.neighborhood.is_enabled_two_flip_move = true (mps_solver.h:276). *)
Fixpoint set_field (fs : list field) (vs : list oval) (name : string) (a : oval) : list oval :=
  match fs, vs with
  | f :: fs', v :: vs' => if String.eqb (f_name f) name then a :: vs' else v :: set_field fs' vs' name a
  | _, _ => vs
  end.
Fixpoint set_param_in (ss : list (string * list field)) (o : opts) (section name : string) (a : oval) : opts :=
  match ss, o with
  | (s, fs) :: ss', vs :: o' => if String.eqb s section then set_field fs vs name a :: o' else vs :: set_param_in ss' o' section name a
  | _, _ => o
  end.
Definition set_param (o : opts) (section name : string) (a : oval) : opts := set_param_in schema o section name a.

(** set_user_defined_selection_constraints (model.h:3415-3426). *)
Definition user_selections (names : list string) (cs : list (string * constr)) : list bool :=
  map (fun c => existsb (String.eqb (fst c)) names) cs.

(** The MPS file (mps_solver.h:222-226). *)
Definition load_mps (fs : files) (s : settings) : outcome imported :=
  bind (open_lines fs (st_mps s)) (fun ls => bind (read_mps ls) (fun m => import_mps (st_accept s) m)).
(** The option file (mps_solver.h:233-235); the reader is run for [fuel] steps. *)
Definition load_options (fuel : nat) (fs : files) (s : settings) : option (outcome opts) :=
  if is_empty (st_option s) then Some (Ok initialize)
  else match fs (st_option s) with Some text => setup_file fuel text | None => Some Throw end.
(** The other files (mps_solver.h:241-299). *)
Definition apply_files (fs : files) (s : settings) (im : imported) (o : opts) : outcome instance :=
  let vars := [mkProxy "variables" [Z.of_nat (List.length (im_vars im))] (im_vars im)] in
  bind (if is_empty (st_mutable s) then Ok vars
        else bind (open_lines fs (st_mutable s)) (fun ls => Ok (unfix_variables (read_names ls) vars))) (fun vars =>
  bind (if is_empty (st_fixed s) then Ok vars
        else bind (open_lines fs (st_fixed s)) (fun ls => bind (read_names_and_values ls) (fun tbl => Ok (fix_variables tbl vars)))) (fun vars =>
  bind (if is_empty (st_selection s) then Ok (map (fun _ => false) (im_cons im))
        else bind (open_lines fs (st_selection s)) (fun ls => Ok (user_selections (read_names ls) (im_cons im)))) (fun sels =>
  bind (if is_empty (st_pairs s) then Ok (o, [])
        else bind (open_lines fs (st_pairs s)) (fun ls =>
             Ok (set_param o "neighborhood" "is_enabled_two_flip_move" (VBool true), setup_flippable_pairs vars (read_name_pairs ls)))) (fun op =>
  bind (if is_empty (st_initial s) then Ok vars
        else bind (open_lines fs (st_initial s)) (fun ls => bind (read_names_and_values ls) (fun tbl => import_solution tbl vars))) (fun vars =>
  Ok (mkInst (base_name (st_mps s)) vars (im_cons im) sels (im_objective im) (fst op) (snd op))))))).
(** setup (mps_solver.h:195-300). *)
Definition setup (fuel : nat) (fs : files) (args : list string) : option (outcome start) :=
  match args with
  | [] => Some (Ok Usage)
  | _ =>
      match parse args st_init with
      | Throw => Some Throw
      | UB => Some UB
      | Ok s =>
          if negb (is_empty (st_mutable s)) && negb (is_empty (st_fixed s)) then Some Throw
          else match load_mps fs s with
               | Throw => Some Throw
               | UB => Some UB
               | Ok im =>
                   match load_options fuel fs s with
                   | None => None
                   | Some Throw => Some Throw
                   | Some UB => Some UB
                   | Some (Ok o) => Some (bind (apply_files fs s im o) (fun i => Ok (Ready i)))
                   end
               end
      end
  end.
