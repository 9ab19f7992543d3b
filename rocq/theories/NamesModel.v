(** Names of variables and the operations that address variables by name: naming at
    set-up, fixing, unfixing, initial solutions, flippable pairs, the auxiliary files
    and the solution file. *)
From Coq Require Import List ZArith QArith Qround Bool String Ascii.
From Verif Require Import VariableModel PresolveModel TextModel MpsModel.
Import ListNotations.
Local Open Scope Z_scope.
Local Open Scope list_scope.

(** A variable proxy: its name, its shape, and its elements with their names.
    (model.h: m_variable_names[i], m_variable_proxies[i]) *)
Record proxy := mkProxy { px_name : string; px_shape : list Z; px_elems : list (string * var) }.
Definition elements (m : list proxy) : list (string * var) := flat_map px_elems m.
(** Every loop "for proxy : m_variable_proxies, for variable : proxy". *)
Definition each (f : string * var -> string * var) (m : list proxy) : list proxy :=
  map (fun p => mkProxy (px_name p) (px_shape p) (map f (px_elems p))) m.

(** ** Creating and naming *)

(** utility::has_space (string_utility.h:41-49). *)
Fixpoint has_space (s : string) : bool :=
  match s with EmptyString => false | String c tl => if Ascii.eqb c " "%char then true else has_space tl end.
(** create_variables (model.h:171-330).  The limit on the number of proxies is not
    modelled; a shape with a negative or missing dimension is not a proxy (UB). *)
Definition create_variables (m : list proxy) (name : string) (shape : list Z) : outcome (list proxy) :=
  if has_space name then Throw
  else match shape with
       | [] => UB
       | _ => if forallb (fun n => 0 <? n) shape
              then Ok (m ++ [mkProxy name shape (repeat (EmptyString, v_init) (Z.to_nat (number_of_elements shape)))])
              else UB
       end.

(** utility::to_string(int, "%<n>d") (string_utility.h:65-72). *)
Fixpoint spaces (n : nat) : string := match n with O => EmptyString | S k => String " "%char (spaces k) end.
Definition pad (n : nat) (s : string) : string := append (spaces (n - String.length s)) s.
(** m_max_digits (abstract_multi_array.h:44, 54, 66). *)
Definition max_digits (shape : list Z) : nat := String.length (print_int (fold_right Z.max 0 shape)).
Fixpoint join (l : list string) : string :=
  match l with [] => EmptyString | [a] => a | a :: tl => append a (append ", " (join tl)) end.
(** indices_label (abstract_multi_array.h:119-137). *)
Definition indices_label (shape : list Z) (flat : Z) : string :=
  if number_of_elements shape =? 1 then EmptyString
  else append "[" (append (join (map (fun i => pad (max_digits shape) (print_int i)) (multi_index shape flat))) "]").
(** setup_unique_names (model.h:870-925), variables; the loops for expressions and
    constraints are the same. *)
Fixpoint name_elements (name : string) (shape : list Z) (flat : Z) (l : list (string * var)) : list (string * var) :=
  match l with
  | [] => []
  | e :: tl =>
      (if is_empty (fst e) then (append name (indices_label shape flat), snd e) else e)
      :: name_elements name shape (flat + 1) tl
  end.
Definition setup_unique_names (m : list proxy) : list proxy :=
  map (fun p => mkProxy (px_name p) (px_shape p) (name_elements (px_name p) (px_shape p) 0 (px_elems p))) m.

(** ** Operations by name *)
Definition fix_by (v : var) (a : Z) : var := match v_step v (VFixBy a) with Some w => w | None => v end.
Definition unfix (v : var) : var := match v_step v VUnfix with Some w => w | None => v end.
(** fix_variables (model.h:3389-3399). *)
Definition fix_variables (tbl : list (string * Z)) (m : list proxy) : list proxy :=
  each (fun e => match lookup tbl (fst e) with Some a => (fst e, fix_by (snd e) a) | None => e end) m.
(** unfix_variables (model.h:3401-3412): every variable is first fixed at 0. *)
Definition unfix_variables (names : list string) (m : list proxy) : list proxy :=
  each (fun e => let v := fix_by (snd e) 0 in
                 (fst e, if existsb (String.eqb (fst e)) names then unfix v else v)) m.
(** import_solution of a map (model.h:3375-3386): operator= throws on a fixed
    variable that would change. *)
Fixpoint import_elements (tbl : list (string * Z)) (l : list (string * var)) : outcome (list (string * var)) :=
  match l with
  | [] => Ok []
  | (n, v) :: tl =>
      match v_step v (VSet (match lookup tbl n with Some a => a | None => 0 end)) with
      | None => Throw
      | Some w => bind (import_elements tbl tl) (fun r => Ok ((n, w) :: r))
      end
  end.
Fixpoint import_solution (tbl : list (string * Z)) (m : list proxy) : outcome (list proxy) :=
  match m with
  | [] => Ok []
  | p :: tl =>
      bind (import_elements tbl (px_elems p)) (fun l =>
      bind (import_solution tbl tl) (fun r => Ok (mkProxy (px_name p) (px_shape p) l :: r)))
  end.
(** setup_flippable_variable_ptr_pairs (model.h:3428-3456); a variable is its
    position among all elements; the map holds the last variable of each name. *)
Fixpoint last_position (names : list string) (i : nat) (acc : list (string * nat)) : list (string * nat) :=
  match names with [] => acc | n :: tl => last_position tl (S i) (store acc n i) end.
Fixpoint flippable_pairs (tbl : list (string * nat)) (pairs : list (string * string)) : list (nat * nat) :=
  match pairs with
  | [] => []
  | (a, b) :: tl =>
      match lookup tbl a, lookup tbl b with
      | Some i, Some j => (i, j) :: flippable_pairs tbl tl
      | _, _ => flippable_pairs tbl tl
      end
  end.
Definition setup_flippable_pairs (m : list proxy) (pairs : list (string * string)) : list (nat * nat) :=
  flippable_pairs (last_position (map fst (elements m)) 0 []) pairs.

(** ** Auxiliary files (helper/auxiliary_file_reader.h); a file is the list of its
    lines. *)

(** static_cast<int>(floor(0.5 + atof(..))); UB: out of range, or a number [atof] does
    not model (inf, nan, hexadecimal). *)
Definition value_of (s : string) : outcome Z :=
  match atof s with Some q => to_int (Qfloor ((1 # 2) + q)) | None => UB end.
(** read_names_and_values (12-56). *)
Fixpoint read_values (lines : list string) (tbl : list (string * Z)) : outcome (list (string * Z)) :=
  match lines with
  | [] => Ok tbl
  | l :: tl =>
      match items_of l with
      | a :: b :: _ => bind (value_of b) (fun z => read_values tl (store tbl a z))
      | _ => read_values tl tbl
      end
  end.
Definition read_names_and_values (lines : list string) : outcome (list (string * Z)) := read_values lines [].
(** read_names (59-100). *)
Definition read_names (lines : list string) : list string :=
  flat_map (fun l => match items_of l with a :: _ => [a] | [] => [] end) lines.
(** read_name_pairs (103-150). *)
Definition read_name_pairs (lines : list string) : list (string * string) :=
  flat_map (fun l => match items_of l with a :: b :: _ => [(a, b)] | _ => [] end) lines.

(** ** The solution file *)

(** export_named_solution (model.h:3280-3330), variables; export_values_and_names
    (variable_proxy.h:329-339).  The map is keyed by the proxy's name. *)
Definition values_of (p : proxy) : list (string * Z) := map (fun e => (fst e, va_value (snd e))) (px_elems p).
Definition export_named (m : list proxy) : list (string * list (string * Z)) :=
  fold_left (fun acc p => store acc (px_name p) (values_of p)) m [].
(** write_solution (named_solution.h:148-167) for a given iteration order of the map;
    [objective]: the text of the objective value ("%.10e") if the solution is feasible. *)
Definition solution_lines (objective : option string) (sol : list (string * list (string * Z))) : list string :=
  (match objective with Some t => append "=obj= " t | None => "=infeas="%string end)
  :: flat_map (fun p => map (fun e => append (fst e) (append " " (print_int (snd e)))) (snd p)) sol.
