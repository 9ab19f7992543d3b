(** Solutions written as JSON: the values of a solution by name and as nested arrays
    (multi_array/value_proxy.h, solution/named_solution.h).  JSON itself is JsonModel. *)
From Coq Require Import List ZArith QArith Qabs Bool String.
From Verif Require Import TextModel PresolveModel VariableModel JsonModel.
Import ListNotations.
Local Open Scope Z_scope.

(** A value of a ValueProxy: int for variables, double for the others. *)
Inductive value := VInt (z : Z) | VReal (q : Q).
(** ValueProxy (value_proxy.h:15-50): shape, values and names by flat index. *)
Record vproxy := mkVp { vp_shape : list Z; vp_values : list value; vp_names : list string }.
(** The value as it is stored in a JsonObject. *)
Definition json_of (v : value) : json := match v with VInt z => JInt KInt z | VReal q => JReal q end.

(** std::to_string(double): "%f", six decimals. *)
Definition print_fixed (q : Q) : string :=
  let n := round_half_even (Qabs q * pow10 6)%Q in
  let body := append (fixed_digits (ndigits (n / 10 ^ 6)) (n / 10 ^ 6)) (append (append "." (fixed_digits 6 (n mod 10 ^ 6))) EmptyString) in
  if Qnum q <? 0 then append "-" body else body.
(** std::to_string of a value (value_proxy.h:341). *)
Definition value_text (v : value) : string := match v with VInt z => print_int z | VReal q => print_fixed q end.

(** create_json_object (value_proxy.h:288-304); the proxies in the iteration order of
    the map. *)
Definition create_json_object (ps : list (string * vproxy)) : list (string * json) :=
  flat_map (fun p => combine (vp_names (snd p)) (map json_of (vp_values (snd p)))) ps.

(** The two inner loops of create_json_array (value_proxy.h:332-339, 343-350): the text
    they append and the value of [dimension] they leave.  [k]: the iterations the first
    has left; [j] and [dimension] are equal throughout. *)
Fixpoint open_loop (k : nat) (index : list Z) (dimension : nat) : string * nat :=
  match k with
  | O => (EmptyString, dimension)
  | S k' =>
      if nth (S dimension) index 0 =? 0 then let (t, d) := open_loop k' index (S dimension) in (append "[ " t, d)
      else (EmptyString, dimension)
  end.
Fixpoint close_loop (index shape : list Z) (dimension : nat) : string * nat :=
  match dimension with
  | O => (EmptyString, O)
  | S d =>
      if nth dimension index 0 =? nth dimension shape 0 - 1 then let (t, d') := close_loop index shape d in (append "] " t, d')
      else (EmptyString, dimension)
  end.
(** The loop over the elements (value_proxy.h:330-351). *)
Fixpoint element_loop (shape : list Z) (items : list (list Z * value)) (dimension : nat) : string :=
  match items with
  | [] => EmptyString
  | (index, v) :: tl =>
      let (o, d1) := open_loop (List.length shape - 1 - dimension) index dimension in
      let (c, d2) := close_loop index shape d1 in
      append o (append (append (value_text v) " ") (append c (element_loop shape tl d2)))
  end.
Definition indexed (p : vproxy) : list (list Z * value) :=
  combine (map (fun i => multi_index (vp_shape p) (Z.of_nat i)) (seq 0 (List.length (vp_values p)))) (vp_values p).
(** The text built by create_json_array (value_proxy.h:321-354). *)
Definition proxy_text (p : string * vproxy) : string :=
  append (append (quoted (fst p)) " ") (append "[ " (append (element_loop (vp_shape (snd p)) (indexed (snd p)) 0) "] ")).
Definition array_text (ps : list (string * vproxy)) : string :=
  append " { " (append (fold_right append EmptyString (map proxy_text ps)) "}").
(** create_json_array (value_proxy.h:306-356). *)
Definition create_json_array (fuel : nat) (ps : list (string * vproxy)) : option (outcome (list (string * json))) :=
  parse_json_object fuel (array_text ps).

(** NamedSolution (named_solution.h:16-36). *)
Record report := mkReport {
  rp_name : string; rp_variables : Z; rp_constraints : Z; rp_feasible : bool; rp_objective : Q; rp_violation : Q;
  rp_var : list (string * vproxy); rp_expr : list (string * vproxy); rp_con : list (string * vproxy); rp_vio : list (string * vproxy) }.
(** constant.h:16. *)
Definition VERSION : string := "v2.5.0".
Definition summary (r : report) : list (string * json) :=
  [("version", JStr VERSION); ("name", JStr (rp_name r)); ("number_of_variables", JInt KInt (rp_variables r)); ("number_of_constraints", JInt KInt (rp_constraints r));
   ("is_found_feasible_solution", JBool (rp_feasible r)); ("objective", JReal (rp_objective r)); ("total_violation", JReal (rp_violation r))]%string.
(** write_json_by_name (named_solution.h:76-109): the text of the file. *)
Definition write_by_name (r : report) : outcome string :=
  write_json 0 (JObj (summary r ++
    [("variables", JObj (create_json_object (rp_var r))); ("expressions", JObj (create_json_object (rp_expr r)));
     ("constraints", JObj (create_json_object (rp_con r))); ("violations", JObj (create_json_object (rp_vio r)))]%string)).
(** write_json_by_array (named_solution.h:112-145). *)
Definition write_by_array (fuel : nat) (r : report) : option (outcome string) :=
  match create_json_array fuel (rp_var r), create_json_array fuel (rp_expr r), create_json_array fuel (rp_con r), create_json_array fuel (rp_vio r) with
  | Some a, Some b, Some c, Some d =>
      Some (bind a (fun a => bind b (fun b => bind c (fun c => bind d (fun d =>
        write_json 0 (JObj (summary r ++ [("variables", JObj a); ("expressions", JObj b); ("constraints", JObj c); ("violations", JObj d)]%string)))))))
  | _, _, _, _ => None
  end.
