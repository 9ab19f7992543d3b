(** Specification for C44 and C54: the records of an MPS file, the integer program
    they describe, and what it means that a list of lines contains these records. *)
From Coq Require Import List ZArith QArith Qabs Bool String Ascii Permutation.
From Verif Require Import ExprModel ConstraintModel ConstraintSpec VariableModel PresolveModel TextModel MpsModel.
Import ListNotations.
Local Open Scope string_scope.
Local Open Scope Z_scope.
Local Open Scope list_scope.

(** ** Records *)
Inductive row_kind := KN | KL | KE | KG.
Inductive column := Marker (open : bool) | Column (v : string) (es : list (string * Q)).
Inductive bound := BLo (z : Z) | BLi (z : Z) | BUp (z : Z) | BUi (z : Z) | BFx (z : Z) | BFr | BMi | BPl | BBv.
(** Rows with their kind, columns with coefficients, right-hand sides, bounds. *)
Record content := mkContent { f_rows : list (row_kind * string); f_cols : list column; f_rhs : list (string * Q); f_bounds : list (bound * string) }.

(** ** The integer program *)
(** All coefficients: variable, row, value. *)
Definition triples (cs : list column) : list (string * string * Q) :=
  flat_map (fun c => match c with Column v es => map (fun e => (v, fst e, snd e)) es | Marker _ => [] end) cs.
Definition sum (l : list Q) : Q := fold_right Qplus 0%Q l.
(** Value of a row. *)
Definition row_value (f : content) (y : string -> Z) (r : string) : Q :=
  sum (map (fun t => (snd t * inject_Z (y (fst (fst t))))%Q) (filter (fun t => String.eqb (snd (fst t)) r) (triples (f_cols f)))).
Definition rhs_of (f : content) (r : string) : Q :=
  match find (fun p => String.eqb (fst p) r) (f_rhs f) with Some p => snd p | None => 0%Q end.
(** The variables in the order of their first column. *)
Fixpoint column_names (cs : list column) (seen : list string) : list string :=
  match cs with
  | [] => seen
  | Column v _ :: tl => column_names tl (if existsb (String.eqb v) seen then seen else seen ++ [v])
  | Marker _ :: tl => column_names tl seen
  end.
Definition columns (f : content) : list string := column_names (f_cols f) [].
(** The first column of v is between the markers INTORG and INTEND. *)
Fixpoint marked (cs : list column) (open : bool) (v : string) : bool :=
  match cs with
  | [] => false
  | Column w _ :: tl => if String.eqb w v then open else marked tl open v
  | Marker b :: tl => marked tl b v
  end.
Definition bounds_of (f : content) (v : string) : list bound := map fst (filter (fun p => String.eqb (snd p) v) (f_bounds f)).
Definition makes_integer (b : bound) : bool := match b with BLi _ | BUi _ | BBv => true | _ => false end.
Definition integer (f : content) (v : string) : bool := marked (f_cols f) false v || existsb makes_integer (bounds_of f v).
(** The effect of a bound record; infinity is INT_HALF_MAX. *)
Definition bound_effect (i : Z * Z) (b : bound) : Z * Z :=
  match b with
  | BLo z | BLi z => (z, snd i) | BUp z | BUi z => (fst i, z) | BFx z => (z, z)
  | BFr => (INT_HALF_MIN, INT_HALF_MAX) | BMi => (INT_HALF_MIN, 0) | BPl => (0, INT_HALF_MAX) | BBv => (0, 1)
  end.
(** Integer variables without bound record are 0/1 variables. *)
Definition interval (f : content) (v : string) : Z * Z :=
  match bounds_of f v with
  | [] => if marked (f_cols f) false v then (0, 1) else (0, INT_HALF_MAX)
  | bs => fold_left bound_effect bs (0, INT_HALF_MAX)
  end.
Definition sense_of (k : row_kind) : csense := match k with KN | KL => Less | KE => Equal | KG => Greater end.
Definition feasible (f : content) (y : string -> Z) : Prop :=
  (forall k r, In (k, r) (f_rows f) -> k <> KN -> holds (row_value f y r) (sense_of k) (rhs_of f r)) /\
  (forall v, In v (columns f) -> fst (interval f v) <= y v <= snd (interval f v)).
Definition constraint_rows (f : content) : list string := map snd (filter (fun p => match fst p with KN => false | _ => true end) (f_rows f)).

(** ** Well-formed contents *)
Definition well_formed (f : content) (obj : string) : Prop :=
  map snd (filter (fun p => match fst p with KN => true | _ => false end) (f_rows f)) = [obj] /\
  NoDup (map snd (f_rows f)) /\
  NoDup (map fst (triples (f_cols f))) /\
  (forall v r a, In (v, r, a) (triples (f_cols f)) -> In r (map snd (f_rows f)) /\ (a == 0 \/ 1 # 10000000000 < Qabs a)%Q) /\
  (forall v es, In (Column v es) (f_cols f) -> es <> []) /\
  NoDup (map fst (f_rhs f)) /\ (forall r q, In (r, q) (f_rhs f) -> In r (constraint_rows f)) /\
  (forall b v, In (b, v) (f_bounds f) -> In v (columns f)) /\
  (** FX ends the bounds of a variable *)
  (forall v l z l', bounds_of f v = l ++ BFx z :: l' -> l' = []).

(** ** Lines *)
Definition numeral (s : string) (q : Q) : Prop := atof s = Some q /\ s <> "'INTORG'" /\ s <> "'INTEND'".
Definition row_name (k : row_kind) : string := match k with KN => "N" | KL => "L" | KE => "E" | KG => "G" end.
Definition row_items (p : row_kind * string) (items : list string) : Prop := items = [row_name (fst p); snd p].
Fixpoint entry_items (es : list (string * Q)) (items : list string) : Prop :=
  match es, items with
  | [], [] => True
  | (r, a) :: es, n :: s :: items => n = r /\ numeral s a /\ entry_items es items
  | _, _ => False
  end.
Definition column_items (c : column) (items : list string) : Prop :=
  match c with
  | Marker b => exists a k, items = [a; k; if b then "'INTORG'" else "'INTEND'"] /\ a <> "NAME"
  | Column v es => exists tl, items = v :: tl /\ v <> "NAME" /\ entry_items es tl
  end.
(** A line of right-hand sides names the vector first. *)
Definition rhs_items (es : list (string * Q)) (items : list string) : Prop :=
  es <> [] /\ exists n tl, items = n :: tl /\ n <> "NAME" /\ entry_items es tl.
Definition int_numeral (s : string) (z : Z) : Prop := INT_MIN <= z <= INT_MAX /\ exists q, atof s = Some q /\ (q == inject_Z z)%Q.
Definition bound_items (p : bound * string) (items : list string) : Prop :=
  exists set, match fst p with
  | BLo z => exists s, items = ["LO"; set; snd p; s] /\ int_numeral s z
  | BLi z => exists s, items = ["LI"; set; snd p; s] /\ int_numeral s z
  | BUp z => exists s, items = ["UP"; set; snd p; s] /\ int_numeral s z
  | BUi z => exists s, items = ["UI"; set; snd p; s] /\ int_numeral s z
  | BFx z => exists s, items = ["FX"; set; snd p; s] /\ int_numeral s z
  | BFr => items = ["FR"; set; snd p]
  | BMi => items = ["MI"; set; snd p]
  | BPl => items = ["PL"; set; snd p]
  | BBv => items = ["BV"; set; snd p]
  end.
(** A section that may be missing. *)
Definition optional (h : string) (body text : list (list string)) : Prop := text = [h] :: body \/ (body = [] /\ text = []).
(** The lines of a file with these records: sections in order, one record (or several
    pairs of right-hand sides) a line, any white space and blank lines, no RANGES
    section; what follows ENDATA does not matter. *)
Definition contains (lines : list string) (f : content) : Prop :=
  exists name rows cols rhs bounds rhs_text bound_text rest rhs_groups,
  filter (fun l => match l with [] => false | _ => true end) (map items_of lines) =
    ["NAME"; name] :: ["ROWS"] :: rows ++ ["COLUMNS"] :: cols ++ rhs_text ++ bound_text ++ ["ENDATA"] :: rest /\
  Forall2 row_items (f_rows f) rows /\ Forall2 column_items (f_cols f) cols /\
  List.concat rhs_groups = f_rhs f /\ Forall2 rhs_items rhs_groups rhs /\ optional "RHS" rhs rhs_text /\
  Forall2 bound_items (f_bounds f) bounds /\ optional "BOUNDS" bounds bound_text.

(** ** The imported model *)
(** Assignments that the variables and constraints of a model admit. *)
Definition admits (vs : list (string * var)) (cs : list (string * constr)) (x : nat -> Z) : Prop :=
  (forall i n v, nth_error vs i = Some (n, v) ->
     if va_fixed v then x i = va_value v else va_lower v <= x i <= va_upper v) /\
  (forall n c, In (n, c) cs -> holds (e_eval (ct_expr c) x) (ct_sense c) 0).

(** ** Written models *)
(** At most six significant decimal digits. *)
Definition six_digits (q : Q) : Prop := exists k e, (q == inject_Z k * Qpower 10 e)%Q /\ Z.abs k < 1000000.
Definition zero_or_big (q : Q) : Prop := (q == 0 \/ 1 # 10000000000 < Qabs q)%Q.
Definition writable_expr (n : nat) (e : expr) : Prop :=
  NoDup (map fst (ex_sens e)) /\ (forall i a, In (i, a) (ex_sens e) -> (i < n)%nat /\ six_digits a /\ zero_or_big a) /\ six_digits (ex_const e).
(** The name without blanks, as it is written, is a single item. *)
Definition one_item (n : string) : Prop := items_of (delete_space n) = [delete_space n].
Definition writable_var (v : var) : Prop :=
  if va_fixed v then INT_MIN <= va_value v <= INT_MAX
  else INT_MIN <= va_lower v /\ va_lower v <= va_upper v /\ va_upper v <= INT_MAX /\ va_lower v <> INT_HALF_MIN /\ ~ (va_lower v = 0 /\ va_upper v = INT_HALF_MAX).
(** Models that an MPS file can carry over. *)
Definition writable (w : written) : Prop :=
  (wr_name w = "" \/ one_item (wr_name w)) /\
  (forall n v, In (n, v) (wr_vars w) -> one_item n /\ delete_space n <> "NAME" /\ writable_var v) /\
  NoDup (map (fun p => delete_space (fst p)) (wr_vars w)) /\
  (forall n c, In (n, c) (wr_cons w) -> one_item n /\ writable_expr (List.length (wr_vars w)) (ct_expr c)) /\
  NoDup ("obj" :: map (fun p => delete_space (fst p)) (wr_cons w)) /\
  writable_expr (List.length (wr_vars w)) (wr_objective w) /\ (ex_const (wr_objective w) == 0)%Q /\
  (forall i, (i < List.length (wr_vars w))%nat -> (1 # 10000000000 < Qabs (coef (ex_sens (wr_objective w)) i))%Q \/ exists n c a, In (n, c) (wr_cons w) /\ In (i, a) (ex_sens (ct_expr c))).

(** ** Items of a line *)
(** Tab, line feed, vertical tab, form feed, carriage return, blank. *)
Definition separator (c : ascii) : Prop := In (nat_of_ascii c) [9; 10; 11; 12; 13; 32]%nat.
Fixpoint chars (s : string) : list ascii := match s with EmptyString => [] | String c tl => c :: chars tl end.
Definition gap (s : string) : Prop := forall c, In c (chars s) -> separator c.
Definition item (s : string) : Prop := s <> EmptyString /\ forall c, In c (chars s) -> ~ separator c.
(** A line: items, each followed by a gap. *)
Fixpoint line_of (l : list (string * string)) : string :=
  match l with [] => EmptyString | (w, g) :: tl => append w (append g (line_of tl)) end.
Fixpoint separated (l : list (string * string)) : Prop :=
  match l with
  | [] => True
  | (w, g) :: tl => item w /\ gap g /\ (tl <> [] -> g <> EmptyString) /\ separated tl
  end.
