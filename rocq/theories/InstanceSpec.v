(** Specification for C93: the model as a JSON file. *)
From Coq Require Import List ZArith QArith Qabs Bool String Ascii.
From Verif Require Import ExprModel ConstraintModel ConstraintSpec VariableModel MpsModel JsonModel JsonSpec ReportSpec.
Import ListNotations.
Local Open Scope Z_scope.

(** ** The models that can be written and read back *)
(** Numbers with at most seven digits. *)
Definition seven_digits (q : Q) : Prop := sound_real q /\ exists k e, (q == inject_Z k * decimal e)%Q /\ Z.abs k < 10000000.
Definition int_sized (z : Z) : Prop := -2147483648 <= z <= 2147483647.
Definition writable_var (e : string * var) : Prop :=
  plain (fst e) /\ int_sized (va_value (snd e)) /\ int_sized (va_lower (snd e)) /\ int_sized (va_upper (snd e)).
(** Numbers within range; [digits] tells which. *)
Definition writable_terms (digits : Q -> Prop) (n : nat) (s : sens) : Prop := forall i a, In (i, a) s -> (i < n)%nat /\ digits a.
Definition writable_con (digits : Q -> Prop) (n : nat) (e : string * constr) : Prop :=
  plain (fst e) /\ digits (ex_const (ct_expr (snd e))) /\ writable_terms digits n (ex_sens (ct_expr (snd e))).
Definition writable (digits : Q -> Prop) (w : written) : Prop :=
  plain (wr_name w) /\ Forall writable_var (wr_vars w) /\ Forall (writable_con digits (List.length (wr_vars w))) (wr_cons w) /\
  writable_terms digits (List.length (wr_vars w)) (ex_sens (wr_objective w)).

(** ** What the file holds, entry by entry *)
Definition kept_term (w : written) (t : nat * Q) (j : json) : Prop :=
  exists n v q, nth_error (wr_vars w) (fst t) = Some (n, v) /\ rounded (snd t) q /\ j = JObj [("variable", JStr n); ("coefficient", JReal q)]%string.
Definition kept_var (e : string * var) (j : json) : Prop :=
  exists kind, (va_sense (snd e) = VBinary <-> kind = "Binary"%string) /\ (va_sense (snd e) <> VBinary <-> kind = "Integer"%string) /\
  j = JObj [("name", JStr (fst e)); ("value", JInt KInt (va_value (snd e))); ("is_fixed", JBool (va_fixed (snd e)));
            ("lower_bound", JInt KInt (va_lower (snd e))); ("upper_bound", JInt KInt (va_upper (snd e))); ("sense", JStr kind)]%string.
(** The relations and their signs. *)
Inductive sign : csense -> string -> Prop := sign_less : sign Less "<=" | sign_equal : sign Equal "=" | sign_greater : sign Greater ">=".
(** [terms]: the coefficients in some order. *)
Definition kept_con (w : written) (terms : sens -> list json -> Prop) (e : string * constr) (j : json) : Prop :=
  exists rhs s ts, rounded (- ex_const (ct_expr (snd e))) rhs /\ sign (ct_sense (snd e)) s /\ terms (ex_sens (ct_expr (snd e))) ts /\
  j = JObj [("name", JStr (fst e)); ("is_enabled", JBool (ct_enabled (snd e))); ("rhs", JReal rhs); ("sense", JStr s); ("sensitivities", JArr ts)]%string.

(** ** What the file means *)
(** The sum that the terms make of the values y of the variables. *)
Inductive total (y : string -> Z) : list json -> Q -> Prop :=
| total_none : total y [] 0
| total_term m n a l q : last_with "variable" m = Some (JStr n) -> last_with "coefficient" m = Some (JReal a) -> total y l q ->
    total y (JObj m :: l) (a * inject_Z (y n) + q).
Definition variable_holds (y : string -> Z) (j : json) : Prop :=
  exists m n fixed value lower upper, j = JObj m /\ last_with "name" m = Some (JStr n) /\ last_with "is_fixed" m = Some (JBool fixed) /\
  last_with "value" m = Some (JInt KInt value) /\ last_with "lower_bound" m = Some (JInt KInt lower) /\ last_with "upper_bound" m = Some (JInt KInt upper) /\
  if fixed then y n = value else lower <= y n <= upper.
Definition constraint_holds (y : string -> Z) (j : json) : Prop :=
  exists m enabled rhs text s ts q, j = JObj m /\ last_with "is_enabled" m = Some (JBool enabled) /\ last_with "rhs" m = Some (JReal rhs) /\
  last_with "sense" m = Some (JStr text) /\ sign s text /\ last_with "sensitivities" m = Some (JArr ts) /\ total y ts q /\
  (enabled = true -> holds q s rhs).
(** y is a solution of the model in the file. *)
Definition file_admits (doc : list (string * json)) (y : string -> Z) : Prop :=
  exists vs cs, last_with "variables" doc = Some (JArr vs) /\ Forall (variable_holds y) vs /\
  last_with "constraints" doc = Some (JArr cs) /\ Forall (constraint_holds y) cs.
Definition file_objective (doc : list (string * json)) (y : string -> Z) (q : Q) : Prop :=
  exists o ts, last_with "objective" doc = Some (JObj o) /\ last_with "sensitivities" o = Some (JArr ts) /\ total y ts q.

(** ** What the model means *)
Fixpoint weighted (s : sens) (x : nat -> Z) : Q := match s with [] => 0 | (i, a) :: tl => (a * inject_Z (x i) + weighted tl x)%Q end.
Definition value_at (e : expr) (x : nat -> Z) : Q := (ex_const e + weighted (ex_sens e) x)%Q.
(** All variables within their bounds, fixed ones at their values, and all enabled
    constraints satisfied. *)
Definition model_admits (w : written) (x : nat -> Z) : Prop :=
  (forall i n v, nth_error (wr_vars w) i = Some (n, v) -> if va_fixed v then x i = va_value v else va_lower v <= x i <= va_upper v) /\
  (forall n c, In (n, c) (wr_cons w) -> ct_enabled c = true -> holds (value_at (ct_expr c) x) (ct_sense c) 0).
(** The values of the variables as a function of their names. *)
Definition named (w : written) (x : nat -> Z) (y : string -> Z) : Prop := forall i n v, nth_error (wr_vars w) i = Some (n, v) -> x i = y n.
(** A text without its blanks. *)
Definition squeezed (s : string) : string := string_of_list_ascii (filter (fun c => negb (Ascii.eqb c " ")) (list_ascii_of_string s)).
