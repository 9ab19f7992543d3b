(** C93: the model as a JSON file. *)
From Coq Require Import List ZArith QArith Bool String Permutation.
From Verif Require Import ExprModel ConstraintModel VariableModel PresolveModel DependentModel PrepareModel MpsModel NamesModel JsonModel JsonSpec OptionModel FileModel ReportSpec InstanceModel InstanceSpec InstanceProof InstanceProof2 InstanceProof3.
From Verif Require PrepareProof6.
Import ListNotations.
Local Open Scope string_scope.
Local Open Scope Z_scope.

(** C93: the file is read back, and holds every variable with name, value, bounds, kind and whether it is fixed, every
    constraint with name, relation, right-hand side, coefficients and whether it is enabled, and the coefficients of the
    objective; numbers up to the digits written, the name without its blanks. *)
Theorem C93_file (iter : sens -> sens) (w : written) : (forall s, Permutation (iter s) s) -> writable sound_real w ->
  exists file vs cs ts, write_instance iter w = Ok file /\ Forall2 kept_var (wr_vars w) vs /\
  Forall2 (kept_con w (fun s l => exists s', Permutation s' s /\ Forall2 (kept_term w) s' l)) (wr_cons w) cs /\
  (exists s', Permutation s' (ex_sens (wr_objective w)) /\ Forall2 (kept_term w) s' ts) /\
  exists steps, forall fuel, (steps <= fuel)%nat -> read_json_object fuel file =
    Some (Ok [("name", if (wr_name w =? "")%string then JNull else JStr (squeezed (wr_name w))); ("is_minimization", JBool (wr_minimize w)); ("variables", JArr vs);
              ("objective", JObj [("sensitivities", JArr ts)]); ("constraints", JArr cs)]).
Proof. intros It. exact (instance_file iter w sound_real It (fun q H => H)). Qed.
Print Assumptions C93_file.

(** C93: if all numbers have at most seven digits, the file means the model: an assignment is admitted by the file iff it is admitted by
    the model, and the objective is the same but for the constant.  [named]: x gives the values of the variables by
    position, y by name. *)
Theorem C93_meaning (iter : sens -> sens) (w : written) : (forall s, Permutation (iter s) s) -> writable seven_digits w ->
  exists file doc, write_instance iter w = Ok file /\ (exists steps, forall fuel, (steps <= fuel)%nat -> read_json_object fuel file = Some (Ok doc)) /\
  last_with "is_minimization" doc = Some (JBool (wr_minimize w)) /\
  (forall x y, named w x y -> (file_admits doc y <-> model_admits w x) /\ exists q, file_objective doc y q /\ (value_at (wr_objective w) x == q + ex_const (wr_objective w))%Q) /\
  (forall y, exists x, named w x y) /\ (NoDup (map fst (wr_vars w)) -> forall x, exists y, named w x y).
Proof. exact (instance_meaning iter w). Qed.
Print Assumptions C93_meaning.

(** Maximize 2.5 x - z + 7 with a fixed variable and a disabled constraint. *)
Example C93_example : (forall s : sens, Permutation (rev s) s) /\ writable seven_digits i_model /\ NoDup (map fst (wr_vars i_model)) /\ model_admits i_model (fun i => match i with 1%nat => 0 | _ => 1 end) /\
  i_back i_model = Some (Ok
  [("name", JStr "mymodel"); ("is_minimization", JBool false);
   ("variables", JArr [JObj [("name", JStr "x"); ("value", JInt KInt 0); ("is_fixed", JBool false); ("lower_bound", JInt KInt 0); ("upper_bound", JInt KInt 1); ("sense", JStr "Binary")];
                       JObj [("name", JStr "y"); ("value", JInt KInt 0); ("is_fixed", JBool false); ("lower_bound", JInt KInt (-3)); ("upper_bound", JInt KInt 7); ("sense", JStr "Integer")];
                       JObj [("name", JStr "z"); ("value", JInt KInt 1); ("is_fixed", JBool true); ("lower_bound", JInt KInt 0); ("upper_bound", JInt KInt 9); ("sense", JStr "Integer")]]);
   ("objective", JObj [("sensitivities", JArr [JObj [("variable", JStr "z"); ("coefficient", JReal (-1000000 # 1000000))]; JObj [("variable", JStr "x"); ("coefficient", JReal (2500000 # 1000000))]])]);
   ("constraints", JArr [JObj [("name", JStr "limit 1"); ("is_enabled", JBool true); ("rhs", JReal (4000000 # 1000000)); ("sense", JStr "<=");
                               ("sensitivities", JArr [JObj [("variable", JStr "z"); ("coefficient", JReal (3000000 # 1000000))]; JObj [("variable", JStr "x"); ("coefficient", JReal (1000000 # 1000000))]])];
                         JObj [("name", JStr "eq"); ("is_enabled", JBool false); ("rhs", JReal (1000000 # 1000000)); ("sense", JStr "=");
                               ("sensitivities", JArr [JObj [("variable", JStr "y"); ("coefficient", JReal (1000000 # 1000000))]])]])]).
Proof.
  split; [intros s; apply Permutation_sym, Permutation_rev|]. split; [exact i_writable|]. split; [|split; [exact i_admits|exact i_read]]. repeat constructor; cbn; intros X; repeat destruct X as [X|X]; try discriminate X; exact X.
Qed.

(** Exceptions.  The constant of the objective is not written: models whose objectives differ by 7 have the same file. *)
Theorem C93_constant_refuted : exists w w' x, model_admits w x /\ model_admits w' x /\ ~ (value_at (wr_objective w) x == value_at (wr_objective w') x)%Q /\ forall iter, write_instance iter w = write_instance iter w'.
Proof.
  exists (i_plain "m" [("x", i_var 0 1)] [] (mkExpr [(0%nat, 1)] 0)%Q), (i_plain "m" [("x", i_var 0 1)] [] (mkExpr [(0%nat, 1)] 7)%Q), (fun _ => 1).
  assert (A : forall e, model_admits (i_plain "m" [("x", i_var 0 1)] [] e) (fun _ => 1)).
  { intros e. split; [|intros n c []]. intros [|i] n v E; [injection E as <- <-; vm_compute; split; intros X; discriminate X|destruct i; discriminate E]. }
  split; [apply A|]. split; [apply A|]. split; [vm_compute; intros X; discriminate X|reflexivity].
Qed.
Print Assumptions C93_constant_refuted.
(** A model without a name is written with the name null, not "untitled". *)
Theorem C93_unnamed_refuted : exists w l, wr_name w = "" /\ i_back w = Some (Ok l) /\ last_with "name" l = Some JNull.
Proof. destruct i_unnamed as (l & A & B). eexists _, l. split; [|split; [exact A|exact B]]. reflexivity. Qed.
Print Assumptions C93_unnamed_refuted.
(** With eight digits the file can admit what the model does not. *)
Theorem C93_digits_refuted : exists w doc y, i_back w = Some (Ok doc) /\ file_admits doc y /\ exists x, named w x y /\ ~ model_admits w x.
Proof. destruct i_digits as (doc & A & B & C). exists i_long, doc, (fun _ => 1). split; [exact A|]. split; [exact B|]. exists (fun _ => 1). split; [intros i n v _; reflexivity|exact C]. Qed.
Print Assumptions C93_digits_refuted.
(** The elements of an array have other names in the file. *)
Theorem C93_names_refuted : map fst (wr_vars i_named) = ["x[0]"; "x[1]"] /\
  exists doc m1 m2, i_back i_named = Some (Ok doc) /\ last_with "variables" doc = Some (JArr [JObj m1; JObj m2]) /\ last_with "name" m1 = Some (JStr "x[ 0 ]") /\ last_with "name" m2 = Some (JStr "x[ 1 ]").
Proof. exact i_brackets. Qed.
Print Assumptions C93_names_refuted.
(** The file is written after the run: with default options presolve has fixed a variable, and a solution of the given
    model is not one of the model in the file. *)
Theorem C93_presolved_refuted : (exists r, prepare 100 (switches_of initialize) PrepareProof6.p_around true (i_state i_given) = Some (Ok r) /\ i_after = prepared_instance "given" true ["x"; "y"; "z"] ["c"] (fst r) /\ List.length (ds_cons (fst r)) = 1%nat) /\
  model_admits i_given (fun i => match i with O => 3 | _ => 1 end) /\
  exists doc, i_back i_after = Some (Ok doc) /\ ~ file_admits doc (fun n => if (n =? "x")%string then 3 else 1).
Proof.
  destruct i_presolved as ((r & A & L) & B & C). split; [|split; [exact B|exact C]]. exists r. split; [exact A|]. split; [|exact L]. unfold i_after. now rewrite A.
Qed.
Print Assumptions C93_presolved_refuted.
