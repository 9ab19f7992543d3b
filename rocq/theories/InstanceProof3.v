(** Proofs for C93, continued: examples and exceptions. *)
From Coq Require Import List ZArith NArith QArith Qabs Bool String Ascii Lia Lqa Permutation.
From Verif Require Import ExprModel ConstraintModel ConstraintSpec VariableModel TypeModel PresolveModel DependentModel SelectionModel PrepareModel TextModel MpsModel NamesModel JsonModel JsonSpec JsonProof JsonProof2 TextProof OptionModel FileModel ReportSpec InstanceModel InstanceSpec InstanceProof InstanceProof2.
From Verif Require PrepareProof6.
Import ListNotations.
Local Open Scope Z_scope.
Local Open Scope string_scope.

Definition i_var (lo hi : Z) : var := match v_step v_init (VSetBound lo hi) with Some v => v | None => v_init end.
Definition i_fixed (lo hi z : Z) : var := match v_step (i_var lo hi) (VFixBy z) with Some v => v | None => v_init end.
Definition i_row (s : sens) (k : csense) (q : Q) : constr := c_setup (mkExpr s q) k (fun _ => false).
Definition i_off (c : constr) : constr := disable c.
(** Maximize 2.5 x - z + 7 under x + 3 z <= 4 and, disabled, y = 1; z is fixed at 1. *)
Definition i_model : written :=
  mkWr "my model" false [("x", i_var 0 1); ("y", i_var (-3) 7); ("z", i_fixed 0 9 1)]
    [("limit 1", i_row [(0%nat, 1); (2%nat, 3)] Less (-4)); ("eq", i_off (i_row [(1%nat, 1)] Equal (-1)))]%Q (mkExpr [(0%nat, 5 # 2); (2%nat, -1)] 7)%Q.
Lemma seven_int z : 0 < Z.abs z < 10000000 -> seven_digits (inject_Z z).
Proof.
  intros L. split.
  - right. assert (A : (Qabs (inject_Z z) == inject_Z (Z.abs z))%Q) by reflexivity. rewrite A. split.
    + apply Qle_trans with (y := inject_Z 1); [vm_compute; intros X; discriminate X|rewrite <- Zle_Qle; lia].
    + apply Qle_trans with (y := inject_Z 10000000); [rewrite <- Zle_Qle; lia|vm_compute; intros X; discriminate X].
  - exists z, 0. split; [|lia]. change (decimal 0) with 1%Q. ring.
Qed.
Lemma seven_half : seven_digits (5 # 2).
Proof. split; [right; split; vm_compute; intros X; discriminate X|]. exists 25, (-1). split; [vm_compute; reflexivity|lia]. Qed.
Lemma i_writable : writable seven_digits i_model.
Proof.
  assert (P : forall s, all_chars (fun c => negb (bad_char c)) s = true -> plain s) by (intros s; apply plain_chars).
  split; [apply P; reflexivity|]. split; [|split].
  - repeat constructor; try (apply P; reflexivity); vm_compute; intros X; discriminate X.
  - constructor; [|constructor; [|constructor]]; (split; [apply P; reflexivity|]); (split; [|intros i a J]).
    + apply (seven_int (-4)); lia.
    + cbn in J. destruct J as [E|[E|[]]]; injection E as <- <-; (split; [cbn; lia|]); [apply (seven_int 1); lia|apply (seven_int 3); lia].
    + apply (seven_int (-1)); lia.
    + cbn in J. destruct J as [E|[]]; injection E as <- <-; (split; [cbn; lia|]). apply (seven_int 1); lia.
  - intros i a J. cbn in J. destruct J as [E|[E|[]]]; injection E as <- <-; (split; [cbn; lia|]); [exact seven_half|apply (seven_int (-1)); lia].
Qed.
Definition i_text (w : written) : string := match write_instance (@rev _) w with Ok t => t | _ => "" end.
Definition i_back (w : written) : option (outcome (list (string * json))) := read_json_object 500 (i_text w).
Lemma i_read : i_back i_model = Some (Ok
  [("name", JStr "mymodel"); ("is_minimization", JBool false);
   ("variables", JArr [JObj [("name", JStr "x"); ("value", JInt KInt 0); ("is_fixed", JBool false); ("lower_bound", JInt KInt 0); ("upper_bound", JInt KInt 1); ("sense", JStr "Binary")];
                       JObj [("name", JStr "y"); ("value", JInt KInt 0); ("is_fixed", JBool false); ("lower_bound", JInt KInt (-3)); ("upper_bound", JInt KInt 7); ("sense", JStr "Integer")];
                       JObj [("name", JStr "z"); ("value", JInt KInt 1); ("is_fixed", JBool true); ("lower_bound", JInt KInt 0); ("upper_bound", JInt KInt 9); ("sense", JStr "Integer")]]);
   ("objective", JObj [("sensitivities", JArr [JObj [("variable", JStr "z"); ("coefficient", JReal (-1000000 # 1000000))]; JObj [("variable", JStr "x"); ("coefficient", JReal (2500000 # 1000000))]])]);
   ("constraints", JArr [JObj [("name", JStr "limit 1"); ("is_enabled", JBool true); ("rhs", JReal (4000000 # 1000000)); ("sense", JStr "<=");
                               ("sensitivities", JArr [JObj [("variable", JStr "z"); ("coefficient", JReal (3000000 # 1000000))]; JObj [("variable", JStr "x"); ("coefficient", JReal (1000000 # 1000000))]])];
                         JObj [("name", JStr "eq"); ("is_enabled", JBool false); ("rhs", JReal (1000000 # 1000000)); ("sense", JStr "=");
                               ("sensitivities", JArr [JObj [("variable", JStr "y"); ("coefficient", JReal (1000000 # 1000000))]])]])]).
Proof. vm_compute. reflexivity. Qed.
(** x = 1, y = 0, z = 1 is a solution although y = 1 does not hold: it is disabled. *)
Lemma i_admits : model_admits i_model (fun i => match i with 1%nat => 0 | _ => 1 end).
Proof.
  split.
  - intros [|[|[|i]]] n v E; cbn in E; try (injection E as <- <-; vm_compute; try (split; intros X; discriminate X); reflexivity). destruct i; discriminate.
  - intros n c [E|[E|[]]] En; injection E as <- <-; [vm_compute; intros X; discriminate X|discriminate En].
Qed.

(** Models whose file says something else. *)
Definition i_plain (name : string) (vs : list (string * var)) (cs : list (string * constr)) (o : expr) : written := mkWr name true vs cs o.
Lemma i_unnamed : exists l, i_back (i_plain "" [("x", i_var 0 1)] [] (mkExpr [(0%nat, 1)] 0)%Q) = Some (Ok l) /\ last_with "name" l = Some JNull.
Proof. eexists. split; [vm_compute; reflexivity|reflexivity]. Qed.
Lemma i_constant vs cs s q q' name iter : write_instance iter (i_plain name vs cs (mkExpr s q)) = write_instance iter (i_plain name vs cs (mkExpr s q')).
Proof. reflexivity. Qed.
(** 10000001 x <= 10000000 y: in the file x = y = 1 is allowed. *)
Definition i_long : written := i_plain "long" [("x", i_var 0 1); ("y", i_var 0 1)] [("c", i_row [(0%nat, 10000001); (1%nat, -10000000)] Less 0)]%Q (mkExpr [(0%nat, 1)] 0)%Q.
Lemma i_digits : exists doc, i_back i_long = Some (Ok doc) /\ file_admits doc (fun _ => 1) /\ ~ model_admits i_long (fun _ => 1).
Proof.
  eexists. split; [vm_compute; reflexivity|]. split.
  - do 2 eexists. split; [reflexivity|]. split; [|split; [reflexivity|]].
    + repeat constructor; do 6 eexists; repeat (split; [reflexivity|]); vm_compute; split; intros X; discriminate X.
    + constructor; [|constructor]. do 7 eexists. split; [reflexivity|]. split; [reflexivity|]. split; [reflexivity|]. split; [reflexivity|]. split; [constructor|]. split; [reflexivity|]. split.
      * eapply total_term; [reflexivity|reflexivity|]. eapply total_term; [reflexivity|reflexivity|constructor].
      * intros _. vm_compute. intros X. discriminate X.
  - intros [_ H]. specialize (H "c" _ (or_introl eq_refl) eq_refl). vm_compute in H. now apply H.
Qed.
(** The names of the elements of an array. *)
Definition i_array : list proxy := [mkProxy "x" [2] [("", i_var 0 1); ("", i_var 0 1)]].
Definition i_named : written := i_plain "array" (elements (setup_unique_names i_array)) [] (mkExpr [(0%nat, 1)] 0)%Q.
Lemma i_brackets : map fst (wr_vars i_named) = ["x[0]"; "x[1]"] /\
  exists doc m1 m2, i_back i_named = Some (Ok doc) /\ last_with "variables" doc = Some (JArr [JObj m1; JObj m2]) /\ last_with "name" m1 = Some (JStr "x[ 0 ]") /\ last_with "name" m2 = Some (JStr "x[ 1 ]").
Proof. split; [vm_compute; reflexivity|]. do 3 eexists. split; [vm_compute; reflexivity|]. repeat split. Qed.
(** Minimize x under y + z <= 3: presolve with default options fixes x at 0. *)
Definition i_given : written := i_plain "given" [("x", i_var 0 5); ("y", i_var 0 3); ("z", i_var 0 3)] [("c", i_row [(1%nat, 1); (2%nat, 1)] Less (-3))]%Q (mkExpr [(0%nat, 1)] 0)%Q.
Definition i_state (w : written) : dstate := mkD (List.length (wr_vars w)) (entered_vars (wr_vars w)) (map snd (wr_cons w)) (wr_objective w) [] (fun _ => None).
Definition i_prepared : option (outcome (dstate * list sel)) := prepare 100 (switches_of initialize) PrepareProof6.p_around true (i_state i_given).
Definition i_after : written := match i_prepared with Some (Ok r) => prepared_instance "given" true ["x"; "y"; "z"] ["c"] (fst r) | _ => i_given end.
Lemma i_presolved : (exists r, i_prepared = Some (Ok r) /\ List.length (ds_cons (fst r)) = 1%nat) /\
  model_admits i_given (fun i => match i with O => 3 | _ => 1 end) /\
  exists doc, i_back i_after = Some (Ok doc) /\ ~ file_admits doc (fun n => if (n =? "x")%string then 3 else 1).
Proof.
  split; [eexists; split; [vm_compute; reflexivity|reflexivity]|]. split.
  - split.
    + intros [|[|[|i]]] n v E; cbn in E; try (injection E as <- <-; vm_compute; split; intros X; discriminate X). destruct i; discriminate.
    + intros n c [E|[]] _; injection E as <- <-. vm_compute. intros X. discriminate X.
  - eexists. split; [vm_compute; reflexivity|]. intros (vs & cs & A & B & _). cbn in A. injection A as <-. inversion B as [|? ? H _]; subst. destruct H as (m & n & f & v & lo & hi & E & N & F & V & L & U & H). injection E as <-. cbn in N, F, V, L, U.
    injection N as <-. injection F as <-. injection V as <-. vm_compute in H. discriminate H.
Qed.
