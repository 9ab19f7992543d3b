(** Proofs for C92: the whole run; example. *)
From Coq Require Import List NArith ZArith QArith Qabs Bool Arith String Ascii Lia Permutation.
From Verif Require Import ExprModel ConstraintModel VariableModel TypeModel PresolveModel SelectionModel PrepareModel DependentModel TextModel MpsModel MpsSpec NamesModel NamesSpec JsonModel JsonSpec OptionModel
  CommandModel CommandSpec SolutionModel LagrangeModel SolverModel WholeModel RelaxModel OfferModel OfferSpec ParityModel FileModel FileSpec FileProof3 FileProof4 ReportModel ReportSpec
  WrittenProof2 ArchiveModel ArchiveSpec ArchiveProof3 FeasibleModel FeasibleSpec FeasibleProof FeasibleProof2.
From Verif Require PrepareProof6 WholeProof4 InfeasibleProof.
Import ListNotations.
Local Open Scope Z_scope.

Lemma archive_parts fuel order su on penalty shrink user nrm red ext sq lg root x a fs args i l :
  archive_of fuel order su on penalty shrink user nrm red ext sq lg root x a fs args = Some (i, l) ->
  CommandModel.setup fuel fs args = Some (Ok (Ready i)) /\
  solve_archive fuel order (switches_of (in_options i)) (with_user su (in_selections i)) on (in_pairs i) (mkWo penalty shrink true user) nrm red ext sq lg root true x a (capacity_of (in_options i)) (enter i) = Some (Ok l).
Proof.
  unfold archive_of. destruct (CommandModel.setup fuel fs args) as [[[|i']| |]|]; try discriminate.
  destruct (run_command fuel order su on penalty shrink user nrm red ext sq lg root x a fs args) as [[[[an| |]|]| |]|]; try discriminate.
  destruct (solve_archive _ _ _ _ _ _ _ _ _ _ _ _ _ _ _ _ _ _) as [[l'| |]|] eqn:So; try discriminate. intros [= -> ->]. split; [reflexivity|exact So].
Qed.
Lemma archive_written nc vio iter fuel order su on penalty shrink user nrm red ext sq lg root x a fs args i l text :
  archive_of fuel order su on penalty shrink user nrm red ext sq lg root x a fs args = Some (i, l) -> param (in_options i) "output" "is_enabled_store_feasible_solutions" = Some (VBool true) ->
  write_solutions (in_name i) (Z.of_nat (List.length (elements (in_vars i)))) nc (map (record_of (instance_names i) vio iter) l) = Ok text ->
  feasible_json nc vio iter fuel order su on penalty shrink user nrm red ext sq lg root x a fs args = Some (Ok text).
Proof. intros A F W. unfold feasible_json. rewrite A. unfold flag. rewrite F, W. reflexivity. Qed.
Lemma forall2_some {A B} (R : B -> Prop) (l : list A) ws : Forall2 (fun _ w => R w) l ws -> Forall R ws /\ List.length ws = List.length l.
Proof. intros F. induction F as [|q w l ws H F [I1 I2]]; [split; [constructor|reflexivity]|]. split; [now constructor|cbn; now rewrite I2]. Qed.
Lemma run_told nc vio iter fuel order su on penalty shrink user nrm red ext sq lg root x a fs items s lines f obj i l :
  (forall l, Permutation (iter l) l) ->
  Forall well_named items -> Forall well_numbered items -> describes items s ->
  opens fs (st_mps s) lines -> contains lines f -> well_formed f obj -> integer_rows f obj -> thin_binaries fs s f -> presolve_off fuel fs s ->
  archive_of fuel order su on penalty shrink user nrm red ext sq lg root x a fs (flat_map words items) = Some (i, l) ->
  (forall j k, su_cname su j = su_cname su k -> j = k) ->
  mode_of (in_options i) = Off \/ (forall n w, In (n, w) (elements (in_vars i)) -> va_fixed w = true -> va_value w <> 1) ->
  flippable_pairs (enter i, []) (in_pairs i) ->
  (forall r, prepare fuel (switches_of (in_options i)) (with_user su (in_selections i)) true (enter i) = Some (Ok r) -> driven r a) ->
  (forall go late clock, rx_lagrange x = Some (go, late, clock) -> 1 <= go_queue go) ->
  param (in_options i) "output" "is_enabled_store_feasible_solutions" = Some (VBool true) ->
  plain (in_name i) -> Forall plain (columns f) -> Z.of_nat (List.length (columns f)) <= 2147483647 -> -2147483648 <= nc <= 2147483647 ->
  Forall (fun q => sound_real (so_obj q) /\ sound_real (vio q)) l ->
  exists text ws, feasible_json nc vio iter fuel order su on penalty shrink user nrm red ext sq lg root x a fs (flat_map words items) = Some (Ok text) /\
    (exists steps, forall fuel, (steps <= fuel)%nat -> read_json_object fuel text =
      Some (Ok [("version", JStr "v2.5.0"); ("name", JStr (in_name i)); ("number_of_variables", JInt KInt (Z.of_nat (List.length (columns f)))); ("number_of_constraints", JInt KInt nc); ("solutions", JArr ws)]%string)) /\
    Forall (fun w => exists y, file_solution fs s f y /\ tells f y (row_value f y obj) w) ws /\
    forall c, param (in_options i) "output" "feasible_solutions_capacity" = Some (OptionModel.VInt c) -> 0 < c -> Z.of_nat (List.length ws) <= c.
Proof.
  intros Pe N1 N2 De Op Co Wf Ir Th Of Ar H1 H2 H3 H4 H5 St Pn Pc Rv Rc Sn.
  destruct (run_true fuel order su on penalty shrink user nrm red ext sq lg root x a fs items s lines f obj i l N1 N2 De Op Co Wf Ir Th Of Ar H1 H2 H3 H4 H5) as (Se & Fi & Tr).
  destruct (file_told nc vio iter fuel fs items s lines f obj i l Pe N1 N2 De Op Co Wf Ir Th Se Fi Tr Pn Pc Rv Rc Sn) as (text & ws & W & R & F).
  destruct (forall2_some _ _ _ F) as [F1 F2]. exists text, ws. split; [exact (archive_written nc vio iter _ _ _ _ _ _ _ _ _ _ _ _ _ _ _ _ _ _ _ _ Ar St W)|]. split; [exact R|]. split; [exact F1|].
  intros c E Lc. destruct (archive_parts _ _ _ _ _ _ _ _ _ _ _ _ _ _ _ _ _ _ _ Ar) as [_ So]. rewrite F2.
  assert (Ec : capacity_of (in_options i) = c) by (unfold capacity_of; now rewrite E). rewrite Ec in So. apply archive_order in So. exact (proj1 So Lc).
Qed.

(** The command line of C83 with an option file that also asks for the solutions; the tries set z to 2, 3 and 1. *)
Local Open Scope string_scope.
Definition g_files : files := fun n =>
  if (n =? "off.json")%string then Some "{""preprocess"": {""is_enabled_presolve"": false}, ""output"": {""is_enabled_store_feasible_solutions"": true}}" else d_files false n.
Definition g_round (z : Z) : ground := mkGd false WholeProof4.w_loptions [] (repeat (mkDr false InfeasibleProof.u_choice true (fun _ => z) (fun _ => 1)) 3) 1 1 1 0.
Definition g_inputs : ninputs := mkNi None (ni_control InfeasibleProof.u_inputs) 3 (-(100))%Q [g_round 2; g_round 3; g_round 1].
Definition g_archive := archive_of 100 (fun l => l) PrepareProof6.p_around (fun _ => true) 100%Q false false (fun _ => 1%Q) (fun _ => 1%Q) (fun _ => 1%Q) (fun q => q)
  WholeProof4.w_lg (fun q => q) (mkRx None None) g_inputs g_files (flat_map words (d_items "fix.txt")).
Definition g_json := feasible_json 2 (fun _ => 0%Q) (@rev _) 100 (fun l => l) PrepareProof6.p_around (fun _ => true) 100%Q false false (fun _ => 1%Q) (fun _ => 1%Q) (fun _ => 1%Q) (fun q => q)
  WholeProof4.w_lg (fun q => q) (mkRx None None) g_inputs g_files (flat_map words (d_items "fix.txt")).
Definition g_entry (objective : Q) (z : Z) : json :=
  JObj [("is_feasible", JBool true); ("objective", JReal objective); ("total_violation", JReal (0 # 1000000)); ("variables", JObj [("z", JInt KInt z); ("y", JInt KInt 1)])].
Lemma g_read : exists text, g_json = Some (Ok text) /\ read_json_object 500 text =
  Some (Ok [("version", JStr "v2.5.0"); ("name", JStr "demo"); ("number_of_variables", JInt KInt 3); ("number_of_constraints", JInt KInt 2); ("solutions", JArr [g_entry (0 # 1000000) 3; g_entry (1000000 # 1000000) 2])]).
Proof. eexists. split; [vm_compute; reflexivity|]. vm_compute. reflexivity. Qed.

(** The hypotheses. *)
Lemma g_stored : exists i l, g_archive = Some (i, l) /\ map so_vars l = [[(1%nat, 1); (2%nat, 3)]; [(1%nat, 1); (2%nat, 2)]] /\
  (forall n w, In (n, w) (elements (in_vars i)) -> va_fixed w = true -> va_value w <> 1) /\ flippable_pairs (enter i, []) (in_pairs i) /\
  (forall r, prepare 100 (switches_of (in_options i)) (with_user PrepareProof6.p_around (in_selections i)) true (enter i) = Some (Ok r) -> driven r g_inputs) /\
  param (in_options i) "output" "is_enabled_store_feasible_solutions" = Some (VBool true) /\ param (in_options i) "output" "feasible_solutions_capacity" = Some (OptionModel.VInt 1000) /\
  plain (in_name i) /\ Forall (fun q => sound_real (so_obj q) /\ sound_real 0) l.
Proof.
  destruct g_archive as [[i l]|] eqn:E; [|vm_compute in E; discriminate E]. exists i, l. split; [reflexivity|].
  assert (Ei : Some i = option_map fst g_archive) by (rewrite E; reflexivity). assert (El : Some l = option_map snd g_archive) by (rewrite E; reflexivity). clear E.
  split; [vm_compute in El; injection El as ->; reflexivity|].
  split; [vm_compute in Ei; injection Ei as ->; intros n w J; cbn in J; repeat (destruct J as [J|J]; [injection J as <- <-; first [discriminate|intros _; discriminate]|]); destruct J|].
  split; [vm_compute in Ei; injection Ei as ->; intros u v []|].
  split.
  { intros r Pr. assert (Er : Some (Some (Ok r)) = option_map (fun i => prepare 100 (switches_of (in_options i)) (with_user PrepareProof6.p_around (in_selections i)) true (enter i)) (option_map fst g_archive)) by (rewrite <- Ei; cbn [option_map]; now rewrite Pr).
    assert (T : forall z, 1 <= z <= 3 -> targets_ok r (fun _ => z)).
    { vm_compute in Er. injection Er as ->. intros z Hz v L S. cbn in L. do 3 (destruct v as [|v]; [vm_compute in S; first [discriminate S|cbn; lia]|]). lia. }
    assert (C : choice_ok r InfeasibleProof.u_choice) by (intros k m []). clear - T C. constructor; [discriminate| |discriminate]. intros g Hg.
    assert (X : exists z, 1 <= z <= 3 /\ g = g_round z) by (cbn [g_inputs ni_rounds In] in Hg; destruct Hg as [<-|[<-|[<-|[]]]]; eexists; (split; [|reflexivity]); lia).
    destruct X as (z & Hz & ->). split; [discriminate|]. split; [intros c d []|]. intros d Hd. apply repeat_spec in Hd. subst d. split; [exact C|exact (T z Hz)]. }
  split; [vm_compute in Ei; injection Ei as ->; vm_compute; reflexivity|]. split; [vm_compute in Ei; injection Ei as ->; vm_compute; reflexivity|].
  split; [vm_compute in Ei; injection Ei as ->; apply plain_check; vm_compute; reflexivity|].
  vm_compute in El; injection El as ->. repeat (apply Forall_cons; [split; apply real_check; cbn [so_obj]; first [left; reflexivity|right; split; vm_compute; reflexivity]|]). apply Forall_nil.
Qed.
Lemma g_off : presolve_off 100 g_files (d_settings "fix.txt").
Proof. split; [discriminate|]. eexists. eexists. split; [reflexivity|]. split; [vm_compute; reflexivity|]. vm_compute. reflexivity. Qed.
Lemma g_opens : opens g_files (st_mps (d_settings "fix.txt")) (d_lines false).
Proof. exact (d_opens false "fix.txt"). Qed.
Lemma g_thin : thin_binaries g_files (d_settings "fix.txt") (d_content false).
Proof. intros n I H. exfalso. cbn in I. repeat (destruct I as [<-|I]; [destruct H as [H|H]; vm_compute in H; discriminate H|]). destruct I. Qed.
Lemma g_plain : Forall plain (columns (d_content false)).
Proof. repeat (apply Forall_cons; [apply plain_check; vm_compute; reflexivity|]); apply Forall_nil. Qed.
