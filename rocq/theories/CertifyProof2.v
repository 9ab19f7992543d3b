(** Examples for C85. *)
From Coq Require Import List NArith ZArith QArith Qabs Bool Arith String Lia Lqa.
From Verif Require Import PresolveModel MpsModel MpsSpec CommandModel CommandSpec SolverModel RelaxModel RelaxSpec FileModel FileSpec FileProof3 FileProof4 LpModel LpSpec CertifySpec.
From Verif Require CommandProof2 CommandProof5 LpProof6 WholeProof4 PrepareProof6 InfeasibleProof RelaxProof5.
Import ListNotations.
Local Open Scope string_scope.
Local Open Scope Z_scope.

(** The command line of C83 with a relaxation. *)
Definition k_run (fixed : string) (x : relaxations) := run_command 100 (fun l => l) PrepareProof6.p_around (fun _ => true) 100%Q false false LpProof6.norm1 LpProof6.pow1 LpProof6.pow1 (fun _ => 1%Q)
  WholeProof4.w_lg (fun q => q) x InfeasibleProof.u_inputs (d_files false) (flat_map words (d_items fixed)).
Definition k_relaxed : relaxations := mkRx (RelaxProof5.q_pdlp 1) RelaxProof5.q_lagrange.
Definition k_is (q b : Q) (r : option (PresolveModel.outcome (option (SolverModel.outcome (answer * run))))) : bool :=
  match r with Some (Ok (Some (Done (an, rn)))) => an_feasible an && Qeq_bool (an_objective an) q && Qeq_bool (reported_bound (Done (an, rn))) b | _ => false end.
Lemma k_is_ok q b r : k_is q b r = true -> exists an rn, r = Some (Ok (Some (Done (an, rn)))) /\ an_feasible an = true /\ (an_objective an == q)%Q /\ (reported_bound (Done (an, rn)) == b)%Q.
Proof.
  unfold k_is. destruct r as [[[[[an rn]| |]|]| |]|]; try discriminate. intros E. apply andb_true_iff in E as [E E3]. apply andb_true_iff in E as [E1 E2]. exists an, rn.
  apply Qeq_bool_iff in E2, E3. auto.
Qed.
Lemma k_shows : k_is 3 (-(5)) (k_run "fix.txt" (mkRx None None)) = true /\ k_is 3 (-17 # 5) (k_run "fix.txt" k_relaxed) = true.
Proof. split; vm_compute; reflexivity. Qed.
Lemma k_relaxable po envs late : rx_pdlp k_relaxed = Some (po, envs, late) -> file_relaxable LpProof6.norm1 LpProof6.pow1 LpProof6.pow1 (fun _ => 1%Q) (d_content false) envs.
Proof.
  intros E. injection E as <- <- <-. split; [exact LpProof6.pow1_powers|]. split; [exact LpProof6.norm1_like|]. split; [intros q _; reflexivity|].
  split; [intros e I; apply (repeat_spec 8 (LpModel.mkPe false 20 None 1)) in I; subst e; reflexivity|].
  intros n I. change (columns (d_content false)) with ["x"; "y"; "z"] in I. destruct I as [<-|[<-|[<-|[]]]]; vm_compute; split; discriminate.
Qed.

(** ** A column without upper bound: minimize -x + 1000000 y with x <= 1000, x + y <= 2000, x >= 0, y binary *)
Definition v_lines : list string :=
  ["NAME  free"; "ROWS"; " N  cost"; " L  cap"; " L  both"; "COLUMNS"; " MARKER  'MARKER'  'INTORG'"; " x  cost  -1  cap  1"; " x  both  1"; " y  cost  1000000  both  1"; " MARKER  'MARKER'  'INTEND'";
   "RHS"; " rhs  cap  1000  both  2000"; "BOUNDS"; " PL  bnd  x"; "ENDATA"].
Definition v_content : content :=
  mkContent [(KN, "cost"); (KL, "cap"); (KL, "both")] [Marker true; Column "x" [("cost", (-1)); ("cap", 1)]; Column "x" [("both", 1)]; Column "y" [("cost", 1000000); ("both", 1)]; Marker false]%Q
    [("cap", 1000); ("both", 2000)]%Q [(BPl, "x")].
Definition v_files : files := fun n =>
  if (n =? "free.mps")%string then Some (text v_lines)
  else if (n =? "off.json")%string then Some "{""preprocess"": {""is_enabled_presolve"": false}}"
  else None.
Definition v_items : list item := [IMps "free.mps"; IFile FOption "off.json"].
Definition v_settings : settings := mkSettings "free.mps" "off.json" "" "" "" "" "" 5 false false false false.
(** The tolerance is the default, 1e-5; the solver of the relaxation is stopped at its first test. *)
Definition v_relaxed : relaxations := mkRx (Some (mkPo 0 (1 # 100000) 10 1 1 1 true, repeat (mkPe false 20 None 1) 8, false)) None.
Definition v_run := run_command 100 (fun l => l) PrepareProof6.p_around (fun _ => true) 100%Q false false LpProof6.norm1 LpProof6.pow1 LpProof6.pow1 (fun _ => 1%Q)
  WholeProof4.w_lg (fun q => q) v_relaxed InfeasibleProof.u_inputs v_files (flat_map words v_items).
Lemma v_shows : k_is 0 0 v_run = true.
Proof. vm_compute. reflexivity. Qed.
Lemma v_named : Forall well_named v_items /\ Forall well_numbered v_items.
Proof. split; repeat (apply Forall_cons; [first [exact Logic.I|cbn; intuition discriminate]|]); apply Forall_nil. Qed.
Lemma v_describes : describes v_items v_settings.
Proof.
  destruct v_named as [A B]. destruct (CommandProof2.arguments v_items A B) as (s & P & D & _).
  assert (E : Ok s = Ok v_settings) by (rewrite <- P; reflexivity). injection E as ->. exact D.
Qed.
Lemma v_opens : opens v_files (st_mps v_settings) v_lines.
Proof.
  exists (text v_lines). split; [reflexivity|]. symmetry. apply CommandProof5.file_lines. intros l I. cbn in I. repeat (destruct I as [<-|I]; [cbn; intuition discriminate|]). destruct I.
Qed.
Lemma v_contains : contains v_lines v_content.
Proof.
  exists "free", [["N"; "cost"]; ["L"; "cap"]; ["L"; "both"]],
    [["MARKER"; "'MARKER'"; "'INTORG'"]; ["x"; "cost"; "-1"; "cap"; "1"]; ["x"; "both"; "1"]; ["y"; "cost"; "1000000"; "both"; "1"]; ["MARKER"; "'MARKER'"; "'INTEND'"]],
    [["rhs"; "cap"; "1000"; "both"; "2000"]], [["PL"; "bnd"; "x"]], [["RHS"]; ["rhs"; "cap"; "1000"; "both"; "2000"]], [["BOUNDS"]; ["PL"; "bnd"; "x"]], [], [[("cap", 1000); ("both", 2000)]]%Q.
  split; [vm_compute; reflexivity|]. split; [lines; reflexivity|].
  assert (Nm : forall s q, TextModel.atof s = Some q -> s <> "'INTORG'" -> s <> "'INTEND'" -> numeral s q) by (intros; repeat split; assumption).
  split; [lines; cbn [column_items]; try (do 2 eexists; split; [reflexivity|discriminate]); eexists; (split; [reflexivity|]); (split; [discriminate|]); cbn [entry_items]; repeat (split; [reflexivity|split; [apply Nm; [reflexivity|discriminate|discriminate]|]]); exact Logic.I|].
  split; [reflexivity|]. split; [lines; (split; [discriminate|]); do 2 eexists; (split; [reflexivity|]); (split; [discriminate|]); cbn [entry_items]; repeat (split; [reflexivity|split; [apply Nm; [reflexivity|discriminate|discriminate]|]]); exact Logic.I|].
  split; [left; reflexivity|]. split; [|left; reflexivity]. lines; eexists; cbn [fst snd]; reflexivity.
Qed.
Lemma v_well_formed : well_formed v_content "cost".
Proof.
  split; [reflexivity|]. split; [repeat (apply NoDup_cons; [cbn; intuition discriminate|]); apply NoDup_nil|].
  split; [repeat (apply NoDup_cons; [cbn; intuition discriminate|]); apply NoDup_nil|]. split.
  { intros v r a H. cbn in H. repeat (destruct H as [H|H]; [injection H as <- <- <-; split; [cbn; tauto|right; reflexivity]|]). destruct H. }
  split; [intros v es H; cbn in H; repeat (destruct H as [H|H]; [(discriminate H || (injection H as <- <-; discriminate))|]); destruct H|].
  split; [repeat (apply NoDup_cons; [cbn; intuition discriminate|]); apply NoDup_nil|].
  split; [intros r q H; cbn in H; repeat (destruct H as [H|H]; [injection H as <- <-; cbn; tauto|]); destruct H|].
  split; [intros b v H; cbn in H; repeat (destruct H as [H|H]; [injection H as <- <-; cbn; tauto|]); destruct H|].
  intros v l z l' H. unfold bounds_of in H. cbn [v_content f_bounds filter snd fst] in H. destruct ("x" =? v)%string; cbn [map fst] in H; [|destruct l; discriminate].
  destruct l as [|b l]; [discriminate|]; exfalso; destruct l; discriminate.
Qed.
Lemma v_integer : integer_rows v_content "cost".
Proof.
  split.
  - intros v r a H _. exists (Qnum a). cbn in H. repeat (destruct H as [H|H]; [injection H as <- <- <-; reflexivity|]). destruct H.
  - intros r q H. exists (Qnum q). cbn in H. repeat (destruct H as [H|H]; [injection H as <- <-; reflexivity|]). destruct H.
Qed.
Lemma v_off : FileSpec.presolve_off 100 v_files v_settings.
Proof. split; [discriminate|]. eexists. eexists. split; [reflexivity|]. split; [vm_compute; reflexivity|]. vm_compute. reflexivity. Qed.
Lemma v_thin : thin_binaries v_files v_settings v_content.
Proof. intros n I H. exfalso. change (columns v_content) with ["x"; "y"] in I. repeat (destruct I as [<-|I]; [destruct H as [H|H]; vm_compute in H; discriminate H|]). destruct I. Qed.
Definition v_point (n : string) : Z := if (n =? "x")%string then 1000 else 0.
Lemma v_solution : file_solution v_files v_settings v_content v_point /\ (row_value v_content v_point "cost" == -(1000))%Q.
Proof.
  split; [|vm_compute; reflexivity]. assert (B : forall v, In v (columns v_content) -> fst (interval v_content v) <= v_point v <= snd (interval v_content v)).
  { intros v I. change (columns v_content) with ["x"; "y"] in I. destruct I as [<-|[<-|[]]]; vm_compute; split; discriminate. }
  split; [split; [|exact B]|].
  - intros k r I N. cbn in I. destruct I as [I|[I|[I|[]]]]; injection I as <- <-; [destruct N; reflexivity| |]; vm_compute; discriminate.
  - intros n I. split; [exact (B n I)|]. split; intros X; destruct X; reflexivity.
Qed.
Lemma v_gates po envs late : rx_pdlp v_relaxed = Some (po, envs, late) -> powers LpProof6.pow1 LpProof6.pow1 /\ norm_like LpProof6.norm1 /\ (forall e, In e envs -> (0 < pe_weight e)%Q).
Proof.
  intros E. injection E as <- <- <-. split; [exact LpProof6.pow1_powers|]. split; [exact LpProof6.norm1_like|].
  intros e I; apply (repeat_spec 8 (LpModel.mkPe false 20 None 1)) in I; subst e; reflexivity.
Qed.
