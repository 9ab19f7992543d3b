(** Examples for C88. *)
From Coq Require Import List NArith ZArith QArith Qabs Bool Arith String Lia Lqa.
From Verif Require Import PresolveModel MpsModel MpsSpec JsonModel OptionModel CommandModel CommandSpec SolverModel RelaxModel RelaxSpec FileModel FileSpec FileProof3 FileProof4 LpModel LpSpec CertifyProof2
  DefaultSpec DefaultProof3 EncloseSpec.
From Verif Require CommandProof2 CommandProof5 LpProof6 WholeProof4 PrepareProof6 InfeasibleProof RelaxProof5.
Import ListNotations.
Local Open Scope string_scope.
Local Open Scope Z_scope.

Definition h_run (fs : files) (x : relaxations) := run_command 100 (fun l => l) PrepareProof6.p_around (fun _ => true) 100%Q false false LpProof6.norm1 LpProof6.pow1 LpProof6.pow1 (fun _ => 1%Q)
  WholeProof4.w_lg (fun q => q) x InfeasibleProof.u_inputs fs (flat_map words e_items).
Lemma h_solvable po envs late : rx_pdlp k_relaxed = Some (po, envs, late) -> solvable LpProof6.norm1 LpProof6.pow1 LpProof6.pow1 (fun _ => 1%Q) envs.
Proof. intros E. destruct (k_relaxable po envs late E) as (A & B & C & D & _). exact (conj A (conj B (conj C D))). Qed.
Lemma h_shows : k_is (-(1)) (-(3)) (h_run (e_files Fine) (mkRx None None)) = true /\ k_is (-(1)) (-19 # 8) (h_run (e_files Fine) k_relaxed) = true.
Proof. split; vm_compute; reflexivity. Qed.

(** ** minimize -x - y with x + y + z >= 1, all binary *)
Definition g_lines : list string :=
  ["NAME  cover"; "ROWS"; " N  cost"; " G  any"; "COLUMNS"; " MARKER  'MARKER'  'INTORG'"; " x  cost  -1  any  1"; " y  cost  -1  any  1"; " z  any  1"; " MARKER  'MARKER'  'INTEND'";
   "RHS"; " rhs  any  1"; "ENDATA"].
Definition g_content : content :=
  mkContent [(KN, "cost"); (KG, "any")] [Marker true; Column "x" [("cost", (-1)); ("any", 1)]; Column "y" [("cost", (-1)); ("any", 1)]; Column "z" [("any", 1)]; Marker false]%Q [("any", 1)]%Q [].
Definition g_files : files := fun n => if (n =? "demo.mps")%string then Some (text g_lines) else None.
Lemma g_shows : k_is (-(1)) (-(1)) (h_run g_files (mkRx None None)) = true.
Proof. vm_compute. reflexivity. Qed.
Lemma g_opens : opens g_files (st_mps e_settings) g_lines.
Proof.
  exists (text g_lines). split; [reflexivity|]. symmetry. apply CommandProof5.file_lines. intros l I. cbn in I. repeat (destruct I as [<-|I]; [cbn; intuition discriminate|]). destruct I.
Qed.
Lemma g_contains : contains g_lines g_content.
Proof.
  exists "cover", [["N"; "cost"]; ["G"; "any"]],
    [["MARKER"; "'MARKER'"; "'INTORG'"]; ["x"; "cost"; "-1"; "any"; "1"]; ["y"; "cost"; "-1"; "any"; "1"]; ["z"; "any"; "1"]; ["MARKER"; "'MARKER'"; "'INTEND'"]],
    [["rhs"; "any"; "1"]], [], [["RHS"]; ["rhs"; "any"; "1"]], [], [], [[("any", 1)]]%Q.
  split; [vm_compute; reflexivity|]. split; [lines; reflexivity|].
  assert (Nm : forall s q, TextModel.atof s = Some q -> s <> "'INTORG'" -> s <> "'INTEND'" -> numeral s q) by (intros; repeat split; assumption).
  split; [lines; cbn [column_items]; try (do 2 eexists; split; [reflexivity|discriminate]); eexists; (split; [reflexivity|]); (split; [discriminate|]); cbn [entry_items]; repeat (split; [reflexivity|split; [apply Nm; [reflexivity|discriminate|discriminate]|]]); exact Logic.I|].
  split; [reflexivity|]. split; [lines; (split; [discriminate|]); do 2 eexists; (split; [reflexivity|]); (split; [discriminate|]); cbn [entry_items]; repeat (split; [reflexivity|split; [apply Nm; [reflexivity|discriminate|discriminate]|]]); exact Logic.I|].
  split; [left; reflexivity|]. split; [apply Forall2_nil|]. right. split; reflexivity.
Qed.
Lemma g_well_formed : well_formed g_content "cost".
Proof.
  split; [reflexivity|]. split; [repeat (apply NoDup_cons; [cbn; intuition discriminate|]); apply NoDup_nil|].
  split; [repeat (apply NoDup_cons; [cbn; intuition discriminate|]); apply NoDup_nil|]. split.
  { intros v r a H. cbn in H. repeat (destruct H as [H|H]; [injection H as <- <- <-; split; [cbn; tauto|right; reflexivity]|]); destruct H. }
  split; [intros v es H; cbn in H; repeat (destruct H as [H|H]; [(discriminate H || (injection H as <- <-; discriminate))|]); destruct H|].
  split; [repeat (apply NoDup_cons; [cbn; intuition discriminate|]); apply NoDup_nil|].
  split; [intros r q H; cbn in H; repeat (destruct H as [H|H]; [injection H as <- <-; cbn; tauto|]); destruct H|].
  split; [intros b v []|]. intros v l z l' H. unfold bounds_of in H. cbn in H. destruct l; discriminate.
Qed.
Lemma g_integer : integer_rows g_content "cost".
Proof.
  split.
  - intros v r a H _. exists (Qnum a). cbn in H; repeat (destruct H as [H|H]; [injection H as <- <- <-; reflexivity|]); destruct H.
  - intros r q H. exists (Qnum q). cbn in H; repeat (destruct H as [H|H]; [injection H as <- <-; reflexivity|]); destruct H.
Qed.
Lemma g_columns : columns g_content = ["x"; "y"; "z"].
Proof. reflexivity. Qed.
Lemma g_column n : In n (columns g_content) -> (n = "x" \/ n = "y" \/ n = "z") /\ interval g_content n = (0, 1).
Proof. rewrite g_columns. intros [<-|[<-|[<-|[]]]]; split; tauto || reflexivity. Qed.
Lemma g_thin : thin_binaries g_files e_settings g_content.
Proof. intros n I H. exfalso. destruct (g_column n I) as (_ & E). rewrite E in H. destruct H as [H|H]; injection H; lia. Qed.
Lemma g_narrow : narrow g_content.
Proof. intros n I. destruct (g_column n I) as (_ & E). rewrite E. cbn [fst snd]. lia. Qed.
Lemma g_options : options_are 100 g_files e_settings initialize.
Proof. left. split; reflexivity. Qed.
Lemma g_constrains k r : constrains g_content k r -> k = KG /\ r = "any".
Proof. intros (I & N). cbn in I. destruct I as [I|[I|[]]]; injection I as <- <-; [contradiction|split; reflexivity]. Qed.
Lemma g_excess y : (excess g_content y "any" == inject_Z (y "x") + inject_Z (y "y") + inject_Z (y "z") - 1)%Q.
Proof. unfold excess, row_value, sum, rhs_of. cbn. ring. Qed.
Lemma g_inequalities : inequalities g_content.
Proof. intros k r K. destruct (g_constrains k r K) as [-> _]. discriminate. Qed.
Lemma g_small : small g_content.
Proof.
  intros k r y K. destruct (g_constrains k r K) as [_ ->].
  assert (M : forall w, at_most g_content w y -> Z.abs (y "x") <= w "x" /\ Z.abs (y "y") <= w "y" /\ Z.abs (y "z") <= w "z") by (intros w A; split; [|split]; apply A; cbn; tauto).
  rewrite g_excess. split; intros A; destruct (M _ A) as (A1 & A2 & A3); apply Qabs_Qle_condition.
  - change (widest g_content "x") with 1 in A1. change (widest g_content "y") with 1 in A2. change (widest g_content "z") with 1 in A3.
    apply bounded in A1, A2, A3. change (inject_Z 1) with 1%Q in *. split; lra.
  - apply bounded in A1, A2, A3. change (inject_Z 100000) with 100000%Q in *. change (inject_Z 2147483647) with 2147483647%Q. split; lra.
Qed.
Lemma g_placed : placed g_content "cost".
Proof.
  intros n I. left. exists KG, "any". split; [split; [cbn; tauto|discriminate]|]. destruct (g_column n I) as ([->|[->| ->]] & _); intros X; vm_compute in X; discriminate X.
Qed.
Lemma g_one_sided : one_sided g_content.
Proof.
  intros k r k' r' K K'. destruct (g_constrains k r K) as [-> ->]. destruct (g_constrains k' r' K') as [-> ->]. split; [intros N; contradiction|]. intros _ E. specialize (E (fun _ => 0)). rewrite g_excess in E.
  vm_compute in E. discriminate E.
Qed.
Definition g_point (n : string) : Z := 1.
Lemma g_solution : file_solution g_files e_settings g_content g_point /\ (row_value g_content g_point "cost" == -(2))%Q.
Proof.
  split; [|vm_compute; reflexivity]. split.
  - split.
    + intros k r I N. assert (E : constrains g_content k r) by (split; assumption). destruct (g_constrains k r E) as [-> ->]. vm_compute. discriminate.
    + intros n I. destruct (g_column n I) as (_ & ->). cbn. unfold g_point. lia.
  - intros n I. split; [destruct (g_column n I) as (_ & ->); cbn; unfold g_point; lia|]. split; intros X; contradiction X; reflexivity.
Qed.
