(** Proofs for C90: the example. *)
From Coq Require Import List NArith ZArith QArith Qabs Bool String Ascii Lia.
From Verif Require Import PresolveModel PrepareModel TextModel MpsModel MpsSpec NamesModel NamesSpec CommandModel CommandSpec
  SolverModel WholeModel RelaxModel OfferModel FileModel FileSpec DefaultProof3 JsonModel JsonSpec JsonProof2 ReportModel ReportSpec WrittenModel.
From Verif Require PrepareProof6 WholeProof4 InfeasibleProof.
Import ListNotations.
Local Open Scope string_scope.
Local Open Scope Z_scope.

(** The rows of the example at x = 1, y = z = 0. *)
Definition e_row_values : row_report :=
  let names := ["cap"; "one"; "two"; "three"; "top"] in
  mkRr 5 [] [("constraints", mkVp [5] (map VReal [-1; 0; 0; 0; -4]%Q) names)] [("constraints", mkVp [5] (map VReal [0; 0; 0; 0; 0]%Q) names)].
Definition e_report (c : case) := report_of e_row_values 100 (fun l => l) PrepareProof6.p_around (fun _ => true) 100%Q false false (fun _ => 1%Q) (fun _ => 1%Q) (fun _ => 1%Q) (fun q => q)
  WholeProof4.w_lg (fun q => q) (mkRx None None) InfeasibleProof.u_inputs (e_files c) (flat_map words e_items).
Lemma e_reports : e_report Fine = Some (mkReport "demo" 3 5 true (-(1))%Q 0 [("variables", mkVp [3] [VInt 1; VInt 0; VInt 0] ["x"; "y"; "z"])] [] (rr_con e_row_values) (rr_vio e_row_values)).
Proof. vm_compute. reflexivity. Qed.
Lemma plain_check t : TextProof.all_chars (fun c => negb (bad_char c)) t = true -> plain t.
Proof. apply plain_chars. Qed.
Lemma real_check q : Qeq_bool q 0 = true \/ Qle_bool (decimal (-300)) (Qabs q) = true /\ Qle_bool (Qabs q) (decimal 300) = true -> sound_real q.
Proof. intros [A|[A B]]; [left; apply Qeq_bool_iff, A|right; split; apply Qle_bool_iff; assumption]. Qed.
Lemma e_sound r : e_report Fine = Some r -> rp_feasible r = true /\ sound_summary r /\ sound_names (rr_expr e_row_values) /\ sound_names (rr_con e_row_values) /\ sound_names (rr_vio e_row_values).
Proof.
  rewrite e_reports. intros [= <-]. split; [reflexivity|]. split.
  { split; [apply plain_check; vm_compute; reflexivity|]. cbn [rp_variables rp_constraints rp_objective rp_violation]. split; [lia|]. split; [lia|]. split; [apply real_check; right; split; vm_compute; reflexivity|apply real_check; left; reflexivity]. }
  split; [split; constructor|].
  assert (G : forall vs, List.length vs = 5%nat -> Forall (fun q => Qle_bool (Qabs q) (decimal 300) = true /\ (Qeq_bool q 0 = true \/ Qle_bool (decimal (-300)) (Qabs q) = true /\ Qle_bool (Qabs q) (decimal 300) = true)) vs ->
    sound_names [("constraints", mkVp [5] (map VReal vs) ["cap"; "one"; "two"; "three"; "top"])]).
  { intros vs L F. split; [cbn [flat_map snd vp_names app]; repeat (apply NoDup_cons; [cbn; intuition discriminate|]); apply NoDup_nil|]. apply Forall_cons; [|apply Forall_nil]. cbn [snd vp_names vp_values]. split; [|split].
    - split; [split; [discriminate|repeat constructor; cbn; lia]|]. cbn [vp_shape vp_values vp_names]. rewrite map_length, L. split; [reflexivity|]. split; [reflexivity|].
      apply Forall_forall. intros v J. apply in_map_iff in J as (q & <- & J). rewrite Forall_forall in F. cbn [sound_value]. apply Qle_bool_iff. apply F, J.
    - repeat (apply Forall_cons; [apply plain_check; vm_compute; reflexivity|]); apply Forall_nil.
    - apply Forall_forall. intros v J. apply in_map_iff in J as (q & <- & J). rewrite Forall_forall in F. apply real_check, F, J. }
  split; [apply (G [-1; 0; 0; 0; -4]%Q)|apply (G [0; 0; 0; 0; 0]%Q)]; try reflexivity.
  - repeat (apply Forall_cons; [split; [vm_compute; reflexivity|first [left; reflexivity|right; split; vm_compute; reflexivity]]|]); apply Forall_nil.
  - repeat (apply Forall_cons; [split; [vm_compute; reflexivity|first [left; reflexivity|right; split; vm_compute; reflexivity]]|]); apply Forall_nil.
Qed.
Lemma e_plain c : columns (e_content c) <> [] /\ Forall plain (columns (e_content c)).
Proof. rewrite e_columns. split; [discriminate|]. repeat (apply Forall_cons; [apply plain_check; vm_compute; reflexivity|]); apply Forall_nil. Qed.
