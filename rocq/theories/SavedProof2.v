(** Proofs for C89: the example. *)
From Coq Require Import List NArith ZArith QArith Qround Bool String Ascii.
From Verif Require Import PresolveModel PrepareModel TextModel MpsModel MpsSpec NamesModel NamesSpec CommandModel CommandSpec
  SolverModel WholeModel RelaxModel OfferModel FileModel FileSpec DefaultProof3 IncumbentModel IncumbentSpec.
From Verif Require PrepareProof6 WholeProof4 InfeasibleProof IncumbentProof3.
Import ListNotations.
Local Open Scope string_scope.
Local Open Scope Z_scope.

Definition e_saved (c : case) := write_incumbent IncumbentProof3.d_show 100 (fun l => l) PrepareProof6.p_around (fun _ => true) 100%Q false false (fun _ => 1%Q) (fun _ => 1%Q) (fun _ => 1%Q) (fun q => q)
  WholeProof4.w_lg (fun q => q) (mkRx None None) InfeasibleProof.u_inputs (e_files c) (flat_map words e_items).
Lemma e_saves : e_saved Fine = Some ["=obj= -1"; "x 1"; "y 0"; "z 0"] /\ e_saved Void = Some ["=infeas="; "x 1"; "y 0"; "z 1"] /\
  e_saved Half = Some ["=obj= 0"; "x 0"; "y 0"; "z 0"] /\ e_saved Far = Some ["=obj= -1"; "x 1"; "y 0"; "z 0"].
Proof. repeat split; vm_compute; reflexivity. Qed.
Lemma e_reads t z l : (t =? "0")%string || (t =? "-1")%string = true -> z = (if (t =? "0")%string then 0 else -1) -> readable_objective (append "=obj= " t :: l).
Proof.
  intros H ->. apply orb_true_iff in H as [H|H]; apply String.eqb_eq in H; subst t.
  - exists "0", 0%Q, 0. split; [reflexivity|]. split; [split; [discriminate|cbn; intuition]|]. split; [vm_compute; reflexivity|]. split; [split; vm_compute; [intros X; discriminate X|reflexivity]|]. split; vm_compute; intros X; discriminate X.
  - exists "-1", (-1)%Q, (-1). split; [reflexivity|]. split; [split; [discriminate|cbn; intuition]|]. split; [vm_compute; reflexivity|]. split; [split; vm_compute; [intros X; discriminate X|reflexivity]|]. split; vm_compute; intros X; discriminate X.
Qed.
