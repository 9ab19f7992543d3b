(** Proofs for C84: the example. *)
From Coq Require Import List NArith ZArith QArith Qround Bool String Ascii.
From Verif Require Import PresolveModel PrepareModel TextModel MpsModel MpsSpec NamesModel NamesSpec CommandModel CommandSpec
  SolverModel WholeModel RelaxModel OfferModel FileModel FileSpec FileProof3 FileProof4 IncumbentModel IncumbentSpec.
From Verif Require PrepareProof6 WholeProof4 InfeasibleProof.
Import ListNotations.
Local Open Scope string_scope.
Local Open Scope Z_scope.

Definition d_show (q : Q) : string := print_int (Qfloor q).
Definition d_written (fixed : string) := write_incumbent d_show 100 (fun l => l) PrepareProof6.p_around (fun _ => true) 100%Q false false (fun _ => 1%Q) (fun _ => 1%Q) (fun _ => 1%Q) (fun q => q)
  WholeProof4.w_lg (fun q => q) (mkRx None None) InfeasibleProof.u_inputs (d_files false) (flat_map words (d_items fixed)).
Lemma d_writes : d_written "fix.txt" = Some ["=obj= 3"; "x 0"; "y 1"; "z 0"] /\ d_written "five.txt" = Some ["=infeas="; "x 0"; "y 1"; "z 5"] /\ d_written "far.txt" = None.
Proof. repeat split; vm_compute; reflexivity. Qed.
Lemma d_readable : readable_objective ["=obj= 3"; "x 0"; "y 1"; "z 0"].
Proof.
  exists "3", 3%Q, 3. split; [reflexivity|]. split; [split; [discriminate|cbn; auto]|]. split; [vm_compute; reflexivity|]. split; [split; vm_compute; [intros X; discriminate X|reflexivity]|].
  split; vm_compute; intros X; discriminate X.
Qed.
(** The same model with the cost 3000000000 for y. *)
Definition e_files : files := fun n =>
  if (n =? "demo.mps")%string then Some (text (map (fun l => if (l =? " y  cost  3  cap  1")%string then " y  cost  3000000000  cap  1" else l) (d_lines false))) else d_files false n.
Definition e_written (fixed : string) := write_incumbent d_show 100 (fun l => l) PrepareProof6.p_around (fun _ => true) 100%Q false false (fun _ => 1%Q) (fun _ => 1%Q) (fun _ => 1%Q) (fun q => q)
  WholeProof4.w_lg (fun q => q) (mkRx None None) InfeasibleProof.u_inputs e_files (flat_map words (d_items fixed)).
Lemma e_writes : e_written "fix.txt" = Some ["=obj= 3000000000"; "x 0"; "y 1"; "z 0"].
Proof. vm_compute. reflexivity. Qed.
Lemma e_unreadable : unreadable_objective ["=obj= 3000000000"; "x 0"; "y 1"; "z 0"].
Proof.
  exists "3000000000", 3000000000%Q, 3000000000. split; [reflexivity|]. split; [split; [discriminate|cbn; intuition]|]. split; [vm_compute; reflexivity|]. split; [split; vm_compute; [intros X; discriminate X|reflexivity]|].
  intros [_ X]. vm_compute in X. apply X. reflexivity.
Qed.
