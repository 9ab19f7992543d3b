(** Proofs for C81: a model with inequalities only and without solutions. *)
From Coq Require Import List NArith ZArith QArith Qabs Bool Arith Lia Lqa Permutation.
From Verif Require Import ExprModel ExprSpec ConstraintModel ConstraintSpec VariableModel TypeModel TypeSpec PresolveModel PresolveSpec
  DependentModel DependentSpec SelectionModel PrepareModel PrepareSpec EvalModel TabuModel WholeModel WholeSpec RelaxModel OfferModel ParityModel SolverModel InfeasibleSpec.
From Verif Require Import PrepareProof6 WholeProof4 WholeProof5 InfeasibleProof.
Import ListNotations.
Local Open Scope nat_scope.

(** x2 <= 2, x0 + x1 + x2 <= 1, x0 + x1 >= 1, x0 + x2 >= 1, x1 + x2 >= 1. *)
Definition t_cons : list constr :=
  [c_setup (mkExpr [(2, 1%Q)] (-(2))%Q) Less (is01_of u_vars);
   c_setup (mkExpr [(0, 1%Q); (1, 1%Q); (2, 1%Q)] (-(1))%Q) Less (is01_of u_vars);
   c_setup (mkExpr [(0, 1%Q); (1, 1%Q)] (-(1))%Q) Greater (is01_of u_vars);
   c_setup (mkExpr [(0, 1%Q); (2, 1%Q)] (-(1))%Q) Greater (is01_of u_vars);
   c_setup (mkExpr [(1, 1%Q); (2, 1%Q)] (-(1))%Q) Greater (is01_of u_vars)].
Definition t_model : dstate := mkD 3 u_vars t_cons (mkExpr [(1, (-(1))%Q); (2, (-(1))%Q)] 0%Q) [] (fun _ => None).
Definition t_switches : switches := mkSw true true true false true (fun _ => true) Defined true.
Ltac rows I := cbn [In t_cons] in I; repeat (destruct I as [<-|I]; [|]); try destruct I.

Lemma t_void x : ~ solves t_model x.
Proof.
  intros [_ C _]. cbn [t_model ds_cons] in C.
  assert (S1 := C _ (or_intror (or_introl eq_refl)) eq_refl). assert (S2 := C _ (or_intror (or_intror (or_introl eq_refl))) eq_refl).
  assert (S3 := C _ (or_intror (or_intror (or_intror (or_introl eq_refl)))) eq_refl). assert (S4 := C _ (or_intror (or_intror (or_intror (or_intror (or_introl eq_refl))))) eq_refl).
  unfold satisfies in *. cbn in S1, S2, S3, S4. set (a := x 0) in *. set (b := x 1) in *. set (c := x 2) in *. clearbody a b c. clear C.
  assert (H1 : (inject_Z (a + b + c) <= inject_Z 1)%Q) by (rewrite !inject_Z_plus; change (inject_Z 1) with 1%Q; lra).
  assert (H2 : (inject_Z 1 <= inject_Z (a + b))%Q) by (rewrite !inject_Z_plus; change (inject_Z 1) with 1%Q; lra).
  assert (H3 : (inject_Z 1 <= inject_Z (a + c))%Q) by (rewrite !inject_Z_plus; change (inject_Z 1) with 1%Q; lra).
  assert (H4 : (inject_Z 1 <= inject_Z (b + c))%Q) by (rewrite !inject_Z_plus; change (inject_Z 1) with 1%Q; lra).
  rewrite <- Zle_Qle in H1, H2, H3, H4. lia.
Qed.
Lemma t_proper : proper_model t_model.
Proof.
  constructor; cbn [t_model ds_dep ds_exprs ds_cons ds_vars ds_obj].
  - constructor; cbn [t_model ds_dep ds_exprs ds_cons ds_vars ds_obj ds_number]; try discriminate.
    + apply nodup_b_ok. reflexivity.
    + intros c I. rows I; (split; [apply nodup_b_ok; reflexivity|]); intros v J; cbn in J; lia.
    + intros e [].
    + intros v. split; [contradiction|]. intros [_ [E|E]]; exfalso; revert E; (do 3 (destruct v as [|v]; [vm_compute; discriminate|])); vm_compute; discriminate.
  - reflexivity.
  - reflexivity.
  - intros c I. rows I; reflexivity.
  - apply tame_b_ok. vm_compute; reflexivity.
  - exact (pm_moderate _ (u_proper Half)).
  - exact (pm_moderate_fixed _ (u_proper Half)).
  - exact (pm_sound _ (u_proper Half)).
  - intros c I. split.
    + intros F. apply (flags_b_ok t_cons); [vm_compute; reflexivity|exact I| |exact F]. rows I; reflexivity.
    + rows I; vm_compute; intros F; try discriminate; intros v J; repeat (destruct J as [<-|J]; [now left|]); destruct J.
  - apply decided_zero; [exact u_bounds|vm_compute; reflexivity].
Qed.
Lemma t_entered : as_entered t_model.
Proof.
  constructor; cbn [t_model ds_cons ds_vars ds_obj ds_number].
  - intros c I. rows I; eexists; eexists; (split; [reflexivity|]); apply int_b_ok; reflexivity.
  - intros v. do 3 (destruct v as [|v]; [vm_compute; auto|]). vm_compute; auto.
  - intros v J. cbn in J. lia.
Qed.
Lemma t_inequalities : only_inequalities t_model.
Proof. intros c I. cbn [t_model ds_cons] in I. rows I; discriminate. Qed.
Lemma t_small : small_rows t_model.
Proof. intros c I. cbn [t_model ds_cons] in I. rows I; vm_compute; discriminate. Qed.
Definition t_point (a b c : Z) (v : nat) : Z := nth v [a; b; c] 0%Z.
Lemma t_apart : no_opposites t_model.
Proof.
  intros c d I J. cbn [t_model ds_cons] in I, J. rows I; rows J; split; intros D H;
  first [discriminate D|exact (D eq_refl)|specialize (H (t_point 0 0 0)); vm_compute in H; discriminate H|specialize (H (t_point 1 0 0)); vm_compute in H; discriminate H
        |specialize (H (t_point 0 1 0)); vm_compute in H; discriminate H|specialize (H (t_point 0 0 1)); vm_compute in H; discriminate H].
Qed.
Lemma t_calm su m : calm_sets t_switches su m t_model.
Proof. intros fuel s1 s2 _ _ _ E. discriminate E. Qed.
Definition t_solved (a : ninputs) := p_solve_model 10 (fun l => l) t_switches p_around (fun _ => true) [] w_options (fun _ => 1%Q) (fun _ => 1%Q) (fun _ => 1%Q) (fun q => q)
  w_lg (fun q => q) true (mkRx None None) a t_model.
Lemma t_shown : shown 3 (t_solved u_inputs) = Some ([0; 1; 1]%Z, (-(2))%Q, 1%Q, false, 4).
Proof. vm_compute. reflexivity. Qed.
Definition reduction := match prepare 10 t_switches p_around true t_model with
  | Some (Ok r) => Some (map (fun v => (va_lower (ds_vars (fst r) v), va_upper (ds_vars (fst r) v))) [0; 1; 2], map ct_enabled (ds_cons (fst r))) | _ => None end.
Lemma t_reduction : reduction = Some ([(0, 1); (0, 1); (0, 1)]%Z, [false; true; true; true; true]).
Proof. vm_compute. reflexivity. Qed.
