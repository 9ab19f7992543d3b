(** Proofs for C77, continued: what the selections of the prepared problem list. *)
From Coq Require Import List NArith ZArith QArith Permutation Bool Arith Lia Lqa.
From Verif Require Import ExprModel ExprSpec ConstraintModel VariableModel TypeModel TypeSpec PresolveModel PresolveSpec DuplicateModel DuplicateSpec DependentModel DependentSpec
  SelectionModel SelectionSpec SelectionProof2 SelectionProof3 PrepareModel PrepareSpec EvalModel.
From Verif Require Import DuplicateProof2 DependentProof6 PrepareProof PrepareProof2 PrepareProof3 PrepareProof4 PrepareProof5 PrepareProof6 WholeProof RelaxProof2.
Import ListNotations.
Local Open Scope nat_scope.

Lemma sensitivities_expr cs cs' v : map ct_expr cs = map ct_expr cs' -> constraint_sensitivities cs v = constraint_sensitivities cs' v.
Proof.
  unfold constraint_sensitivities. generalize 0. revert cs'. induction cs as [|c cs IH]; intros [|c' cs'] k E; try discriminate; [reflexivity|].
  cbn [map] in E. injection E as E1 E2. cbn [length seq combine flat_map fst snd]. rewrite E1. f_equal. apply IH, E2.
Qed.
Lemma related_expr cs cs' own vars : map ct_expr cs = map ct_expr cs' -> selection_related cs own vars = selection_related cs' own vars.
Proof.
  intros E. unfold selection_related. f_equal. f_equal. unfold related_constraints. induction vars as [|v l IH]; cbn [flat_map]; [reflexivity|].
  rewrite IH, (sensitivities_expr cs cs' v E). reflexivity.
Qed.
Lemma disables_expr cs cs' : only_disables cs cs' -> map ct_expr cs = map ct_expr cs'.
Proof.
  intros [L H]. apply SelectionProof3.nth_error_same. intros i. rewrite !nth_error_map.
  destruct (nth_error cs i) as [c|] eqn:E; destruct (nth_error cs' i) as [c'|] eqn:E'; cbn [option_map].
  - f_equal. symmetry. apply (H i c c' E E').
  - apply nth_error_None in E'. assert (i < length cs) by (apply nth_error_Some; congruence). lia.
  - apply nth_error_None in E. assert (i < length cs') by (apply nth_error_Some; congruence). lia.
  - reflexivity.
Qed.
Definition listed (cs : list constr) (t : sel) : Prop := Permutation (sl_related t) (selection_related cs (sl_con t) (sl_vars t)) /\
  forall c, nth_error cs (sl_con t) = Some c -> ct_enabled c = false.
Lemma selection_listed sw su s t : In t (snd (prepare_selections sw su s)) -> listed (ds_cons (fst (prepare_selections sw su s))) t.
Proof.
  unfold prepare_selections. destruct (_ && _); [|intros []]. rewrite extract_eq. cbn [snd fst ds_cons].
  set (vn := su_name su). set (cn := su_cname su). set (md := sw_mode sw). set (us := su_user su). set (cx := vctx vn (ds_vars s)).
  pose proof (extracted_related_score vn cn md us cx (ds_vars s) (ds_cons s)) as HR. pose proof (extracted_constraints vn cn md us cx (ds_vars s) (ds_cons s)) as HC.
  cbv zeta in HC. destruct HC as [HD HC]. intros It. split.
  - rewrite <- (related_expr _ _ _ _ (disables_expr _ _ HD)). exact (HR t It).
  - intros c E. destruct HD as [L _]. destruct (nth_error (ds_cons s) (sl_con t)) as [c0|] eqn:E0.
    + apply (HC _ _ _ E0 E). exists t. split; [exact It|reflexivity].
    + apply nth_error_None in E0. assert (sl_con t < length (fold_left disable_at (map sl_con (choose md us (raw_selections (ds_vars s) (ds_cons s) (type_refs cx (ds_cons s) SetPartitioning)))) (ds_cons s))) by (apply nth_error_Some; congruence). lia.
Qed.
Lemma prepare_listed f sw su m s r : proper_model s -> (exists x, solves s x) -> calm_rounds sw su m s -> calm_sets sw su m s ->
  prepare f sw su m s = Some (Ok r) -> forall t, In t (snd r) -> listed (ds_cons (fst r)) t.
Proof.
  intros P Fe C1 C2 Pr. unfold prepare in Pr. destruct (prepare_problem f sw su m s) as [[q| |]|] eqn:Eq; try discriminate. cbn [bind] in Pr. injection Pr as Pr.
  destruct (reduce_phase sw su m s P Fe) as [F1 H1]. destruct (H1 F1 (Nat.le_refl F1)) as (s1 & E1 & Ft1 & R1).
  destruct (dependents_phase sw su m s1 Ft1 (refines_feasible _ _ _ R1 Fe) (C1 F1 s1 E1)) as [F2 H2].
  set (g := F1 + F2 + f). pose proof (reduce_more_fuel F1 g _ _ _ _ _ E1 ltac:(lia)) as E1'.
  destruct (H2 g ltac:(lia)) as (s2 & E2 & Ft2 & R2). pose proof (refines_trans _ _ _ _ R1 R2) as R12.
  destruct (sets_phase sw su m s2 Ft2 (refines_feasible _ _ _ R12 Fe) (C2 g s1 s2 E1' E2)) as [Ft3 R3]. pose proof (refines_trans _ _ _ _ R12 R3) as R.
  apply (prepare_more _ g) in Eq; [|lia]. unfold prepare_problem in Eq. rewrite E1', E2 in Eq. injection Eq as Eq.
  set (s3 := prepare_sets sw su m s2) in *. destruct (selections_phase sw su s3 Ft3) as (Ob & _ & Rd & Mt).
  pose proof (selection_listed sw su s3) as So. rewrite Eq in *.
  assert (Fq : exists x, meets q x).
  { destruct Fe as [x Sx]. destruct (proj2 R x Sx) as (x' & S' & _). exists x'. apply Mt, S'. }
  pose proof (start_phase sw su q Rd Fq) as S. rewrite Pr in S. destruct S as (Mt' & _ & _ & T3 & _ & T5 & _).
  assert (Cn : forall t, In t (snd r) -> exists t', In t' (snd q) /\ sl_con t' = sl_con t /\ sl_vars t' = sl_vars t /\ sl_related t' = sl_related t).
  { unfold prepare_start in Pr. destruct q as [sq sels]. cbn [fst snd] in *. destruct (verify _ _ _ _ _ _) as [[vs' sels']|] eqn:V; [|discriminate]. injection Pr as <-. cbn [snd].
    destruct Rd as (Rd & Sn & _). cbn [fst snd] in *.
    assert (Sa : sane_bounds (ds_number sq) (ds_vars sq)) by (intros v _; destruct (Sn v) as (S1 & S2 & _); split; [exact S1|intros X; apply S2; auto]).
    destruct (verify_spec _ _ _ _ _ _ _ _ Rd Sa V) as (_ & _ & Ca & _). clear -Ca. induction Ca as [|a b l l' H Ca IH]; intros t [].
    - subst t. exists a. split; [now left|]. destruct H as (A & B & C & _). auto.
    - destruct (IH t H0) as (t' & I & E). exists t'. split; [now right|exact E]. }
  intros t It. destruct (Cn t It) as (t' & It' & Ec & Ev & Er). destruct (So t' It') as [A B]. unfold listed. rewrite T3, <- Ec, <- Ev, <- Er. split; [exact A|exact B].
Qed.
