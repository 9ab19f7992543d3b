(** Proofs for C74: the prepared problem is what the search asks for. *)
From Coq Require Import List NArith ZArith QArith Qabs Bool Arith Permutation Lia Lqa.
From Verif Require Import ExprModel ExprSpec ExprProof ConstraintModel ConstraintSpec VariableModel TypeModel TypeSpec PresolveModel PresolveSpec
  DuplicateModel DependentModel DependentSpec SelectionModel SelectionSpec PrepareModel PrepareSpec EvalModel EvalSpec2 TabuModel LoopSpec WholeModel WholeSpec.
From Verif Require Import DuplicateProof DuplicateProof2 SelectionProof2 SelectionProof3 DependentProof6 PrepareProof PrepareProof2 PrepareProof3 PrepareProof4 PrepareProof5 PrepareProof6.
From Verif Require SolverModel SolverSpec.
Import ListNotations.
Local Open Scope nat_scope.

(** ** The number of variables *)
Lemma eliminate_number f : forall s s', eliminate_loop f s = Some s' -> ds_number s' = ds_number s.
Proof.
  induction f as [|f IH]; intros s s' E; [discriminate|]. cbn [eliminate_loop] in E. destruct (Nat.eqb _ 0).
  - injection E as <-. reflexivity.
  - apply IH in E. rewrite E. reflexivity.
Qed.
Lemma extract_number opt names s k s' : extract opt names s = Some (k, s') -> ds_number s' = ds_number s.
Proof. unfold extract. destruct (all_some _); [|discriminate]. intros H. injection H as _ <-. reflexivity. Qed.
Lemma loop_number opt names m f : forall s s', dependent_loop f opt names m s = Some (Ok s') -> ds_number s' = ds_number s.
Proof.
  induction f as [|f IH]; intros s s' E; [discriminate|]. cbn [dependent_loop] in E.
  destruct (extract opt names s) as [[[|k] s1]|] eqn:X; [|destruct (eliminate_loop (S f) s1) as [s2|] eqn:E2; [|discriminate]|discriminate].
  - injection E as <-. exact (extract_number _ _ _ _ _ X).
  - destruct (reduce_problem_size _ _ _ _) as [[p| |]|]; try discriminate. apply IH in E. rewrite E. cbn [ds_number].
    rewrite (eliminate_number _ _ _ E2). exact (extract_number _ _ _ _ _ X).
Qed.
Lemma prepare_number f sw su m s s1 s2 : prepare_reduce f sw su m s = Some (Ok s1) -> prepare_dependents f sw su m s1 = Some (Ok s2) -> ds_number s2 = ds_number s.
Proof.
  intros A B. assert (X : ds_number s1 = ds_number s).
  { unfold prepare_reduce in A. destruct (sw_presolve sw); [|now injection A as <-]. cbv zeta in A. destruct (reduce_problem_size _ _ _ _) as [[p| |]|]; try discriminate. now injection A as <-. }
  rewrite <- X. unfold prepare_dependents in B. destruct (_ && _); [exact (loop_number _ _ _ _ _ _ B)|now injection B as <-].
Qed.

(** ** The phases once more, with everything that is known about the result *)
(** What the selections and the start make of a state that fits. *)
Record search_ready (m : bool) (s : dstate) (r : dstate * list sel) : Prop := mkReady {
  sr_keeps : keeps_optimum m s r;
  sr_number : ds_number (fst r) = ds_number s;
  sr_start : valid_start (ds_number (fst r)) (ds_vars (fst r)) (snd r);
  sr_ready : ready r;
  sr_members : forall t v, In t (snd r) -> In v (sl_vars t) -> v < ds_number (fst r);
  sr_coherent : coherent (fst r);
  sr_clean : clean (fst r);
  sr_tidy : tidy (ds_cons (fst r));
  sr_whole : forall e, In e (ds_exprs (fst r)) -> whole e }.

Lemma sense_selections sw su s v : let r := prepare_selections sw su s in
  va_sense (ds_vars (fst r) v) = va_sense (ds_vars s v) \/ va_sense (ds_vars (fst r) v) = VSelection /\ va_sense (ds_vars s v) = VBinary.
Proof.
  intros r. unfold prepare_selections in r. destruct (_ && _); [|left; reflexivity]. subst r. rewrite extract_eq.
  set (vn := su_name su). set (cn := su_cname su). set (md := sw_mode sw). set (us := su_user su). set (cx := vctx vn (ds_vars s)).
  pose proof (extracted_senses vn cn md us cx (ds_vars s) (ds_cons s)) as HS. pose proof (extracted_origin vn cn md us cx (ds_vars s) (ds_cons s)) as HO.
  set (vs' := fun v => if existsb _ _ then _ else _) in *. set (sels := map (setup_related vn cn (ds_cons s)) _) in *. cbv zeta in HS. cbn [fst ds_vars].
  destruct (HS v) as [H1 H2]. destruct (existsb (fun t => existsb (Nat.eqb v) (sl_vars t)) sels) eqn:E.
  - apply existsb_exists in E as (t & It & Ev). apply mem_iff in Ev. right. rewrite H1 by eauto. split; [reflexivity|].
    destruct (HO t It) as (c & (_ & _ & _ & Bin) & Pm & _). apply Bin, (Permutation_in _ Pm), Ev.
  - left. rewrite H2; [reflexivity|]. intros (t & It & Iv). assert (X : existsb (fun t => existsb (Nat.eqb v) (sl_vars t)) sels = true); [|congruence].
    apply existsb_exists. exists t. split; [exact It|apply mem_iff, Iv].
Qed.
Lemma selection_members sw su s : coherent s -> forall t v, In t (snd (prepare_selections sw su s)) -> In v (sl_vars t) -> v < ds_number s.
Proof.
  intros Co t v. unfold prepare_selections. destruct (_ && _); [|intros []]. rewrite extract_eq.
  pose proof (extracted_origin (su_name su) (su_cname su) (sw_mode sw) (su_user su) (vctx (su_name su) (ds_vars s)) (ds_vars s) (ds_cons s)) as HO. cbn [snd]. intros It Iv.
  destruct (HO t It) as (c & (Ec & _) & Pm & _). apply (co_cons s Co c (nth_error_In _ _ Ec)), (Permutation_in _ Pm), Iv.
Qed.
Lemma disable_all_lessened l : forall cs, lessened cs (fold_left disable_at l cs).
Proof. induction l as [|i l IH]; intros cs; cbn [fold_left]; [apply lessened_refl|]. eapply lessened_trans; [apply disable_lessened|apply IH]. Qed.
Lemma rest_selections sw su s : let r := prepare_selections sw su s in
  ds_number (fst r) = ds_number s /\ ds_obj (fst r) = ds_obj s /\ ds_exprs (fst r) = ds_exprs s /\ ds_dep (fst r) = ds_dep s /\
  lessened (ds_cons s) (ds_cons (fst r)).
Proof.
  intros r. unfold prepare_selections in r. destruct (_ && _); [|subst r; cbn [fst]; repeat split; apply lessened_refl].
  subst r. unfold extract_selections. cbn [fst ds_number ds_obj ds_exprs ds_dep ds_cons]. repeat split. apply disable_all_lessened.
Qed.
Lemma same_dependents s s' : coherent s -> clean s -> ds_number s' = ds_number s -> ds_obj s' = ds_obj s -> ds_exprs s' = ds_exprs s -> ds_dep s' = ds_dep s ->
  derived (ds_cons s) (ds_cons s') -> (forall v, is_dependent (ds_vars s' v) <-> is_dependent (ds_vars s v)) -> coherent s' /\ clean s'.
Proof.
  intros [C1 C2 C3 C4 C5 C6] [L1 L2 L3] N O E D De I. split; constructor.
  - rewrite O. exact C1.
  - intros c J. destruct (De c J) as (c0 & J0 & X & _). rewrite X, N. apply C2, J0.
  - rewrite E, N. exact C3.
  - intros v. rewrite D, N, I. apply C4.
  - intros v k. rewrite D, E. apply C5.
  - rewrite D. exact C6.
  - intros v. rewrite N, O, I. apply L1.
  - intros v c. rewrite N, I. intros A B J En. destruct (De c J) as (c0 & J0 & X & Y). rewrite X. apply (L2 v c0 A B J0), Y, En.
  - intros v e. rewrite N, I, E. apply L3.
Qed.

Lemma prepare_more f g sw su m s r : prepare_problem f sw su m s = Some (Ok r) -> f <= g -> prepare_problem g sw su m s = Some (Ok r).
Proof.
  intros H L. unfold prepare_problem in *. destruct (prepare_reduce f sw su m s) as [[s1| |]|] eqn:E1; try discriminate.
  rewrite (reduce_more_fuel f g _ _ _ _ _ E1 L). destruct (prepare_dependents f sw su m s1) as [[s2| |]|] eqn:E2; try discriminate.
  unfold prepare_dependents in *. destruct (_ && _); [|injection E2 as <-; exact H]. rewrite (loop_more _ _ _ f g _ _ E2 L). exact H.
Qed.

Lemma sets_number sw su m s : ds_number (prepare_sets sw su m s) = ds_number s.
Proof. unfold prepare_sets. destruct (sw_presolve sw); reflexivity. Qed.
Lemma search_slim sw su m s s3 r : slim s3 -> refines m s s3 -> ds_number s3 = ds_number s -> prepare_start sw su (prepare_selections sw su s3) = Ok r -> search_ready m s r.
Proof.
  intros Ft3 R Nu Pr. destruct (prepare_selections sw su s3) as [q1 q2] eqn:Eq. set (q := (q1, q2)) in *.
  destruct (selections_slim sw su s3 Ft3) as (Ob & _ & Rd & Mt).
  destruct (rest_selections sw su s3) as (Q1 & Q2 & Q3 & Q4 & Q5). pose proof (fun v => sense_selections sw su s3 v) as Se. cbv zeta in Se.
  pose proof (selection_members sw su s3 (sm_coherent s3 Ft3)) as Me. rewrite Eq in *.
  assert (K : keeps_optimum m s q).
  { destruct R as [Ra Rb]. split.
    - intros x M. apply Mt in M. rewrite Ob. apply Ra, M.
    - intros x S. destruct (Rb x S) as (x' & S' & G). exists x'. split; [apply Mt, S'|]. exact G. }
  destruct (start_done sw su q r Rd Pr) as (Mt' & T1 & T2 & T3 & T4 & T5 & T6 & T7 & T8).
  assert (De : derived (ds_cons s3) (ds_cons (fst r))) by (rewrite T3; apply lessened_derived, Q5).
  assert (Cc : coherent (fst r) /\ clean (fst r)).
  { apply (same_dependents s3); [apply Ft3|apply Ft3|congruence|congruence|congruence|congruence|exact De|].
    intros v. destruct (T6 v) as (_ & _ & _ & X & _). unfold is_dependent. rewrite X. destruct (Se v) as [Y|[Y Z]]; rewrite Y; [reflexivity|]. rewrite Z. split; intros [W|W]; discriminate. }
  destruct Cc as [Co Cl]. constructor; [|rewrite T2, Q1; exact Nu|exact T8| | |exact Co|exact Cl| |].
  - destruct K as [K1 K2]. split.
    + intros y M. apply Mt' in M. rewrite T1. apply K1, M.
    + intros y S. destruct (K2 y S) as (y' & M & G). exists y'. split; [apply Mt', M|exact G].
  - destruct Rd as ((D1 & D2) & D3 & D4). split; [split|split].
    + intros i j t u D Et Eu. assert (Fd : forall i t, nth_error (snd r) i = Some t -> exists t', nth_error (snd q) i = Some t' /\ sl_vars t' = sl_vars t).
      { intros i0 t0 E0. assert (X : nth_error (map sl_vars (snd q)) i0 = Some (sl_vars t0)) by (rewrite <- T7; now apply map_nth_error).
        rewrite nth_error_map in X. destruct (nth_error (snd q) i0) as [t'|] eqn:Y; [|discriminate]. cbn in X. exists t'. split; [reflexivity|congruence]. }
      destruct (Fd i t Et) as (t' & Et' & <-). destruct (Fd j u Eu) as (u' & Eu' & <-). exact (D1 i j t' u' D Et' Eu').
    + intros t I. assert (J : In (sl_vars t) (map sl_vars (snd q))) by (rewrite <- T7; now apply in_map). apply in_map_iff in J as (t' & <- & J).
      destruct (D2 t' J) as [X Y]. split; [exact X|]. intros v Iv. destruct (T6 v) as (_ & _ & _ & Z & _). rewrite Z. apply Y, Iv.
    + intros v. destruct (T6 v) as (A & B & C & D & E). destruct (D3 v) as (S1 & S2 & S3). unfold sound. rewrite A, B, C, D. split; [exact S1|]. split; [exact S2|].
      intros F. rewrite (E F). apply S3, F.
    + intros v. destruct (T6 v) as (_ & _ & _ & Z & _). rewrite Z, T5. apply D4.
  - intros t v I Iv. assert (J : In (sl_vars t) (map sl_vars (snd q))) by (rewrite <- T7; now apply in_map). apply in_map_iff in J as (t' & X & J).
    rewrite T2, Q1. apply (Me t' v J). rewrite X. exact Iv.
  - exact (derived_tidy _ _ De (sm_tidy s3 Ft3)).
  - rewrite T4, Q3. apply Ft3.
Qed.
Lemma search_rest sw su m s s3 r : fit s3 -> refines m s s3 -> ds_number s3 = ds_number s -> prepare_start sw su (prepare_selections sw su s3) = Ok r -> search_ready m s r.
Proof. intros Ft. exact (search_slim sw su m s s3 r (fit_slim s3 Ft)). Qed.

Lemma prepare_search fuel sw su m s r : proper_model s -> (exists x, solves s x) -> calm_rounds sw su m s -> calm_sets sw su m s ->
  prepare fuel sw su m s = Some (Ok r) -> search_ready m s r.
Proof.
  intros P Fe C1 C2 Pr. unfold prepare in Pr. destruct (prepare_problem fuel sw su m s) as [[q| |]|] eqn:Eq; try discriminate. cbn [bind] in Pr. injection Pr as Pr.
  destruct (reduce_phase sw su m s P Fe) as [F1 H1]. destruct (H1 F1 (Nat.le_refl F1)) as (s1 & E1 & Ft1 & R1).
  destruct (dependents_phase sw su m s1 Ft1 (refines_feasible _ _ _ R1 Fe) (C1 F1 s1 E1)) as [F2 H2].
  set (g := F1 + F2 + fuel). pose proof (reduce_more_fuel F1 g _ _ _ _ _ E1 ltac:(lia)) as E1'.
  destruct (H2 g ltac:(lia)) as (s2 & E2 & Ft2 & R2). pose proof (refines_trans _ _ _ _ R1 R2) as R12.
  destruct (sets_phase sw su m s2 Ft2 (refines_feasible _ _ _ R12 Fe) (C2 g s1 s2 E1' E2)) as [Ft3 R3]. pose proof (refines_trans _ _ _ _ R12 R3) as R.
  apply (prepare_more _ g) in Eq; [|lia]. unfold prepare_problem in Eq. rewrite E1', E2 in Eq. injection Eq as Eq.
  pose proof (prepare_number _ _ _ _ _ _ _ E1' E2) as Nu.
  apply (search_rest sw su m s (prepare_sets sw su m s2) r Ft3 R); [|rewrite Eq; exact Pr]. rewrite <- Nu. apply sets_number.
Qed.
