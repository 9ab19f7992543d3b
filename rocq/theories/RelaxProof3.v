(** Proofs for C76: the bound of the linear relaxation of the prepared problem. *)
From Coq Require Import List NArith ZArith QArith Qabs Bool Arith Permutation Lia Lqa.
From Verif Require Import ExprModel ExprSpec ExprProof ConstraintModel ConstraintSpec VariableModel TypeModel TypeSpec PresolveModel PresolveSpec
  DuplicateModel DependentModel DependentSpec SelectionModel SelectionSpec PrepareModel PrepareSpec WholeSpec.
From Verif Require Import LpModel LpSpec RelaxModel RelaxSpec.
From Verif Require LpProof6.
From Verif Require Import DuplicateProof2 SelectionProof3 PrepareProof PrepareProof2 PrepareProof5 WholeProof WholeProof6 RelaxProof2.
Import ListNotations.
Local Open Scope nat_scope.

Lemma in_with_sense s k v : In v (with_sense s k) <-> v < ds_number s /\ va_sense (ds_vars s v) = k.
Proof. unfold with_sense. apply of_sense_in. Qed.
Lemma order_nodup s : NoDup (lp_order s).
Proof.
  unfold lp_order. apply nodup_app; [apply of_sense_nodup| |].
  - apply nodup_app; [apply of_sense_nodup|apply of_sense_nodup|]. intros v A B. apply in_with_sense in A, B. destruct A, B. congruence.
  - intros v A B. apply in_with_sense in A. apply in_app_or in B as [B|B]; apply in_with_sense in B; destruct A, B; congruence.
Qed.
Lemma order_number s v : In v (lp_order s) -> v < ds_number s.
Proof. unfold lp_order. rewrite !in_app_iff, !in_with_sense. tauto. Qed.
Lemma cons_of_in k cs c : In c (cons_of k cs) <-> In c cs /\ ct_sense c = k.
Proof. unfold cons_of. rewrite filter_In. destruct (ct_sense c), k; cbn; intuition congruence. Qed.

Section Relaxation.
  Context (m : bool) (s : dstate) (r : dstate * list sel).
  Hypothesis Rd : search_ready m s r.
  Hypothesis Ob : forall v, In v (keys (ds_obj (fst r))) -> v < ds_number (fst r).
  Hypothesis Sc : forall c, In c (sel_cons r) -> ct_sense c = Equal /\ (forall y, meets r y -> satisfies c y) /\
    forall v, In v (keys (ct_expr c)) -> ds_dep (fst r) v = None.
  Let vs := ds_vars (fst r).
  Let obj := ds_obj (fst r).
  Let cs := ds_cons (fst r).

  Lemma relaxation_lists : lists_ok obj vs (lp_order (fst r)) (lp_fixed (fst r)) (cons_of Less cs) (sel_cons r) (cons_of Equal cs) (cons_of Greater cs).
  Proof.
    constructor.
    - apply order_nodup.
    - apply NoDup_filter, seq_NoDup.
    - intros v I. apply filter_In in I as [_ I]. exact I.
    - exact (co_obj _ (sr_coherent _ _ _ Rd)).
    - intros v K. pose proof (Ob v K) as L. destruct (va_fixed (vs v)) eqn:F.
      + apply filter_In. split; [apply in_seq; lia|exact F].
      + unfold lp_order. rewrite !in_app_iff, !in_with_sense. pose proof (cl_obj _ (sr_clean _ _ _ Rd) v L) as N. unfold is_dependent in N.
        destruct (va_sense (ds_vars (fst r) v)); auto; exfalso; apply N; auto.
    - intros c I. apply cons_of_in in I. apply I.
    - intros c I. apply in_app_or in I as [I|I]; [apply (Sc c I)|]. apply cons_of_in in I. apply I.
    - intros c I. apply cons_of_in in I. apply I.
  Qed.

  Lemma meets_admitted y : meets r y -> admitted vs (cons_of Less cs) (sel_cons r) (cons_of Equal cs) (cons_of Greater cs) (clip vs y).
  Proof.
    intros M. destruct (sr_ready _ _ _ Rd) as (_ & So & _). split; [exact (clip_legal vs y So)|]. split.
    - intros c I En. assert (Ic : In c cs) by (rewrite !in_app_iff, !cons_of_in in I; tauto).
      assert (Ag : forall v, In v (variables c) -> y v = clip vs y v).
      { intros v J. symmetry. apply clip_same. apply (sv_range _ _ (proj1 M)). destruct (ds_dep (fst r) v) eqn:D; [|reflexivity]. exfalso.
        assert (N : ds_dep (fst r) v <> None) by congruence. destruct (proj1 (co_dep _ (sr_coherent _ _ _ Rd) v) N) as [L Dv].
        exact (cl_cons _ (sr_clean _ _ _ Rd) v c L Dv Ic En J). }
      apply (satisfies_agree c y _ Ag). exact (sv_cons _ _ (proj1 M) c Ic En).
    - intros c I. destruct (Sc c I) as (_ & H & D). apply (satisfies_agree c y); [|exact (H y M)].
      intros v J. symmetry. apply clip_same, (sv_range _ _ (proj1 M)), D, J.
  Qed.

  Lemma relaxation_bound nrm red ext sq x b : (forall po envs late, rx_pdlp x = Some (po, envs, late) -> relaxable nrm red ext sq m r envs) ->
    pdlp_phase nrm red ext sq x m r = Ok (Some b) -> forall y, meets r y -> (if m then b <= e_eval obj y else e_eval obj y <= - b)%Q.
  Proof.
    intros Rx E y M. unfold pdlp_phase in E. destruct (rx_pdlp x) as [[[po envs] late]|]; [|discriminate]. specialize (Rx po envs late eq_refl).
    destruct Rx as (Pw & Nn & Sq & Wt & Mr & Ct). cbv zeta in E. fold vs obj cs in E.
    destruct (pdlp_run _ _ _ _ _ _ _ _ _ _ _ _ _ _ _ _) as [[| |k st [q|]]| |] eqn:Ep; try discriminate. cbn [bind] in E. injection E as <-.
    assert (Mo : moderate_range vs (lp_order (fst r))).
    { intros v I. apply Mr. apply in_seq. apply order_number in I. lia. }
    pose proof (LpProof6.dual_bound_stmt nrm red ext Pw Nn sq Sq po envs late m obj vs _ _ _ _ _ _ k st q relaxation_lists Wt Mo Ep (clip vs y) (meets_admitted y M)) as H.
    pose proof (range_clip m s r Rd Ob y (solves_range r y (proj1 M))) as Eq. fold vs obj in Eq, Ct. destruct m; lra.
  Qed.
End Relaxation.
