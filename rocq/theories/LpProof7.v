(** Proofs for C63: the reduced costs. *)
From Coq Require Import List ZArith QArith Qabs Bool Lia Lqa.
From Verif Require Import ConstraintModel PresolveModel SparseModel SparseSpec LpModel LpSpec LpProof LpProof2.
Import ListNotations.
Local Open Scope Q_scope.

Section R.
  Variable nrm : vec -> Q.
  Variables red ext : nat -> Q.
  Variable l : lp.
  Definition recorded (k : core) : Prop := exists ya, k_rc k = reduced l ya.
  Lemma step_rc trials : forall k lhs n t k', step_loop red ext trials l k lhs n t = Some k' -> k_rc k' = k_rc k.
  Proof.
    induction trials as [|trials IH]; intros k lhs n t k' E; [discriminate|]. cbn [step_loop] in E.
    destruct (trial l k lhs t) as [[x y] limit]. destruct (match limit with Some q => if Qlt_le_dec t q then true else false | None => true end); [inversion E; reflexivity|]. now apply IH in E.
  Qed.
  Lemma iterate_rc o e k k' : recorded k -> iterate nrm red ext o l e k = Some k' -> recorded k'.
  Proof.
    unfold iterate. intros R E. destruct (update_solution red ext (pe_trials e) l k) as [k1|] eqn:E1; [|discriminate]. apply step_rc in E1.
    set (k2 := update_averaged k1) in *. assert (R2 : recorded k2) by (destruct R as [ya R]; exists ya; unfold k2; cbn; congruence). clearbody k2.
    destruct (Nat.eqb (k_total k2 mod po_check o) 0 || Nat.eqb (k_total k2 mod po_log o) 0); destruct (restarts o e k2); inversion E; subst k'; try exact R2; exists (k_ya k2); reflexivity.
  Qed.
  Lemma loop_rc o envs : forall k k' s, recorded k -> loop nrm red ext o l envs k = Some (k', s) -> recorded k'.
  Proof.
    induction envs as [|e envs IH]; intros k k' s R E; [discriminate|]. cbn [loop] in E. destruct (stops o l (pe_time_over e) k); [inversion E; now subst|].
    destruct (iterate nrm red ext o l e k) as [k1|] eqn:E1; [|discriminate]. eapply IH; [|exact E]. eapply iterate_rc; eassumption.
  Qed.
  Lemma reduced_costs_stmt o envs k s : lp_wf l -> core_run nrm red ext o l envs = Ok (Some (k, s)) ->
    length (k_rc k) = lp_cols l /\
    forall j, (j < lp_cols l)%nat -> (nth j (lp_hi_open l) false = true -> 0 <= nth j (k_rc k) 0) /\ (nth j (lp_lo_open l) false = true -> nth j (k_rc k) 0 <= 0).
  Proof.
    intros W E. unfold core_run, core_start in E. destruct (core_setup nrm l) as [k0| |] eqn:E0; try discriminate. cbn [bind] in E. inversion E as [E']. clear E.
    assert (R : recorded k). { eapply loop_rc; [|exact E']. exists (k_ya k0). reflexivity. }
    destruct R as [ya R]. rewrite R. split; [now apply reduced_length|]. intros j Hj. change (nth j (reduced l ya) 0) with (at_ (reduced l ya) j). destruct (reduced_at l ya j W Hj) as (q & -> & _).
    unfold clip, qmax, qmin. destruct (nth j (lp_hi_open l) false), (nth j (lp_lo_open l) false); split; intros H; try discriminate H; repeat (destruct (Qlt_le_dec _ _)); lra.
  Qed.
End R.
