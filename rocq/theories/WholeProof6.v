(** Proofs for C74 and C75: the dual bound and the penalty coefficient. *)
From Coq Require Import List NArith ZArith QArith Qabs Bool Arith Lia Lqa.
From Verif Require Import ExprModel ExprSpec ExprProof ConstraintModel ConstraintSpec VariableModel TypeModel TypeSpec PresolveModel PresolveSpec
  DuplicateModel DependentModel DependentSpec SelectionModel SelectionSpec PrepareModel PrepareSpec EvalModel EvalSpec EvalSpec2 TabuModel LoopSpec LocalSpec ScreenModel WholeModel WholeSpec.
From Verif Require DependentProof5 PrepareProof6 WholeProof4.
From Verif Require Import EvalProof3 ScreenProof2 PrepareProof PrepareProof5 WholeProof WholeProof2.
Import ListNotations.
Local Open Scope nat_scope.

Section Bounds.
  Context (o : search_options) (m : bool) (s : dstate) (r : dstate * list sel).
  Hypothesis Rd : search_ready m s r.
  Hypothesis Ob : forall v, In v (keys (ds_obj (fst r))) -> v < ds_number (fst r).
  Let vs := ds_vars (fst r).
  Let obj := ds_obj (fst r).

  (** On the variables of the objective a solution within the bounds is what it is after clipping. *)
  Lemma range_clip x : in_range r x -> (e_eval obj (clip vs x) == e_eval obj x)%Q.
  Proof.
    intros R. apply eval_agree. intros v J. apply clip_same. apply R; [exact (Ob v J)|].
    destruct (ds_dep (fst r) v) eqn:D; [|reflexivity]. exfalso. assert (N : ds_dep (fst r) v <> None) by congruence.
    destruct (proj1 (co_dep _ (sr_coherent _ _ _ Rd) v) N) as [L Dv]. exact (cl_obj _ (sr_clean _ _ _ Rd) v L Dv J).
  Qed.
  Lemma clip_admissible x : ExprSpec.admissible (vi_of vs) (clip vs x).
  Proof.
    destruct (sr_ready _ _ _ Rd) as (_ & So & _). pose proof (clip_legal vs x So) as L. intros v. destruct (L v) as [A B]. unfold vi_of. cbn [vi_fixed vi_value vi_lower vi_upper]. 
    destruct (va_fixed (vs v)); auto.
  Qed.
  Lemma range_bounds x : in_range r x -> (e_lower obj (vi_of vs) <= e_eval obj x <= e_upper obj (vi_of vs))%Q.
  Proof.
    intros R. rewrite <- (range_clip x R). split; [apply lower_bound_valid|apply upper_bound_valid]; apply clip_admissible.
  Qed.
  Lemma solves_range x : solves (fst r) x -> in_range r x.
  Proof. intros S v _ D. exact (sv_range _ _ S v D). Qed.

  Lemma dual_bound x : solves s x -> as_good m (naive_dual_bound m obj vs) (e_eval (ds_obj s) x).
  Proof.
    intros S. destruct (proj2 (sr_keeps _ _ _ Rd) x S) as (y & My & G). destruct (proj1 (sr_keeps _ _ _ Rd) y My) as [_ E].
    pose proof (range_bounds y (solves_range y (proj1 My))) as B. destruct m; unfold as_good in *; [rewrite naive_lower|rewrite naive_upper]; fold obj in E; lra.
  Qed.

  (** ** The penalty coefficient *)
  Let md := ms_model (search_state o m r).
  Lemma penalty_cases : (md_gpen md == wo_initial o \/ md_gpen md == e_upper obj (vi_of vs) - e_lower obj (vi_of vs) + 1 /\ md_gpen md <= wo_initial o)%Q.
  Proof.
    unfold md, search_state. cbn [ms_model md_gpen]. unfold global_penalty. destruct (_ && _); [|left; reflexivity].
    unfold shrunk_penalty, qmin. fold obj vs. destruct (Qlt_le_dec _ _); [right|left]; [split; lra|]. reflexivity.
  Qed.
  Hypothesis Iv : forall c, In c (ds_cons (fst r)) -> ct_enabled c = true -> exists z, (ex_const (ct_expr c) == inject_Z z)%Q.
  Lemma eval_integer c x : In c (ds_cons (fst r)) -> ct_enabled c = true -> exists z, (e_eval (ct_expr c) x == inject_Z z)%Q.
  Proof.
    intros I En. apply DependentProof5.whole_eval. split; [exact (Iv c I En)|]. destruct (sr_tidy _ _ _ Rd c I En) as (_ & T & _). exact T.
  Qed.
  Lemma viol_one c x : In c (ds_cons (fst r)) -> ct_enabled c = true -> ~ holds (e_eval (ct_expr c) x) (ct_sense c) 0 -> (1 <= viol c x)%Q.
  Proof.
    intros I En H. destruct (eval_integer c x I En) as [z Z]. unfold viol, above, below. unfold holds in H.
    assert (P : forall q : Q, (q == inject_Z z)%Q -> (0 < q)%Q -> (1 <= q)%Q).
    { intros q Q L. rewrite Q in *. change 1%Q with (inject_Z 1). rewrite <- Zle_Qle. change 0%Q with (inject_Z 0) in L. rewrite <- Zlt_Qlt in L. lia. }
    assert (N : forall q : Q, (q == inject_Z z)%Q -> (q < 0)%Q -> (1 <= - q)%Q).
    { intros q Q L. rewrite Q in *. rewrite <- inject_Z_opp. change 1%Q with (inject_Z 1). rewrite <- Zle_Qle. change 0%Q with (inject_Z 0) in L. rewrite <- Zlt_Qlt in L. lia. }
    specialize (P _ Z). specialize (N _ Z).
    destruct (ct_sense c); destruct (Qlt_le_dec 0 (e_eval (ct_expr c) x)); destruct (Qlt_le_dec (e_eval (ct_expr c) x) 0); try lra; exfalso; apply H; try lra.
    all: apply Qle_antisym; assumption.
  Qed.
  Lemma sum_in l c x : In c l -> ct_enabled c = true -> (viol c x <= sum_enabled (fun c => viol c x) l)%Q.
  Proof.
    assert (NN : forall l, (0 <= sum_enabled (fun c => viol c x) l)%Q).
    { induction l0 as [|d l0 IH]; cbn [sum_enabled]; [lra|]. pose proof (viol_nonneg d x). destruct (ct_enabled d); lra. }
    induction l as [|d l IH]; intros I En; [destruct I|]. cbn [sum_enabled]. destruct I as [->|I].
    - rewrite En. specialize (NN l). lra.
    - specialize (IH I En). pose proof (viol_nonneg d x). destruct (ct_enabled d); lra.
  Qed.
  Lemma sum_zero l x : (forall c, In c l -> ct_enabled c = true -> holds (e_eval (ct_expr c) x) (ct_sense c) 0) -> (sum_enabled (fun c => viol c x) l == 0)%Q.
  Proof.
    induction l as [|d l IH]; intros H; cbn [sum_enabled]; [reflexivity|]. rewrite IH by (intros c I; apply H; now right).
    destruct (ct_enabled d) eqn:En; [|reflexivity]. specialize (H d (or_introl eq_refl) En). unfold viol, above, below. unfold holds in H.
    destruct (ct_sense d); destruct (Qlt_le_dec 0 (e_eval (ct_expr d) x)); destruct (Qlt_le_dec (e_eval (ct_expr d) x) 0); lra.
  Qed.
  Lemma decide_satisfies (cs : list constr) x : (forall c, In c cs -> ct_enabled c = true -> holds (e_eval (ct_expr c) x) (ct_sense c) 0) \/
    exists c, In c cs /\ ct_enabled c = true /\ ~ holds (e_eval (ct_expr c) x) (ct_sense c) 0.
  Proof.
    induction cs as [|d cs IH]; [left; intros c []|]. destruct IH as [IH|(c & I & A & B)]; [|right; exists c; split; [now right|auto]].
    destruct (ct_enabled d) eqn:En; [|left; intros c [<-|I] E; [congruence|exact (IH c I E)]].
    assert (D : holds (e_eval (ct_expr d) x) (ct_sense d) 0 \/ ~ holds (e_eval (ct_expr d) x) (ct_sense d) 0).
    { unfold holds. destruct (ct_sense d).
      - destruct (Qlt_le_dec 0 (e_eval (ct_expr d) x)); [right; lra|left; assumption].
      - destruct (Qeq_dec (e_eval (ct_expr d) x) 0); [left|right]; assumption.
      - destruct (Qlt_le_dec (e_eval (ct_expr d) x) 0); [right; lra|left; assumption]. }
    destruct D as [D|D]; [left|right; exists d; split; [now left|auto]]. intros c [<-|I] E; [exact D|exact (IH c I E)].
  Qed.
  Lemma exact_penalty x y : (e_upper obj (vi_of vs) - e_lower obj (vi_of vs) + 1 <= wo_initial o)%Q -> in_range r x -> in_range r y ->
    ~ LoopSpec.satisfies md x -> LoopSpec.satisfies md y -> (augmented md y + 1 <= augmented md x)%Q.
  Proof.
    intros In Rx Ry Nx Sy. pose proof (range_bounds x Rx) as Bx. pose proof (range_bounds y Ry) as By.
    assert (G : (e_upper obj (vi_of vs) - e_lower obj (vi_of vs) + 1 <= md_gpen md)%Q) by (destruct penalty_cases as [E|[E _]]; lra).
    assert (Vy : (violation md y == 0)%Q) by (apply sum_zero; exact Sy).
    assert (Vx : (1 <= violation md x)%Q).
    { destruct (decide_satisfies (md_cons md) x) as [H|(c & I & En & H)]; [destruct (Nx H)|].
      pose proof (sum_in _ c x I En) as L. unfold md, search_state in I. cbn [ms_model md_cons] in I. apply in_reset in I as (c0 & I & ->).
      assert (V : (1 <= viol (c_reset_penalty c0 (global_penalty o (fst r))) x)%Q) by (apply (viol_one c0 x I En H)).
      unfold violation. lra. }
    assert (Pv : (md_gpen md <= violation md x * md_gpen md)%Q).
    { setoid_replace (md_gpen md) with (1 * md_gpen md)%Q at 1 by ring. apply Qmult_le_compat_r; lra. }
    unfold augmented, value. unfold md at 1 2 3 6 7 8. unfold search_state. cbn [ms_model md_defined md_sign md_obj]. fold obj.
    assert (Zy : (violation md y * md_gpen md == 0)%Q) by (rewrite Vy; ring). rewrite Zy. destruct (wo_defined o); [|lra]. destruct m; lra.
  Qed.
End Bounds.

(** ** The prepared problem of the example *)
Definition p_point (z : Z) (v : nat) : Z := match v with 2 => 1%Z | 6 => z | 5 => (3 - z)%Z | _ => 0%Z end.
Lemma p_in_range z : (0 <= z <= 3)%Z -> in_range PrepareProof6.p_result (p_point z).
Proof.
  intros H v L D. replace (ds_number (fst PrepareProof6.p_result)) with 7 in L by (vm_compute; reflexivity).
  do 7 (destruct v as [|v]; [clear L; vm_compute in D; try discriminate D; match goal with |- within ?a ?x => let b := eval vm_compute in a in change (within b x) end; cbn [within va_fixed va_lower va_upper va_value p_point]; lia|]). lia.
Qed.
Definition holds_b (q : Q) (k : csense) : bool := match k with Less => Qle_bool q 0 | Equal => Qeq_bool q 0 | Greater => Qle_bool 0 q end.
Lemma holds_b_iff q k : holds_b q k = true <-> holds q k 0.
Proof. destruct k; cbn [holds_b holds]; [apply Qle_bool_iff|apply Qeq_bool_iff|apply Qle_bool_iff]. Qed.
Definition satisfies_b (md : model) (x : nat -> Z) : bool := forallb (fun c => negb (ct_enabled c) || holds_b (e_eval (ct_expr c) x) (ct_sense c)) (md_cons md).
Lemma satisfies_b_iff md x : satisfies_b md x = true <-> LoopSpec.satisfies md x.
Proof.
  unfold satisfies_b, LoopSpec.satisfies. rewrite forallb_forall. split; intros H c I.
  - intros En. specialize (H c I). rewrite En in H. apply holds_b_iff, H.
  - destruct (ct_enabled c) eqn:En; [|reflexivity]. apply holds_b_iff, H; assumption.
Qed.
(** x6 = 1 is feasible, x6 = 2 is not. *)
Lemma p_points (o : search_options) : wo_initial o = 1000%Q \/ wo_initial o = (1 # 2)%Q -> LoopSpec.satisfies (ms_model (search_state o true PrepareProof6.p_result)) (p_point 1) /\
  ~ LoopSpec.satisfies (ms_model (search_state o true PrepareProof6.p_result)) (p_point 2).
Proof.
  destruct o as [q sh de us]. cbn [wo_initial]. intros [-> | ->]; (split; [apply satisfies_b_iff|intros H; apply satisfies_b_iff in H; revert H]); destruct sh, de, us; vm_compute; congruence.
Qed.
Definition p_small : search_options := mkWo (1 # 2) true true false.
Lemma p_small_wrong : (augmented (ms_model (search_state p_small true PrepareProof6.p_result)) (p_point 2) < augmented (ms_model (search_state p_small true PrepareProof6.p_result)) (p_point 1))%Q.
Proof. vm_compute. reflexivity. Qed.
Lemma p_range_small : (e_upper (ds_obj (fst PrepareProof6.p_result)) (vi_of (ds_vars (fst PrepareProof6.p_result))) -
  e_lower (ds_obj (fst PrepareProof6.p_result)) (vi_of (ds_vars (fst PrepareProof6.p_result))) + 1 == 14)%Q.
Proof. vm_compute. reflexivity. Qed.
Lemma p_one_in : in_range PrepareProof6.p_result (p_point 1). Proof. apply p_in_range. lia. Qed.
Lemma p_two_in : in_range PrepareProof6.p_result (p_point 2). Proof. apply p_in_range. lia. Qed.

(** ** No shrinking *)
Lemma unshrunk o mi r : wo_shrink o = false \/ (exists c, In c (ds_cons (fst r)) /\ ct_is_integer c = false) ->
  md_gpen (ms_model (search_state o mi r)) = wo_initial o.
Proof.
  intros H. cbn [search_state ms_model md_gpen]. unfold global_penalty. destruct H as [->|(c & I & E)]; [now rewrite andb_false_r|].
  destruct (all_integer (ds_cons (fst r))) eqn:A; [|reflexivity]. unfold all_integer in A. rewrite forallb_forall in A. rewrite (A c I) in E. discriminate.
Qed.
Lemma uniform_penalties o mi r c : In c (md_cons (ms_model (search_state o mi r))) ->
  ct_pen_less c = md_gpen (ms_model (search_state o mi r)) /\ ct_pen_greater c = md_gpen (ms_model (search_state o mi r)).
Proof. cbn [search_state ms_model md_cons md_gpen]. intros I. apply in_map_iff in I as (d & <- & _). split; reflexivity. Qed.
