(** Proofs for C57, continued: the search. *)
From Coq Require Import List ZArith QArith Qabs Permutation Lia Lqa Bool.
From Verif Require Import ExprModel ExprSpec ExprProof ConstraintModel ConstraintSpec ConstraintProof EvalModel EvalSpec EvalSpec2
  EvalProof EvalProof2 EvalProof3 SolutionModel SolutionSpec SolutionProof ContainerModel TabuModel LoopModel LoopSpec LoopProof LoopProof2 LoopProof3
  LagrangeModel LagrangeSpec LagrangeProof.
Import ListNotations.
Local Open Scope Q_scope.

(** ** The values held by an updated model *)
Definition fresh (s : mstate) : Prop :=
  (forall c, In c (md_cons (ms_model s)) -> ct_value c = e_eval (ct_expr c) (ms_x s)) /\
  (md_defined (ms_model s) = true -> md_obj_value (ms_model s) = e_eval (md_obj (ms_model s)) (ms_x s)).
Lemma update_fresh s : fresh (ms_update s).
Proof.
  split; cbn [ms_update with_violative ms_model md_cons ms_x md_defined md_obj_value md_obj].
  - intros c Hc. apply in_map_iff in Hc as (c' & <- & _). reflexivity.
  - intros ->. reflexivity.
Qed.
Lemma export_fresh s : ms_deps s = [] -> fresh s -> fresh (ms_export s) /\ ms_x (ms_export s) = ms_x s.
Proof.
  intros D [F1 F2]. assert (X : ms_x (ms_export s) = ms_x s) by (cbn [ms_export ms_x]; now rewrite D). split; [|exact X]. split.
  - intros c Hc. rewrite X. cbn [ms_export ms_model md_cons] in Hc. rewrite D in Hc. cbn [fold_left] in Hc.
    apply in_map_iff in Hc as (c' & <- & Hc). destruct (ct_enabled c'); [now apply F1|reflexivity].
  - rewrite X. exact F2.
Qed.
Lemma compute_lag s dual : fresh s -> md_defined (ms_model s) = true -> compute_lagrangian (ms_model s) dual == lag (ms_model s) dual (ms_x s).
Proof.
  intros [F1 F2] D. unfold compute_lagrangian, lag. rewrite (F2 D).
  assert (H : forall ic, In ic (combine (seq 0 (length (md_cons (ms_model s)))) (md_cons (ms_model s))) -> ct_value (snd ic) = e_eval (ct_expr (snd ic)) (ms_x s)).
  { intros [i c] Hi. apply F1. exact (in_combine_r _ _ _ _ Hi). }
  revert H. generalize (combine (seq 0 (length (md_cons (ms_model s)))) (md_cons (ms_model s))) as ics. generalize (e_eval (md_obj (ms_model s)) (ms_x s)) as a.
  intros a ics. revert a. induction ics as [|ic ics IH]; intros a H; cbn [fold_left weigh]; [lra|].
  rewrite IH by (intros; apply H; now right). rewrite (H ic (or_introl eq_refl)). lra.
Qed.

(** ** Static parts *)
Lemma with_x_frame s x : same_frame (with_x s x) s.
Proof. repeat split. Qed.
Lemma offer_cases s h sc : exists s1 h1 st, l_offer s h sc = (s1, h1, st) /\ (s1 = s \/ s1 = ms_export s) /\ h1 = h_step true h (Offer (ms_x (ms_export s)) sc).
Proof.
  unfold l_offer. cbn [h_step]. destruct (try_update h (ms_x (ms_export s)) sc) as [h' st]. do 3 eexists. split; [reflexivity|].
  split; [destruct (0 <? st)%Z; auto|reflexivity].
Qed.
Lemma frame_lag s t dual x : same_frame s t -> lag (ms_model s) dual x == lag (ms_model t) dual x.
Proof.
  intros (F & _ & _ & (_ & _ & O & _)). unfold lag. rewrite O. apply Qplus_comp; [reflexivity|].
  revert F. generalize 0%nat as n. generalize (md_cons (ms_model t)) as l'. generalize (md_cons (ms_model s)) as l.
  induction l as [|c l IH]; intros [|c' l'] n H; try discriminate; [reflexivity|].
  assert (H0 : frame c = frame c') by (cbn [map] in H; injection H; intros; unfold frame; congruence).
  assert (H1 : map frame l = map frame l') by (cbn [map] in H; injection H; intros; assumption).
  cbn [length seq combine weigh fst snd]. rewrite (IH l' (S n) H1). assert (E : ct_expr c = ct_expr c') by (unfold frame in H0; congruence). rewrite E. reflexivity.
Qed.
Lemma frame_problem vars s t : same_frame s t -> dual_problem vars t -> dual_problem vars s.
Proof.
  intros F ((N & Ho & Hc) & D & Dp & W). pose proof F as (_ & _ & _ & (_ & _ & E2 & E1 & _ & _ & E5)).
  split; [|split; [congruence|split; [congruence|now rewrite E2]]]. split; [exact N|]. split; [rewrite E2; exact Ho|].
  intros c v H1 H2. destruct (frame_in s t F c H1) as (c' & H3 & H4). apply (Hc c'); [exact H3|]. assert (E : ct_expr c = ct_expr c') by (unfold frame in H4; congruence).
  now rewrite <- E.
Qed.
Lemma frame_satisfies s t y : same_frame s t -> satisfies_all (ms_model t) y -> satisfies_all (ms_model s) y.
Proof.
  intros F H c Hc. destruct (frame_in s t F c Hc) as (c' & H3 & H4).
  assert (E : ct_expr c = ct_expr c' /\ ct_sense c = ct_sense c') by (unfold frame in H4; split; congruence). destruct E as [-> ->]. now apply H.
Qed.
Lemma frame_dual s t dual : same_frame s t -> dual_ok (md_cons (ms_model t)) dual -> dual_ok (md_cons (ms_model s)) dual.
Proof.
  intros (F & _) H i c E. assert (K : nth_error (map frame (md_cons (ms_model t))) i = Some (frame c)) by (rewrite <- F; apply map_nth_error; exact E).
  destruct (nth_error (md_cons (ms_model t)) i) as [c'|] eqn:E'.
  - rewrite (map_nth_error frame _ _ E') in K. assert (frame c' = frame c) by congruence.
    assert (Es : ct_sense c = ct_sense c') by (unfold frame in *; congruence). rewrite Es. now apply (H i c').
  - apply nth_error_None in E'. assert (K' : nth_error (map frame (md_cons (ms_model t))) i = None) by (apply nth_error_None; now rewrite map_length). congruence.
Qed.

(** ** The bound *)
Definition binv (vars : list nat) (lo hi : nat -> Z) (s0 : mstate) (l : gloop) : Prop :=
  same_frame (gl_ms l) s0 /\ (forall v, ms_fixed s0 v = true -> ms_x (gl_ms l) v = ms_x s0 v) /\
  dual_ok (md_cons (ms_model s0)) (gl_dual l) /\ dual_ok (md_cons (ms_model s0)) (gl_best_dual l) /\
  (forall q, gl_lagrangian l = Some q -> below_all vars lo hi s0 q) /\ (forall q, gl_best l = Some q -> below_all vars lo hi s0 q).

Lemma setup_binv o vars lo hi s0 h0 n : dual_problem vars s0 -> binv vars lo hi s0 (g_setup o n s0 h0).
Proof.
  intros P. unfold g_setup. destruct (offer_cases (ms_update s0) (reset_local h0) (evaluate (ms_model (ms_update s0)) (ms_x (ms_update s0)) [])) as (s1 & h1 & st & -> & Hs & _).
  assert (F : same_frame s1 s0) by (destruct Hs as [->| ->]; [apply update_frame|eapply frame_trans; [apply export_frame|apply update_frame]]).
  assert (X : ms_x s1 = ms_x s0).
  { assert (Xu : ms_x (ms_update s0) = ms_x s0) by (cbn [ms_update with_violative ms_x]; destruct P as (_ & _ & -> & _); reflexivity).
    destruct Hs as [->| ->]; [exact Xu|]. rewrite (proj2 (export_fresh (ms_update s0) (proj1 (proj2 (proj2 P))) (update_fresh s0))). exact Xu. }
  assert (Z0 : dual_ok (md_cons (ms_model s0)) (zero_dual (md_cons (ms_model s1)))) by (apply (frame_dual s0 s1); [now apply frame_sym|apply zero_dual_ok]).
  unfold binv. cbn [gl_ms gl_dual gl_best_dual gl_lagrangian gl_best]. split; [exact F|]. split; [intros v _; now rewrite X|].
  split; [exact Z0|]. split; [exact Z0|]. split; discriminate.
Qed.
Lemma iterate_binv o vars lo hi s0 t l : dual_problem vars s0 -> binv vars lo hi s0 l -> binv vars lo hi s0 (fst (g_iterate o true vars lo hi t l)).
Proof.
  intros P B. unfold g_iterate. destruct t; [exact B|]. destruct (go_iteration_max o <=? gl_iteration l)%Z; [exact B|].
  destruct (match sl_obj (ho_feasible (gl_holder l)) with Some q => Qle_bool q (go_target o) | None => false end); [exact B|].
  set (dual := update_dual (md_cons (ms_model (gl_ms l))) (gl_step l) (gl_dual l)). set (x := primal_step true vars lo hi (gl_ms l) dual).
  set (s := ms_update (with_x (gl_ms l) x)). set (sc := evaluate (ms_model s) (ms_x s) []).
  destruct (offer_cases s (gl_holder l) sc) as (s1 & h1 & st & -> & Hs & _).
  destruct (fq_push (gl_queue l) (compute_lagrangian (ms_model s1) dual * dsign true)) as [q|]; [|exact B].
  destruct B as (F & Fx & D & Db & L1 & L2). pose proof (frame_problem vars (gl_ms l) s0 F P) as Pl.
  assert (Fs : same_frame s s0) by (eapply frame_trans; [apply update_frame|]; eapply frame_trans; [apply with_x_frame|exact F]).
  assert (Ds : ms_deps s = []) by (unfold s; cbn [ms_update with_violative ms_deps with_x]; apply Pl).
  assert (Xs : ms_x s = x) by (unfold s; cbn [ms_update with_violative ms_x with_x ms_deps]; destruct Pl as (_ & _ & -> & _); reflexivity).
  assert (Fr : fresh s) by apply update_fresh.
  assert (F1 : same_frame s1 s0 /\ fresh s1 /\ ms_x s1 = x /\ ms_deps s1 = []).
  { destruct Hs as [->| ->]; [auto|]. destruct (export_fresh s Ds Fr) as [E1 E2]. split; [eapply frame_trans; [apply export_frame|exact Fs]|].
    split; [exact E1|]. split; [congruence|exact Ds]. }
  destruct F1 as (F1 & Fr1 & X1 & D1).
  assert (Dn : dual_ok (md_cons (ms_model s0)) dual) by (apply (frame_dual s0 (gl_ms l)); [now apply frame_sym|apply update_dual_ok]).
  assert (Bd : below_all vars lo hi s0 (compute_lagrangian (ms_model s1) dual * dsign true)).
  { intros y A S. cbn [dsign]. rewrite (compute_lag s1 dual Fr1); [|apply (frame_problem vars s1 s0 F1 P)]. rewrite X1, (frame_lag s1 s0 _ _ F1).
    assert (M := primal_minimizes vars lo hi s0 (gl_ms l) dual y Pl). rewrite !(frame_lag (gl_ms l) s0 _ _ F) in M.
    pose proof (lag_below (ms_model s0) dual y Dn S) as U.
    assert (lag (ms_model s0) dual x <= lag (ms_model s0) dual y); [|lra]. apply M; [|exact Fx|exact A].
    destruct F as (_ & _ & _ & (_ & _ & _ & _ & E & _)). exact E. }
  assert (Ex : forall v, ms_fixed s0 v = true -> x v = ms_x s0 v).
  { intros v Hv. unfold x, primal_step. destruct F as (_ & _ & _ & (_ & _ & _ & _ & E & _)). rewrite E, Hv, andb_false_r. now apply Fx. }
  assert (F2 : same_frame (if go_store o && sc_feasible sc then ms_export s1 else s1) s0).
  { destruct (go_store o && sc_feasible sc); [eapply frame_trans; [apply export_frame|exact F1]|exact F1]. }
  assert (X2 : ms_x (if go_store o && sc_feasible sc then ms_export s1 else s1) = x).
  { destruct (go_store o && sc_feasible sc); [|exact X1]. now rewrite (proj2 (export_fresh s1 D1 Fr1)). }
  unfold binv. cbn [fst gl_ms gl_dual gl_best_dual gl_lagrangian gl_best].
  split; [exact F2|]. split; [intros v Hv; rewrite X2; now apply Ex|]. split; [exact Dn|].
  split; [destruct (exceeds _ (gl_best l)); assumption|]. split.
  - intros b E. assert (b = compute_lagrangian (ms_model s1) dual * dsign true) by congruence. subst b. exact Bd.
  - intros b. destruct (exceeds _ (gl_best l)); [|apply L2]. intros E. assert (b = compute_lagrangian (ms_model s1) dual * dsign true) by congruence. subst b. exact Bd.
Qed.
Lemma run_binv o vars lo hi s0 clock : dual_problem vars s0 -> forall l, binv vars lo hi s0 l -> binv vars lo hi s0 (fst (g_run o true vars lo hi clock l)).
Proof.
  intros P. induction clock as [|t tl IH]; intros l B; cbn [g_run]; [exact B|]. pose proof (iterate_binv o vars lo hi s0 t l P B) as B'.
  destruct (g_iterate o true vars lo hi t l) as [l' [st|]]; cbn [fst] in *; [exact B'|now apply IH].
Qed.
Lemma search_bound o vars lo hi s0 h0 clock : dual_problem vars s0 ->
  let l := fst (g_search o true vars lo hi s0 h0 clock) in
  (forall q, gl_lagrangian l = Some q -> below_all vars lo hi s0 q) /\ (forall q, gl_best l = Some q -> below_all vars lo hi s0 q).
Proof.
  intros P. destruct (run_binv o vars lo hi s0 clock P _ (setup_binv o vars lo hi s0 h0 (length vars) P)) as (_ & _ & _ & _ & B). exact B.
Qed.
(** The holder's dual bound is not touched by the search. *)
Lemma try_dual (h : holder (nat -> Z)) y sc : ho_dual (fst (try_update h y sc)) = ho_dual h.
Proof.
  unfold try_update. destruct (try_slot _ _ _ (ho_local h)) as [a1 a2], (try_slot _ _ _ (ho_global h)) as [b1 b2].
  destruct (if sc_feasible sc then _ else _) as [c1 c2]. reflexivity.
Qed.
Lemma iterate_dual o minimize vars lo hi t l : ho_dual (gl_holder (fst (g_iterate o minimize vars lo hi t l))) = ho_dual (gl_holder l).
Proof.
  unfold g_iterate. destruct t; [reflexivity|]. destruct (go_iteration_max o <=? gl_iteration l)%Z; [reflexivity|].
  destruct (match sl_obj (ho_feasible (gl_holder l)) with Some q => Qle_bool q (go_target o) | None => false end); [reflexivity|].
  set (dual := update_dual _ _ _). set (s := ms_update _). set (sc := evaluate _ _ _).
  destruct (offer_cases s (gl_holder l) sc) as (s1 & h1 & st & -> & _ & ->). destruct (fq_push _ _); [|reflexivity]. cbn [fst gl_holder h_step]. apply try_dual.
Qed.
Lemma run_dual o minimize vars lo hi clock : forall l, ho_dual (gl_holder (fst (g_run o minimize vars lo hi clock l))) = ho_dual (gl_holder l).
Proof.
  induction clock as [|t tl IH]; intros l; cbn [g_run]; [reflexivity|]. pose proof (iterate_dual o minimize vars lo hi t l) as B.
  destruct (g_iterate o minimize vars lo hi t l) as [l' [st|]]; cbn [fst] in *; [exact B|]. now rewrite IH.
Qed.
Lemma search_dual o minimize vars lo hi s0 h0 clock : ho_dual (gl_holder (fst (g_search o minimize vars lo hi s0 h0 clock))) = ho_dual h0.
Proof.
  unfold g_search. rewrite run_dual. unfold g_setup.
  destruct (offer_cases (ms_update s0) (reset_local h0) (evaluate (ms_model (ms_update s0)) (ms_x (ms_update s0)) [])) as (s1 & h1 & st & -> & _ & ->).
  cbn [gl_holder h_step]. rewrite try_dual. reflexivity.
Qed.
Lemma control_bound o applicable late vars lo hi s0 h0 clock : (applicable = true -> dual_problem vars s0) -> below_all vars lo hi s0 (ho_dual h0) ->
  let h := g_control o true applicable late vars lo hi s0 h0 clock in
  ho_dual h0 <= ho_dual h /\ below_all vars lo hi s0 (ho_dual h).
Proof.
  intros P B. cbv zeta. unfold g_control. destruct applicable; cbn [negb orb]; [|split; [lra|exact B]].
  destruct (late || _); [split; [lra|exact B]|]. destruct (search_bound o vars lo hi s0 h0 clock (P eq_refl)) as [S _]. cbv zeta in S.
  pose proof (search_dual o true vars lo hi s0 h0 clock) as E. unfold g_dual_bound.
  destruct (gl_lagrangian (fst (g_search o true vars lo hi s0 h0 clock))) as [q|] eqn:Eq; [|rewrite E; split; [lra|exact B]].
  specialize (S q eq_refl). unfold offer_dual. cbn [ho_dual]. rewrite E. destruct (Qlt_le_dec (ho_dual h0) q); split; try assumption; lra.
Qed.
