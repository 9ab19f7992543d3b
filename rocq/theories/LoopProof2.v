(** Proofs for C52, continued: the loop. *)
From Coq Require Import List ZArith QArith Qabs Permutation Lia Lqa Bool.
From Verif Require Import ExprModel ExprSpec ExprProof ConstraintModel ConstraintSpec ConstraintProof EvalModel EvalSpec EvalSpec2
  EvalProof EvalProof2 EvalProof3 SolutionModel SolutionSpec SolutionProof TabuModel TabuSpec TabuProof LoopModel LoopSpec LoopProof.
Import ListNotations.
Local Open Scope Q_scope.

Lemma sum_ext f g l : (forall c, In c l -> ct_enabled c = true -> f c == g c) -> sum_enabled f l == sum_enabled g l.
Proof.
  induction l as [|c l IH]; intros H; cbn [sum_enabled]; [reflexivity|]. rewrite IH by (intros; apply H; [now right|assumption]).
  destruct (ct_enabled c) eqn:E; [|reflexivity]. now rewrite (H c (or_introl eq_refl) E).
Qed.
Lemma viol_value c x y : e_eval (ct_expr c) x == e_eval (ct_expr c) y -> viol c x == viol c y.
Proof. intros E. unfold viol. destruct (ct_sense c); rewrite ?above_qmax, ?below_qmax, E; reflexivity. Qed.
Lemma penalty_value c x y : e_eval (ct_expr c) x == e_eval (ct_expr c) y -> penalty c x == penalty c y.
Proof. intros E. unfold penalty. destruct (ct_sense c); rewrite ?above_qmax, ?below_qmax, E; reflexivity. Qed.

Lemma true_export is01 s0 s sc : loop_start is01 s0 -> same_frame s s0 ->
  true_score (ms_model s0) (ms_x s) sc -> true_score (ms_model s0) (ms_x (ms_export s)) sc.
Proof.
  intros (_ & D & _) F (x & H). exists x. unfold scores in *. cbv zeta in *.
  assert (Ec : forall c, In c (md_cons (ms_model s0)) -> ct_enabled c = true -> e_eval (ct_expr c) (ms_x (ms_export s)) == e_eval (ct_expr c) (ms_x s)).
  { intros c Hc He. apply (eval_export s0 s _ F). intros d Hd. exact (proj1 (D d Hd) c Hc He). }
  assert (Eo : e_eval (md_obj (ms_model s0)) (ms_x (ms_export s)) == e_eval (md_obj (ms_model s0)) (ms_x s)).
  { apply (eval_export s0 s _ F). intros d Hd. exact (proj2 (D d Hd)). }
  assert (V : sum_enabled (fun c => viol c (ms_x (ms_export s))) (md_cons (ms_model s0)) == sum_enabled (fun c => viol c (ms_x s)) (md_cons (ms_model s0))).
  { apply sum_ext. intros c Hc He. apply viol_value. now apply Ec. }
  assert (P : sum_enabled (fun c => penalty c (ms_x (ms_export s))) (md_cons (ms_model s0)) == sum_enabled (fun c => penalty c (ms_x s)) (md_cons (ms_model s0))).
  { apply sum_ext. intros c Hc He. apply penalty_value. now apply Ec. }
  destruct H as (H1 & H2 & H3 & H4 & H5 & H6 & H7 & H8 & H9). destruct (md_defined (ms_model s0)); rewrite ?Eo, V, P; tauto.
Qed.

(** Integral constraints: a violation below 1 is none. *)
Lemma viol_int is01 s0 c x : loop_start is01 s0 -> In c (md_cons (ms_model s0)) -> ct_enabled c = true -> exists z, viol c x == inject_Z z.
Proof.
  intros (_ & _ & _ & C & _) Hc He. destruct (C c Hc He) as (C1 & (k & C2) & _).
  destruct (lin_int (ex_sens (ct_expr c)) x) as (z & Hz); [intros v a Hv; apply (C1 v a Hv)|].
  assert (V : e_eval (ct_expr c) x == inject_Z (z + k)) by (rewrite eval_lin, Hz, C2, inject_Z_plus; lra).
  assert (A : exists a, above c x == inject_Z a) by (unfold above; destruct (Qlt_le_dec 0 (e_eval (ct_expr c) x)); [exists (z + k)%Z; exact V|exists 0%Z; reflexivity]).
  assert (B : exists a, below c x == inject_Z a) by (unfold below; destruct (Qlt_le_dec (e_eval (ct_expr c) x) 0); [exists (- (z + k))%Z; rewrite V, inject_Z_opp; reflexivity|exists 0%Z; reflexivity]).
  destruct A as (a & A), B as (b & B). unfold viol. destruct (ct_sense c); [exists a; exact A|exists (a + b)%Z; rewrite A, B, inject_Z_plus; reflexivity|exists b; exact B].
Qed.
Lemma viol_holds c x : viol c x == 0 -> holds (e_eval (ct_expr c) x) (ct_sense c) 0.
Proof.
  unfold viol, holds, above, below. destruct (ct_sense c).
  - destruct (Qlt_le_dec 0 (e_eval (ct_expr c) x)) as [L|L]; lra.
  - destruct (Qlt_le_dec 0 (e_eval (ct_expr c) x)) as [L|L], (Qlt_le_dec (e_eval (ct_expr c) x) 0) as [L'|L']; lra.
  - destruct (Qlt_le_dec (e_eval (ct_expr c) x) 0) as [L|L]; lra.
Qed.
Lemma holds_viol c x : holds (e_eval (ct_expr c) x) (ct_sense c) 0 -> viol c x == 0.
Proof.
  unfold viol, holds, above, below. destruct (ct_sense c).
  - destruct (Qlt_le_dec 0 (e_eval (ct_expr c) x)) as [L|L]; lra.
  - destruct (Qlt_le_dec 0 (e_eval (ct_expr c) x)) as [L|L], (Qlt_le_dec (e_eval (ct_expr c) x) 0) as [L'|L']; lra.
  - destruct (Qlt_le_dec (e_eval (ct_expr c) x) 0) as [L|L]; lra.
Qed.
Lemma satisfies_iff is01 s0 x : loop_start is01 s0 ->
  (satisfies (ms_model s0) x <-> forall c, In c (md_cons (ms_model s0)) -> ct_enabled c = true -> viol c x < EPS).
Proof.
  intros L. split.
  - intros H c Hc He. rewrite (holds_viol c x (H c Hc He)). reflexivity.
  - intros H c Hc He. apply viol_holds. destruct (viol_int is01 s0 c x L Hc He) as (z & Hz).
    apply (integral_small _ z Hz); [apply viol_nonneg|]. specialize (H c Hc He). assert (EPS < 1) by reflexivity. lra.
Qed.
Lemma true_feasible is01 s0 y sc : loop_start is01 s0 -> true_score (ms_model s0) y sc -> (sc_feasible sc = true <-> satisfies (ms_model s0) y).
Proof.
  intros L (x & _ & _ & _ & _ & _ & _ & _ & F & _). rewrite F, (satisfies_iff is01 s0 y L).
  apply sum_enabled_small. intros c Hc He. exact (viol_int is01 s0 c y L Hc He).
Qed.
Lemma minv_feasible is01 s0 s : loop_start is01 s0 -> minv is01 s0 s -> (ms_feasible s = true <-> satisfies (ms_model s0) (ms_x s)).
Proof.
  intros L (G & F & _). rewrite (good_feasible s G), (satisfies_iff is01 s0 _ L). split.
  - intros H c Hc He. destruct (frame_in _ _ (frame_sym _ _ F) c Hc) as (c' & Hc' & Hf). rewrite (viol_frame _ _ _ Hf). apply H; [exact Hc'|].
    assert (E : ct_enabled c = ct_enabled c') by (unfold frame in Hf; congruence). congruence.
  - intros H c Hc He. destruct (frame_in _ _ F c Hc) as (c' & Hc' & Hf). rewrite (viol_frame _ _ _ Hf). apply H; [exact Hc'|].
    assert (E : ct_enabled c = ct_enabled c') by (unfold frame in Hf; congruence). congruence.
Qed.

(** ** The invariant of the loop *)
Definition linv (is01 : nat -> bool) (o : loptions) (s0 : mstate) (h0 : holder (nat -> Z)) (l : loop) : Prop :=
  minv is01 s0 (lp_ms l) /\ true_score (ms_model s0) (ms_x (lp_ms l)) (lp_score l) /\
  (forall p, In p (lp_visited l) -> true_score (ms_model s0) (fst p) (snd p)) /\
  (forall y, In y (lp_feasible l) -> satisfies (ms_model s0) y) /\
  lp_holder l = fold_left (h_step true) (offers (lp_visited l)) (reset_local h0) /\
  ten_inv (lo_nmut o) (lp_ten l) /\ NoDup (lp_used l).

Lemma offer_facts is01 s0 s h sc : loop_start is01 s0 -> minv is01 s0 s -> true_score (ms_model s0) (ms_x s) sc ->
  let '(s1, h1, st) := l_offer s h sc in
  minv is01 s0 s1 /\ true_score (ms_model s0) (ms_x s1) sc /\ true_score (ms_model s0) (ms_x (ms_export s)) sc /\
  h1 = h_step true h (Offer (ms_x (ms_export s)) sc).
Proof.
  intros L I T. unfold l_offer. destruct (try_update h (ms_x (ms_export s)) sc) as [h' st] eqn:E.
  assert (Te : true_score (ms_model s0) (ms_x (ms_export s)) sc) by (apply (true_export is01); [exact L|apply I|exact T]).
  split; [|split; [|split; [exact Te|]]].
  - destruct (0 <? st)%Z; [now apply export_good|exact I].
  - destruct (0 <? st)%Z; assumption.
  - cbn [h_step]. now rewrite E.
Qed.

Lemma setup_linv is01 o s0 h0 m0 : loop_start is01 s0 -> (0 <= lo_initial_tenure o)%Z -> (0 <= lo_nmut o)%Z -> linv is01 o s0 h0 (l_setup o s0 h0 m0).
Proof.
  intros L H1 H2. unfold l_setup. pose proof (start_update is01 s0 L) as I.
  assert (Ws : model_wf (ms_update s0)) by (eapply minv_static; [exact I|apply L]).
  assert (T : true_score (ms_model s0) (ms_x (ms_update s0)) (evaluate (ms_model (ms_update s0)) (ms_x (ms_update s0)) [])).
  { apply (true_frame (ms_update s0)); [apply I|]. exists (ms_x (ms_update s0)).
    apply (full_correct (ms_model (ms_update s0)) (ms_x (ms_update s0)) []); [apply good_consistent; [exact Ws|apply I]|apply NoDup_nil]. }
  pose proof (offer_facts is01 s0 (ms_update s0) (reset_local h0) _ L I T) as O.
  destruct (l_offer (ms_update s0) (reset_local h0) (evaluate (ms_model (ms_update s0)) (ms_x (ms_update s0)) [])) as [[s1 h1] st].
  destruct O as (O1 & O2 & O3 & O4). unfold linv. cbn [lp_ms lp_score lp_visited lp_feasible lp_holder lp_ten lp_used].
  split; [exact O1|]. split; [exact O2|]. split; [intros p [<-|[]]; exact O3|]. split; [intros y []|].
  split; [exact O4|]. split; [now apply tenure_setup_inv|apply NoDup_nil].
Qed.

Definition alts_ok (is01 : nat -> bool) (s0 : mstate) (alts : alterations) (related : list nat) : Prop :=
  proper alts /\ (forall v n, In (v, n) alts -> ms_fixed s0 v = false /\ (is01 v = true -> (0 <= n <= 1)%Z)) /\
  NoDup related /\ covers (md_cons (ms_model s0)) (map fst alts) related.
Lemma advance_linv is01 o s0 h0 draw l alts related sc : loop_start is01 s0 -> linv is01 o s0 h0 l -> alts_ok is01 s0 alts related ->
  true_score (ms_model s0) (apply_move (ms_x (lp_ms l)) alts) sc ->
  exists l', l_advance o draw l alts related sc = Some l' /\ linv is01 o s0 h0 l' /\ lp_score l' = sc /\ lp_iteration l' = lp_iteration l /\
    length (lp_visited l') = S (length (lp_visited l)) /\ lp_used l' = lp_used l.
Proof.
  intros L (I & T & V & Fe & H & Tn & Nu) (P & Fx & N & Cv) Sc. unfold l_advance.
  destruct (move_minv is01 s0 (lp_ms l) alts related L I P Fx N Cv) as [I' X']. rewrite <- X' in Sc.
  pose proof (offer_facts is01 s0 (ms_update_move (lp_ms l) alts related) (lp_holder l) sc L I' Sc) as O.
  destruct (l_offer (ms_update_move (lp_ms l) alts related) (lp_holder l) sc) as [[s1 h1] st]. destruct O as (O1 & O2 & O3 & O4).
  set (q := mm_primal _). destruct (tenure_step (lo_inc o) (lo_dec o) (lo_nmut o) (Z.testbit st 1) (lp_iteration l) q (lp_ten l) Tn) as (t' & E & Tn' & _). rewrite E.
  eexists. split; [reflexivity|]. split; [|split; [reflexivity|split; [reflexivity|split; [cbn [lp_visited]; rewrite app_length; cbn [length]; lia|reflexivity]]]].
  unfold linv. cbn [lp_ms lp_score lp_visited lp_feasible lp_holder lp_ten lp_used].
  split; [exact O1|]. split; [exact O2|]. split; [|split; [exact Fe|split; [|split; [exact Tn'|exact Nu]]]].
  - intros p Hp. apply in_app_iff in Hp as [Hp|[<-|[]]]; [now apply V|exact O3].
  - unfold offers in *. rewrite map_app, fold_left_app, <- H. exact O4.
Qed.

Lemma trial_alts is01 s0 t : trial_ok is01 s0 t -> alts_ok is01 s0 (tm_alts t) (tm_related t).
Proof. intros (P & Fx & N & Cv & _). exact (conj P (conj Fx (conj N Cv))). Qed.
Lemma linv_trial is01 o s0 h0 l fast t : loop_start is01 s0 -> linv is01 o s0 h0 l -> trial_ok is01 s0 t ->
  true_score (ms_model s0) (apply_move (ms_x (lp_ms l)) (tm_alts t)) (eval_trial fast (ms_model (lp_ms l)) (ms_x (lp_ms l)) (lp_score l) t).
Proof.
  intros L (I & T & _) K. apply (true_frame (lp_ms l)); [apply I|]. exists (ms_x (lp_ms l)).
  apply (eval_trial_scores is01 s0); auto. apply (true_frame s0); [apply frame_sym; apply I|exact T].
Qed.
Lemma modify_linv is01 o s0 h0 mods : forall l, loop_start is01 s0 -> linv is01 o s0 h0 l -> (forall t, In t (map fst mods) -> trial_ok is01 s0 t) ->
  exists l', l_modify o mods l = Some l' /\ linv is01 o s0 h0 l' /\ lp_iteration l' = lp_iteration l /\
    length (lp_visited l') = (length (lp_visited l) + length mods)%nat.
Proof.
  induction mods as [|[t draw] mods IH]; intros l L I K; cbn [l_modify].
  - exists l. split; [reflexivity|]. split; [exact I|]. split; [reflexivity|]. cbn [length]. lia.
  - assert (Kt : trial_ok is01 s0 t) by (apply K; now left).
    destruct (advance_linv is01 o s0 h0 draw l (tm_alts t) (tm_related t) _ L I (trial_alts _ _ _ Kt) (linv_trial is01 o s0 h0 l true t L I Kt)) as (l1 & E & I1 & _ & It & Le & _).
    rewrite E. destruct (IH l1 L I1) as (l2 & E2 & I2 & It2 & Le2); [intros t' Ht; apply K; now right|].
    exists l2. split; [exact E2|]. split; [exact I2|]. split; [congruence|]. cbn [length]. lia.
Qed.

Lemma available_in used t : available used t = true -> tm_special t = true -> ~ In (tm_id t) used.
Proof.
  unfold available. intros H Hs Hin. rewrite Hs in H. cbn [andb] in H. apply negb_true_iff in H.
  assert (E : existsb (Nat.eqb (tm_id t)) used = true) by (apply existsb_exists; exists (tm_id t); split; [exact Hin|apply Nat.eqb_refl]). congruence.
Qed.
Lemma none_filtered used ts : filter (available used) ts = [] -> none_available used ts.
Proof.
  intros H t Ht. destruct (available used t) eqn:E.
  - assert (K : In t (filter (available used) ts)) by (apply filter_In; auto). rewrite H in K. destruct K.
  - unfold available in E. apply negb_false_iff, andb_true_iff in E as [E1 E2]. split; [exact E1|].
    apply existsb_exists in E2 as (i & Hi & Hn). apply Nat.eqb_eq in Hn. now subst.
Qed.

(** One iteration. *)
Lemma iterate_facts is01 o s0 h0 e l : loop_start is01 s0 -> linv is01 o s0 h0 l -> (forall t, In t (en_moves e) -> trial_ok is01 s0 t) ->
  let r := l_iterate o e l in
  linv is01 o s0 h0 (fst r) /\
  match snd r with
  | None => (lp_iteration (fst r) = lp_iteration l + 1)%Z /\ (lp_iteration l < lo_iteration_max o)%Z /\
            length (lp_visited (fst r)) = S (length (lp_visited l))
  | Some st => status_meaning o s0 e (fst r) st /\ lp_iteration (fst r) = lp_iteration l /\
      ((fst r = l) \/ ((lp_iteration l < lo_iteration_max o)%Z /\ length (lp_visited (fst r)) = S (length (lp_visited l))))
  end.
Proof.
  intros L I K. cbv zeta. unfold l_iterate. pose proof I as (Im & T & _).
  destruct (en_time_over e) eqn:Et; [cbn [fst snd]; split; [exact I|]; split; [exact Et|]; split; [reflexivity|now left]|].
  destruct (Z.leb_spec (lo_iteration_max o) (lp_iteration l)) as [Hit|Hit]; [cbn [fst snd]; split; [exact I|]; split; [exact Hit|]; split; [reflexivity|now left]|].
  destruct (reach_target o (lp_holder l)) eqn:Er.
  { cbn [fst snd]; split; [exact I|]; split; [|split; [reflexivity|now left]]. unfold reach_target in Er. cbn [status_meaning].
    destruct (sl_obj (ho_feasible (lp_holder l))) as [q|]; [|discriminate]. exists q. split; [reflexivity|now apply Qle_bool_iff]. }
  destruct (early_stop o (lp_ineffective l)) eqn:Ee.
  { cbn [fst snd]; split; [exact I|]; split; [|split; [reflexivity|now left]]. unfold early_stop in Ee. cbn [status_meaning].
    destruct (Qlt_le_dec _ (inject_Z (lp_ineffective l))) as [Hl|]; [exact Hl|discriminate]. }
  destruct (filter (available (lp_used l)) (en_moves e)) as [|m0 ms] eqn:Em.
  { cbn [fst snd]. split; [exact I|]. split; [|split; [reflexivity|now left]]. apply none_filtered in Em.
    destruct (ms_feasible (lp_ms l)) eqn:Ef; [|cbn [andb]; split; [exact Em|]; left; rewrite <- (minv_feasible is01 s0 _ L Im); congruence].
    destruct (en_improvable e) eqn:Ei; cbn [andb negb status_meaning]; [split; [exact Em|now right]|].
    right. split; [exact Em|]. split; [now apply (minv_feasible is01 s0 _ L Im)|exact Ei]. }
  destruct (gap_closed (lp_holder l)) eqn:Eg.
  { cbn [fst snd]; split; [exact I|]; split; [|split; [reflexivity|now left]]. unfold gap_closed in Eg. cbn [status_meaning]. left.
    destruct (sl_obj (ho_feasible (lp_holder l))) as [q|]; [|discriminate]. exists q. split; [reflexivity|].
    destruct (Qlt_le_dec _ EPS) as [Hl|]; [exact Hl|discriminate]. }
  rewrite <- Em. set (moves := filter (available (lp_used l)) (en_moves e)) in *.
  set (trials := map _ moves).
  assert (Nt : trials <> []) by (unfold trials; rewrite Em; discriminate).
  assert (Hm : forall t, In t moves -> trial_ok is01 s0 t /\ available (lp_used l) t = true) by (intros t Ht; apply filter_In in Ht as [Ht1 Ht2]; split; [now apply K|exact Ht2]).
  assert (Hs : exists i asp tr, select_move (lo_ignore_tabu o) (sl_obj (ho_global (lp_holder l))) trials = Some (i, asp) /\ nth_error trials i = Some tr).
  { unfold select_move. destruct (argmin_index_total _ total_score trials Nt) as (i & Ei & t & Hi & _). rewrite Ei.
    destruct (lo_ignore_tabu o); cbn [negb]; [|exists i, false, t; auto].
    destruct (argmin_index_total _ (fun t => sc_global_aug (tr_score t)) trials Nt) as (j & Ej & u & Hj & _). rewrite Ej, Hj.
    destruct (improves (sc_global_aug (tr_score u)) (sl_obj (ho_global (lp_holder l)))); [exists j, (negb (tr_permissible u)), u; auto|exists i, false, t; auto]. }
  destruct Hs as (i & asp & tr & Es & Hi). rewrite Es, Hi.
  assert (Ht : exists t, nth_error moves i = Some t /\ tr_score tr = eval_trial (lo_fast o) (ms_model (lp_ms l)) (ms_x (lp_ms l)) (lp_score l) t).
  { unfold trials in Hi. rewrite nth_error_map in Hi. destruct (nth_error moves i) as [t|]; [|discriminate]. exists t. split; [reflexivity|]. cbn [option_map] in Hi.
    assert (E : tr = mkTrial (eval_trial (lo_fast o) (ms_model (lp_ms l)) (ms_x (lp_ms l)) (lp_score l) t)
            (frequency_penalty (lo_frequency o) (lp_mem l) (lp_iteration l) (tm_alts t))
            (lagrangian_penalty (lo_lagrangian o) (lo_multiplier o) (tm_alts t))
            (permissible (lo_all o && negb (tm_selection t)) (lp_mem l) (lp_iteration l - tn_tenure (lp_ten l)) (tm_alts t)) (tm_special t)) by congruence.
    now rewrite E. }
  destruct Ht as (t & Ht & Etr). rewrite Ht. destruct (Hm t (nth_error_In _ _ Ht)) as [Kt At].
  set (better := match sl_obj (ho_global (lp_holder l)) with None => true | Some q => if Qlt_le_dec (sc_global_aug (tr_score tr)) q then true else false end).
  set (adjusted := (lo_adjust o && tm_integer t && better)%bool).
  set (alts := if adjusted then match tm_alts t with (v, _) :: _ => [(v, en_target e)] | [] => [] end else tm_alts t).
  set (sc := if adjusted then evaluate_multi (ms_model (lp_ms l)) (ms_x (lp_ms l)) alts (tm_related t) (lp_score l) else tr_score tr).
  assert (Good : alts_ok is01 s0 alts (tm_related t) /\ true_score (ms_model s0) (apply_move (ms_x (lp_ms l)) alts) sc).
  { unfold sc, alts. destruct adjusted eqn:Ea.
    - unfold adjusted in Ea. apply andb_true_iff in Ea as [Ea _]. apply andb_true_iff in Ea as [_ Ea].
      destruct Kt as (P & Fx & N & Cv & _ & In1). destruct (In1 Ea) as (v & n & Ev & H01). rewrite Ev in *.
      assert (Ok : alts_ok is01 s0 [(v, en_target e)] (tm_related t)).
      { split; [repeat constructor; intros []|]. split; [|split; [exact N|exact Cv]]. intros w k [E|[]]. injection E as <- <-.
        split; [apply (Fx v n); now left|congruence]. }
      split; [exact Ok|]. destruct Ok as (P' & Fx' & N' & Cv').
      apply (true_frame (lp_ms l)); [apply Im|]. exists (ms_x (lp_ms l)).
      destruct (trial_move_ok s0 (lp_ms l) [(v, en_target e)] (tm_related t) (proj1 (proj2 Im)) P' (fun w k H => proj1 (Fx' w k H)) N' Cv') as (_ & Cvs).
      assert (Ws : model_wf (lp_ms l)) by (eapply minv_static; [exact Im|apply L]).
      apply multi_correct; auto.
      + apply good_consistent; [exact Ws|apply Im].
      + apply true_current. apply (true_frame s0); [apply frame_sym; apply Im|exact T].
      + apply (minv_no_tiny is01 s0); auto.
    - split; [now apply trial_alts|]. rewrite Etr. now apply (linv_trial is01 o s0 h0). }
  destruct Good as [Ok Tr].
  destruct (advance_linv is01 o s0 h0 (en_draw e) l alts (tm_related t) sc L I Ok Tr) as (l1 & E1 & I1 & Sc1 & It1 & Le1 & Us1). rewrite E1.
  set (stop := (lo_break o && too_large (lp_iteration l1) sc (map tr_score (firstn i trials) ++ [sc] ++ map tr_score (skipn (S i) trials)))%bool).
  pose proof I1 as (M1 & T1 & V1 & F1 & H1 & Tn1 & N1).
  set (keep := (lo_store o && sc_feasible sc)%bool).
  assert (T2 : true_score (ms_model s0) (ms_x (ms_export (lp_ms l1))) sc) by (apply (true_export is01); [exact L|apply M1|rewrite <- Sc1; exact T1]).
  assert (I2 : linv is01 o s0 h0 (mkLp (if keep then ms_export (lp_ms l1) else lp_ms l1) (lp_score l1) (lp_previous l1) (lp_holder l1) (lp_mem l1) (lp_ten l1)
       (if stop then lp_iteration l1 else lp_iteration l1 + 1)%Z (lp_ineffective l1) (if tm_special t then tm_id t :: lp_used l1 else lp_used l1)
       (if keep then lp_feasible l1 ++ [ms_x (if keep then ms_export (lp_ms l1) else lp_ms l1)] else lp_feasible l1) (lp_visited l1))).
  { unfold linv. cbn [lp_ms lp_score lp_visited lp_feasible lp_holder lp_ten lp_used].
    split; [destruct keep; [now apply export_good|exact M1]|]. split; [destruct keep; [rewrite Sc1; exact T2|exact T1]|]. split; [exact V1|].
    split; [|split; [exact H1|split; [exact Tn1|]]].
    - destruct keep eqn:Ek; [|exact F1]. intros y Hy. apply in_app_iff in Hy as [Hy|[<-|[]]]; [now apply F1|].
      unfold keep in Ek. apply andb_true_iff in Ek as [_ Ek]. now apply (true_feasible is01 s0 _ sc L T2).
    - rewrite Us1. destruct (tm_special t) eqn:Esp; [|rewrite <- Us1; exact N1]. apply NoDup_cons; [|rewrite <- Us1; exact N1]. now apply available_in. }
  destruct stop eqn:Est; cbn [fst snd].
  - split; [exact I2|]. cbn [lp_iteration lp_visited]. split; [|split; [exact It1|right; split; [exact Hit|exact Le1]]].
    unfold stop in Est. apply andb_true_iff in Est as [_ Est]. unfold too_large in Est. apply andb_true_iff in Est as [Est _]. apply andb_true_iff in Est as [Est1 Est2].
    apply Z.ltb_lt in Est1. cbn [status_meaning lp_iteration lp_ms]. split; [exact Est1|].
    destruct keep; [now apply (true_feasible is01 s0 _ sc L T2)|]. apply (true_feasible is01 s0 _ sc L); [rewrite <- Sc1; exact T1|exact Est2].
  - split; [exact I2|]. cbn [lp_iteration lp_visited]. split; [lia|]. split; [exact Hit|exact Le1].
Qed.

Lemma run_facts is01 o s0 h0 es : forall l, loop_start is01 s0 -> linv is01 o s0 h0 l ->
  (forall e t, In e es -> In t (en_moves e) -> trial_ok is01 s0 t) ->
  let r := l_run o es l in
  linv is01 o s0 h0 (fst r) /\ (length (lp_visited l) <= length (lp_visited (fst r)))%nat /\
  (Z.of_nat (length (lp_visited (fst r))) <= Z.of_nat (length (lp_visited l)) + Z.max 0 (lo_iteration_max o - lp_iteration l))%Z /\
  match snd r with
  | None => (lp_iteration (fst r) = lp_iteration l + Z.of_nat (length es) /\ (es = [] \/ lp_iteration (fst r) <= lo_iteration_max o))%Z
  | Some st => exists e, In e es /\ status_meaning o s0 e (fst r) st
  end.
Proof.
  induction es as [|e es IH]; intros l L I K; cbv zeta; cbn [l_run].
  - cbn [fst snd]. split; [exact I|]. split; [lia|]. split; [lia|]. split; [cbn [length]; lia|now left].
  - destruct (iterate_facts is01 o s0 h0 e l L I (fun t => K e t (or_introl eq_refl))) as [I' Q].
    destruct (l_iterate o e l) as [l' [st|]]; cbn [fst snd] in *.
    + destruct Q as (Q1 & Q2 & Q3). split; [exact I'|]. split; [destruct Q3 as [->|[_ ->]]; lia|].
      split; [destruct Q3 as [->|[Q4 ->]]; lia|]. exists e. split; [now left|exact Q1].
    + destruct Q as (Q1 & Q2 & Q3). destruct (IH l' L I' (fun e' t H => K e' t (or_intror H))) as (R1 & R2 & R3 & R4). cbv zeta in *.
      split; [exact R1|]. split; [lia|]. split; [lia|]. destruct (snd (l_run o es l')) as [st|].
      * destruct R4 as (e' & He & Hs). exists e'. split; [now right|exact Hs].
      * destruct R4 as (R4 & R5). cbn [length]. split; [lia|]. right. destruct R5 as [->|R5]; [cbn [length] in R4; lia|lia].
Qed.
