(** Proofs for C53. *)
From Coq Require Import List ZArith QArith Qabs Permutation Sorted Lia Lqa Bool.
From Verif Require Import ExprModel ExprSpec ExprProof ConstraintModel ConstraintSpec ConstraintProof EvalModel EvalSpec EvalSpec2
  EvalProof EvalProof2 EvalProof3 SolutionModel SolutionSpec SolutionProof DuplicateModel DuplicateProof TabuModel TabuProof
  LoopModel LoopSpec LoopProof LoopProof2 LocalModel LocalSpec.
Import ListNotations.
Local Open Scope Q_scope.

(** ** Disabled constraints do not matter *)
Lemma multi_skip md x m R cur : evaluate_multi md x m R cur = evaluate_multi md x m (filter (enabled_at (md_cons md)) R) cur.
Proof.
  unfold evaluate_multi. generalize (sc_violation cur, sc_local cur, false) as acc.
  assert (G : forall acc, fold_left (multi_step (md_cons md) x m) R acc = fold_left (multi_step (md_cons md) x m) (filter (enabled_at (md_cons md)) R) acc).
  { induction R as [|i R IH]; intros acc; cbn [fold_left filter]; [reflexivity|]. rewrite IH. unfold enabled_at at 2.
    destruct (nth_error (md_cons md) i) as [c|] eqn:E.
    - destruct (ct_enabled c) eqn:En; [reflexivity|]. unfold multi_step at 2. rewrite E, En. reflexivity.
    - unfold multi_step at 2. rewrite E. reflexivity. }
  intros acc. now rewrite G.
Qed.

Definition sim (c c' : constr) : Prop := c = c' \/ (ct_enabled c = false /\ ct_enabled c' = false).
Lemma sim_update f : (forall c, ct_enabled (f c) = ct_enabled c) -> forall l l' i, Forall2 sim l l' -> enabled_at l i = true ->
  Forall2 sim (update_nth l i f) (update_nth l' i f).
Proof.
  intros Hf l l' i H. revert i. induction H as [|c c' l l' S H IH]; intros [|i] E; cbn [update_nth]; try constructor; auto.
  cbn in E. destruct S as [->|[S _]]; [now left|congruence].
Qed.
Lemma sim_update_one f : (forall c, ct_enabled (f c) = ct_enabled c) -> forall l l' i, Forall2 sim l l' -> enabled_at l i = false ->
  Forall2 sim (update_nth l i f) l'.
Proof.
  intros Hf l l' i H. revert i. induction H as [|c c' l l' S H IH]; intros [|i] E; cbn [update_nth]; try constructor; auto.
  cbn in E. right. rewrite Hf. destruct S as [->|[S1 S2]]; auto.
Qed.
Lemma enabled_update f : (forall c, ct_enabled (f c) = ct_enabled c) -> forall l i j, enabled_at (update_nth l i f) j = enabled_at l j.
Proof.
  intros Hf. unfold enabled_at. induction l as [|c l IH]; intros [|i] [|j]; cbn [update_nth nth_error]; auto.
Qed.
Lemma sim_fold f : (forall c, ct_enabled (f c) = ct_enabled c) -> forall R en l l', (forall i, enabled_at l i = en i) -> Forall2 sim l l' ->
  Forall2 sim (fold_left (fun l i => update_nth l i f) R l) (fold_left (fun l i => update_nth l i f) (filter en R) l').
Proof.
  intros Hf. induction R as [|i R IH]; intros en l l' He S; cbn [fold_left filter]; [exact S|]. destruct (en i) eqn:E.
  - cbn [fold_left]. apply IH; [intros j; rewrite enabled_update; auto|]. apply sim_update; auto. now rewrite He.
  - apply IH; [intros j; rewrite enabled_update; auto|]. apply sim_update_one; auto. now rewrite He.
Qed.
Lemma sim_refl l : Forall2 sim l l.
Proof. induction l; constructor; auto. now left. Qed.
Lemma sim_in l l' : Forall2 sim l l' -> forall c, In c l -> ct_enabled c = true -> In c l'.
Proof.
  induction 1 as [|c0 c0' l l' S H IH]; intros c Hc He; [destruct Hc|]. destruct Hc as [->|Hc]; [|right; auto].
  destruct S as [->|[S _]]; [now left|congruence].
Qed.
Lemma sim_violative l l' : Forall2 sim l l' -> violative l = violative l'.
Proof.
  unfold violative. generalize 0%nat as n. intros n H. revert n. induction H as [|c c' l l' S H IH]; intros n; [reflexivity|].
  cbn [length seq combine filter snd]. destruct S as [->|[S1 S2]].
  - destruct (ct_enabled c' && negb (c_is_feasible c')); cbn [map]; now rewrite IH.
  - rewrite S1, S2. cbn [andb]. apply IH.
Qed.

(** ** Steps with a related list without repeated enabled constraints *)
Definition alts_ok' (is01 : nat -> bool) (s0 : mstate) (alts : alterations) (related : list nat) : Prop :=
  proper alts /\ (forall v n, In (v, n) alts -> ms_fixed s0 v = false /\ (is01 v = true -> (0 <= n <= 1)%Z)) /\
  NoDup (filter (enabled_at (md_cons (ms_model s0))) related) /\ covers (md_cons (ms_model s0)) (map fst alts) related.

Lemma enabled_frame l : forall l', map frame l = map frame l' -> forall i, enabled_at l i = enabled_at l' i.
Proof.
  unfold enabled_at. induction l as [|c l IH]; intros [|c' l'] H i; try discriminate; [reflexivity|]. 
  assert (H0 : ct_enabled c = ct_enabled c') by (cbn [map] in H; injection H; intros; assumption).
  assert (H1 : map frame l = map frame l') by (cbn [map] in H; injection H; intros; assumption).
  destruct i as [|i]; cbn [nth_error]; [exact H0|now apply IH].
Qed.
Lemma covers_filter cons vs R : covers cons vs R -> covers cons vs (filter (enabled_at cons) R).
Proof. intros H i c v Hi He Hv Hin. apply filter_In. split; [exact (H i c v Hi He Hv Hin)|unfold enabled_at; now rewrite Hi]. Qed.

Lemma move_minv' is01 s0 s alts related : loop_start is01 s0 -> minv is01 s0 s -> alts_ok' is01 s0 alts related ->
  minv is01 s0 (ms_update_move s alts related) /\ ms_x (ms_update_move s alts related) = apply_move (ms_x s) alts.
Proof.
  intros L I (P & Fx & N & Cv). pose proof I as (_ & F & _).
  assert (En : filter (enabled_at (md_cons (ms_model s0))) related = filter (enabled_at (md_cons (ms_model s))) related).
  { apply filter_ext. intros i. symmetry. apply enabled_frame. apply F. }
  destruct (move_minv is01 s0 s alts _ L I P Fx N (covers_filter _ _ _ Cv)) as [(G & F' & Fl & R) X]. rewrite En in *.
  set (sB := ms_update_move s alts (filter (enabled_at (md_cons (ms_model s))) related)) in *.
  assert (Si : Forall2 sim (md_cons (ms_model (ms_update_move s alts related))) (md_cons (ms_model sB))).
  { unfold sB. cbn [ms_update_move with_violative ms_model md_cons]. destruct (ms_user_defined s); [apply sim_refl|].
    apply sim_fold; [reflexivity|reflexivity|apply sim_refl]. }
  pose proof (sim_violative _ _ Si) as Vi. destruct G as (G1 & G2 & G3 & G4 & G5).
  split; [|exact X]. split; [|split; [exact (frame_trans _ _ _ (move_frame s (alts, related)) F)|split; [|exact R]]].
  - split; [intros c Hc He; apply G1; [now apply (sim_in _ _ Si)|exact He]|]. split; [exact G2|]. split; [exact G3|]. split; reflexivity.
  - intros c Hc He. apply Fl; [now apply (sim_in _ _ Si)|exact He].
Qed.
Lemma multi_scores is01 s0 s cur alts related : loop_start is01 s0 -> minv is01 s0 s -> true_score (ms_model s0) (ms_x s) cur -> alts_ok' is01 s0 alts related ->
  scores (ms_model s0) (ms_x s) (apply_move (ms_x s) alts) (evaluate_multi (ms_model s) (ms_x s) alts related cur).
Proof.
  intros L I T (P & Fx & N & Cv). pose proof I as (G & F & _). apply (scores_frame s s0); [exact F|]. rewrite multi_skip.
  assert (En : filter (enabled_at (md_cons (ms_model s0))) related = filter (enabled_at (md_cons (ms_model s))) related).
  { apply filter_ext. intros i. symmetry. apply enabled_frame. apply F. }
  apply covers_filter in Cv. rewrite En in *.
  destruct (trial_move_ok s0 s alts _ F P (fun v n H => proj1 (Fx v n H)) N Cv) as (_ & Cvs).
  apply multi_correct; auto.
  - apply good_consistent; [eapply minv_static; [exact I|apply L]|exact G].
  - apply true_current. apply (true_frame s0); [now apply frame_sym|exact T].
  - apply (minv_no_tiny is01 s0); auto.
Qed.

(** ** The combined move *)
Lemma set_last_app A v n z : set_last (A ++ [(v, n)]) z = A ++ [(v, z)].
Proof.
  induction A as [|a A IH]; [reflexivity|]. cbn [app]. rewrite <- IH. destruct (A ++ [(v, n)]) eqn:E; [destruct A; discriminate|]. reflexivity.
Qed.
Lemma index_of (c : constr) l : In c l -> exists i, nth_error l i = Some c.
Proof. apply In_nth_error. Qed.
Lemma nodup_app_intro {A} (a b : list A) : NoDup a -> NoDup b -> (forall v, In v a -> ~ In v b) -> NoDup (a ++ b).
Proof.
  induction a as [|v a IH]; intros Na Nb D; [exact Nb|]. cbn [app]. inversion Na as [|? ? H1 H2]; subst. apply NoDup_cons.
  - intros H. apply in_app_or in H as [H|H]; [exact (H1 H)|exact (D v (or_introl eq_refl) H)].
  - apply IH; auto. intros w Hw. apply D. now right.
Qed.
Lemma join_ok is01 s0 p t : alts_ok' is01 s0 (cb_alts p) (cb_related p) -> trial_ok is01 s0 t -> anchored (ms_model s0) t ->
  existsb (fun i => enabled_at (md_cons (ms_model s0)) i && existsb (Nat.eqb i) (cb_related p)) (tm_related t) = false ->
  alts_ok' is01 s0 (cb_alts p ++ tm_alts t) (cb_related p ++ tm_related t).
Proof.
  intros (P & Fx & N & Cv) (P' & Fx' & N' & Cv' & _) An Ex.
  assert (Dis : forall i, enabled_at (md_cons (ms_model s0)) i = true -> In i (cb_related p) -> In i (tm_related t) -> False).
  { intros i He Hp Ht. assert (K : existsb (fun i => enabled_at (md_cons (ms_model s0)) i && existsb (Nat.eqb i) (cb_related p)) (tm_related t) = true).
    { apply existsb_exists. exists i. split; [exact Ht|]. rewrite He. apply existsb_exists. exists i. split; [exact Hp|apply Nat.eqb_refl]. }
    congruence. }
  split; [|split; [|split]].
  - unfold proper in *. rewrite map_app. apply nodup_app_intro; auto. intros v Hv Hv'.
    apply in_map_iff in Hv' as ([w n] & E & Hin). cbn in E. subst w. destruct (An v n Hin) as (c & Hc & He & Hk).
    destruct (index_of c _ Hc) as (i & Hi). apply (Dis i); [unfold enabled_at; now rewrite Hi| |].
    + exact (Cv i c v Hi He Hv Hk).
    + apply (Cv' i c v Hi He); [|exact Hk]. apply in_map_iff. exists (v, n). auto.
  - intros v n H. apply in_app_or in H as [H|H]; [now apply Fx|now apply Fx'].
  - rewrite filter_app. apply nodup_app_intro; [exact N|now apply NoDup_filter|].
    intros i H1 H2. apply filter_In in H1 as [H1 E], H2 as [H2 _]. exact (Dis i E H1 H2).
  - intros i c v Hi He Hv Hk. rewrite map_app in Hv. apply in_or_app. apply in_app_or in Hv as [Hv|Hv]; [left; exact (Cv i c v Hi He Hv Hk)|right; exact (Cv' i c v Hi He Hv Hk)].
Qed.
Lemma combine_ok is01 s0 adjust cons cur target ts : (forall i, enabled_at cons i = enabled_at (md_cons (ms_model s0)) i) ->
  (forall q, In q ts -> trial_ok is01 s0 (fst q) /\ anchored (ms_model s0) (fst q)) ->
  forall p, alts_ok' is01 s0 (cb_alts p) (cb_related p) ->
  let r := combine_moves adjust cons cur target ts p in alts_ok' is01 s0 (cb_alts r) (cb_related r).
Proof.
  intros He. cbv zeta. induction ts as [|[t sc] ts IH]; intros K p Hp; cbn [combine_moves]; [exact Hp|].
  destruct (negb (worth cur sc)); [exact Hp|].
  assert (Ex : existsb (fun i => enabled_at cons i && existsb (Nat.eqb i) (cb_related p)) (tm_related t) =
     existsb (fun i => enabled_at (md_cons (ms_model s0)) i && existsb (Nat.eqb i) (cb_related p)) (tm_related t)).
  { induction (tm_related t) as [|i l IHl]; [reflexivity|]. cbn [existsb]. now rewrite He, IHl. }
  rewrite Ex. clear Ex. destruct (existsb _ (tm_related t)) eqn:E; [apply IH; [intros q Hq; apply K; now right|exact Hp]|].
  destruct (K (t, sc) (or_introl eq_refl)) as [Kt Ka]. cbn [fst] in Kt, Ka. apply IH; [intros q Hq; apply K; now right|].
  cbn [cb_alts cb_related]. pose proof (join_ok is01 s0 p t Hp Kt Ka E) as J. destruct (adjust && tm_integer t) eqn:Ea; [|exact J].
  apply andb_true_iff in Ea as [_ Ei]. destruct Kt as (_ & _ & _ & _ & _ & Ki). destruct (Ki Ei) as (v & n & Et & H01). rewrite Et in *.
  rewrite set_last_app. destruct J as (J1 & J2 & J3 & J4). 
  assert (Em : map fst (cb_alts p ++ [(v, target (cb_count p))]) = map fst (cb_alts p ++ [(v, n)])) by (rewrite !map_app; reflexivity).
  split; [unfold proper in *; now rewrite Em|]. split; [|split; [exact J3|now rewrite Em]].
  intros w k H. apply in_app_or in H as [H|[H|[]]]; [apply J2; apply in_or_app; now left|]. injection H as <- <-.
  split; [apply (J2 v n); apply in_or_app; right; now left|congruence].
Qed.

(** ** Additivity *)
Lemma violation_nonneg md y : 0 <= violation md y.
Proof.
  unfold violation. induction (md_cons md) as [|c l IH]; cbn [sum_enabled]; [lra|]. pose proof (viol_nonneg c y). destruct (ct_enabled c); lra.
Qed.
Lemma violation_int is01 s0 y : loop_start is01 s0 -> exists z, violation (ms_model s0) y == inject_Z z.
Proof.
  intros L. unfold violation. assert (G : forall l, (forall c, In c l -> In c (md_cons (ms_model s0))) -> exists z, sum_enabled (fun c => viol c y) l == inject_Z z).
  { induction l as [|c l IH]; intros H; cbn [sum_enabled]; [exists 0%Z; reflexivity|]. destruct IH as (z & Hz); [intros; apply H; now right|].
    destruct (ct_enabled c) eqn:E; [|exists z; rewrite Hz; lra]. destruct (viol_int is01 s0 c y L (H c (or_introl eq_refl)) E) as (k & Hk).
    exists (k + z)%Z. rewrite Hz, Hk, inject_Z_plus. reflexivity. }
  apply G. auto.
Qed.
Lemma violation_small is01 s0 y : loop_start is01 s0 -> violation (ms_model s0) y <= EPS -> violation (ms_model s0) y == 0.
Proof.
  intros L H. destruct (violation_int is01 s0 y L) as (z & Hz). apply (integral_small _ z Hz); [apply violation_nonneg|].
  assert (EPS < 1) by reflexivity. lra.
Qed.
Lemma violation_satisfies is01 s0 y : loop_start is01 s0 -> (violation (ms_model s0) y == 0 <-> satisfies (ms_model s0) y).
Proof.
  intros L. split.
  - intros H. apply (satisfies_iff is01 s0 y L). apply sum_enabled_small.
    + intros c Hc He. exact (viol_int is01 s0 c y L Hc He).
    + unfold violation in H. rewrite H. discriminate.
  - intros H. apply (violation_small is01); [exact L|]. unfold violation. apply sum_enabled_small.
    + intros c Hc He. exact (viol_int is01 s0 c y L Hc He).
    + now apply (satisfies_iff is01 s0 y L).
Qed.

Lemma eval_apply e x m : wf e -> proper m -> e_eval e (apply_move x m) == e_eval e x + delta (ex_sens e) x m.
Proof. intros W P. rewrite !eval_lin, (lin_apply _ _ W x P). lra. Qed.
Lemma delta_app s x A B : delta s x (A ++ B) == delta s x A + delta s x B.
Proof. induction A as [|[v n] A IH]; cbn [app delta]; [lra|]. rewrite IH. lra. Qed.
Lemma proper_app A B : proper (A ++ B) -> proper A /\ proper B.
Proof.
  unfold proper. rewrite map_app. intros H. split.
  - induction (map fst A) as [|v l IH]; [apply NoDup_nil|]. cbn [app] in H. inversion H as [|? ? H1 H2]; subst.
    apply NoDup_cons; [intros K; apply H1; apply in_or_app; now left|now apply IH].
  - induction (map fst A) as [|v l IH]; [exact H|]. cbn [app] in H. inversion H; subst. now apply IH.
Qed.
Lemma eval_additive e x A B : wf e -> proper (A ++ B) ->
  e_eval e (apply_move x (A ++ B)) - e_eval e x == (e_eval e (apply_move x A) - e_eval e x) + (e_eval e (apply_move x B) - e_eval e x).
Proof.
  intros W P. destruct (proper_app A B P) as [PA PB]. rewrite !(eval_apply e x) by assumption. rewrite delta_app. lra.
Qed.
Lemma untouched e x m : (forall v, In v (map fst m) -> ~ In v (keys e)) -> e_eval e (apply_move x m) == e_eval e x.
Proof.
  intros H. apply eval_ext. intros v Hv. apply apply_out. intros K. exact (H v K Hv).
Qed.
(** Moves without a common enabled constraint: the change of the violation is the
    sum of the changes. *)
Lemma violation_additive md x A B RA RB : (forall c, In c (md_cons md) -> wf (ct_expr c)) -> proper (A ++ B) ->
  covers (md_cons md) (map fst A) RA -> covers (md_cons md) (map fst B) RB ->
  (forall i, enabled_at (md_cons md) i = true -> In i RA -> In i RB -> False) ->
  violation md (apply_move x (A ++ B)) - violation md x ==
  (violation md (apply_move x A) - violation md x) + (violation md (apply_move x B) - violation md x).
Proof.
  intros W P CA CB D. unfold violation.
  assert (One : forall i c, nth_error (md_cons md) i = Some c -> ct_enabled c = true ->
     viol c (apply_move x (A ++ B)) - viol c x == (viol c (apply_move x A) - viol c x) + (viol c (apply_move x B) - viol c x)).
  { intros i c Hi He. pose proof (eval_additive (ct_expr c) x A B (W c (nth_error_In _ _ Hi)) P) as Ad.
    destruct (in_dec Nat.eq_dec i RA) as [HA|HA].
    - assert (U : e_eval (ct_expr c) (apply_move x B) == e_eval (ct_expr c) x).
      { apply untouched. intros v Hv Hk. apply (D i); [unfold enabled_at; now rewrite Hi|exact HA|exact (CB i c v Hi He Hv Hk)]. }
      assert (U' : e_eval (ct_expr c) (apply_move x (A ++ B)) == e_eval (ct_expr c) (apply_move x A)) by lra.
      rewrite (viol_value c _ _ U), (viol_value c _ _ U'). lra.
    - assert (U : e_eval (ct_expr c) (apply_move x A) == e_eval (ct_expr c) x).
      { apply untouched. intros v Hv Hk. apply HA. exact (CA i c v Hi He Hv Hk). }
      assert (U' : e_eval (ct_expr c) (apply_move x (A ++ B)) == e_eval (ct_expr c) (apply_move x B)) by lra.
      rewrite (viol_value c _ _ U), (viol_value c _ _ U'). lra. }
  assert (One' : forall c, In c (md_cons md) -> ct_enabled c = true ->
     viol c (apply_move x (A ++ B)) - viol c x == (viol c (apply_move x A) - viol c x) + (viol c (apply_move x B) - viol c x)).
  { intros c Hc. destruct (index_of c _ Hc) as (i & Hi). now apply (One i). }
  clear One. revert One'. generalize (md_cons md) as l. induction l as [|c l IH]; intros H; cbn [sum_enabled]; [lra|].
  specialize (IH (fun c' Hc => H c' (or_intror Hc))). destruct (ct_enabled c) eqn:E; [specialize (H c (or_introl eq_refl) E); lra|lra].
Qed.
Lemma value_additive md x A B : wf (md_obj md) -> proper (A ++ B) ->
  value md (apply_move x (A ++ B)) - value md x == (value md (apply_move x A) - value md x) + (value md (apply_move x B) - value md x).
Proof.
  intros W P. unfold value. destruct (md_defined md); [|lra]. pose proof (eval_additive (md_obj md) x A B W P) as E.
  setoid_replace (e_eval (md_obj md) (apply_move x (A ++ B))) with
    (e_eval (md_obj md) (apply_move x A) + e_eval (md_obj md) (apply_move x B) - e_eval (md_obj md) x) by lra. ring.
Qed.

(** ** A worthwhile trial is strictly better *)
Lemma worth_better is01 s0 x y cur sc : loop_start is01 s0 -> true_score (ms_model s0) x cur -> scores (ms_model s0) x y sc ->
  (worth cur sc = true <-> accepted (ms_model s0) y x).
Proof.
  intros L (x0 & _ & _ & Tv & _) (S1 & S2 & S3 & _ & _ & _ & _ & S8 & S9). cbv zeta in *.
  fold (violation (ms_model s0) x) in Tv. fold (violation (ms_model s0) y) in S3, S8. fold (value (ms_model s0) x) in S2, S9. fold (value (ms_model s0) y) in S1, S2, S9.
  pose proof (violation_nonneg (ms_model s0) y) as Ny. assert (E1 : 0 < EPS) by reflexivity.
  unfold worth, accepted. destruct (sc_feasible sc).
  - assert (Vy : violation (ms_model s0) y == 0) by (apply (violation_small is01); [exact L|now apply S8]).
    rewrite S9. split; [intros H; split; intros; lra|intros [H _]; specialize (H Vy); lra].
  - assert (Vy : 0 < violation (ms_model s0) y).
    { destruct (Qlt_le_dec EPS (violation (ms_model s0) y)) as [K|K]; [lra|]. apply S8 in K. discriminate. }
    destruct (Qlt_le_dec (sc_violation sc) (sc_violation cur)) as [K|K]; split; intros H; try discriminate; try reflexivity.
    + split; intros; lra.
    + destruct H as [_ H]. specialize (H Vy). lra.
Qed.
Lemma accepted_better md y x : accepted md y x -> strictly_better md y x.
Proof.
  intros [H1 H2]. pose proof (violation_nonneg md y). pose proof (violation_nonneg md x). destruct (Qlt_le_dec 0 (violation md y)) as [K|K].
  - specialize (H2 K). split; intros; lra.
  - assert (V : violation md y == 0) by lra. specialize (H1 V). split; [intros; lra|]. intros _. split; [exact V|exact H1].
Qed.
Lemma better_join md x A B RA RB : (forall c, In c (md_cons md) -> wf (ct_expr c)) -> wf (md_obj md) -> proper (A ++ B) ->
  covers (md_cons md) (map fst A) RA -> covers (md_cons md) (map fst B) RB ->
  (forall i, enabled_at (md_cons md) i = true -> In i RA -> In i RB -> False) ->
  strictly_better md (apply_move x A) x -> strictly_better md (apply_move x B) x -> strictly_better md (apply_move x (A ++ B)) x.
Proof.
  intros W Wo P CA CB D [A1 A2] [B1 B2]. pose proof (violation_additive md x A B RA RB W P CA CB D) as V. pose proof (value_additive md x A B Wo P) as O.
  assert (0 < EPS) by reflexivity. split.
  - intros H0. specialize (A1 H0). specialize (B1 H0). lra.
  - intros H0. destruct (A2 H0) as [A3 A4]. destruct (B2 H0) as [B3 B4]. split; lra.
Qed.
Lemma better_irrefl md x : ~ strictly_better md x x.
Proof.
  intros [H1 H2]. pose proof (violation_nonneg md x). destruct (Qlt_le_dec 0 (violation md x)) as [K|K]; [specialize (H1 K); lra|].
  destruct H2 as [_ H2]; [lra|]. assert (0 < EPS) by reflexivity. lra.
Qed.
Lemma better_trans md x y z : strictly_better md z y -> strictly_better md y x -> strictly_better md z x.
Proof.
  intros [A1 A2] [B1 B2]. pose proof (violation_nonneg md x). pose proof (violation_nonneg md y). assert (0 < EPS) by reflexivity. split.
  - intros HH. specialize (B1 HH). destruct (Qlt_le_dec 0 (violation md y)) as [K|K]; [specialize (A1 K); lra|].
    destruct A2 as [A2 _]; lra.
  - intros HH. destruct (B2 HH) as [B3 B4]. destruct (A2 B3) as [A3 A4]. split; lra.
Qed.

Lemma combine_better is01 s0 s adjust cur target ts : loop_start is01 s0 -> minv is01 s0 s -> true_score (ms_model s0) (ms_x s) cur ->
  (forall q, In q ts -> trial_ok is01 s0 (fst q) /\ anchored (ms_model s0) (fst q) /\ (adjust = false \/ tm_integer (fst q) = false) /\
     scores (ms_model s0) (ms_x s) (apply_move (ms_x s) (tm_alts (fst q))) (snd q)) ->
  forall p, alts_ok' is01 s0 (cb_alts p) (cb_related p) -> (cb_alts p = [] \/ strictly_better (ms_model s0) (apply_move (ms_x s) (cb_alts p)) (ms_x s)) ->
  let r := combine_moves adjust (md_cons (ms_model s)) cur target ts p in
  cb_alts r = [] \/ strictly_better (ms_model s0) (apply_move (ms_x s) (cb_alts r)) (ms_x s).
Proof.
  intros L I T. cbv zeta. assert (En : forall i, enabled_at (md_cons (ms_model s)) i = enabled_at (md_cons (ms_model s0)) i).
  { intros i. apply enabled_frame. apply I. }
  induction ts as [|[t sc] ts IH]; intros K p Hp B; cbn [combine_moves]; [exact B|].
  destruct (worth cur sc) eqn:Wo; cbn [negb]; [|exact B].
  destruct (existsb _ (tm_related t)) eqn:E; [apply IH; [intros q Hq; apply K; now right|exact Hp|exact B]|].
  assert (E' : existsb (fun i => enabled_at (md_cons (ms_model s0)) i && existsb (Nat.eqb i) (cb_related p)) (tm_related t) = false).
  { rewrite <- E. clear - En. induction (tm_related t) as [|i l IHl]; [reflexivity|]. cbn [existsb]. rewrite IHl. f_equal. f_equal. symmetry. apply En. }
  destruct (K (t, sc) (or_introl eq_refl)) as (Kt & Ka & Kn & Ks). cbn [fst snd] in *.
  assert (Ea : adjust && tm_integer t = false) by (destruct Kn as [->| ->]; [reflexivity|apply andb_false_r]). rewrite Ea.
  pose proof (join_ok is01 s0 p t Hp Kt Ka E') as J. apply IH; [intros q Hq; apply K; now right|exact J|]. cbn [cb_alts]. right.
  assert (Bt : strictly_better (ms_model s0) (apply_move (ms_x s) (tm_alts t)) (ms_x s)).
  { apply accepted_better. now apply (worth_better is01 s0 _ _ cur sc). }
  destruct B as [B|B]; [rewrite B; exact Bt|].
  destruct L as ((W1 & W2 & _) & _). destruct Hp as (_ & _ & _ & Cp). destruct Kt as (_ & _ & _ & Ct & _).
  apply (better_join _ _ _ _ (cb_related p) (tm_related t)); auto; [apply J|].
  intros i He Hi Hi'. assert (X : existsb (fun i => enabled_at (md_cons (ms_model s0)) i && existsb (Nat.eqb i) (cb_related p)) (tm_related t) = true).
  { apply existsb_exists. exists i. split; [exact Hi'|]. rewrite He. apply existsb_exists. exists i. split; [exact Hi|apply Nat.eqb_refl]. }
  congruence.
Qed.
