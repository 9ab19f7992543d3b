(** Proofs for C53, continued: the loop. *)
From Coq Require Import List ZArith QArith Qabs Permutation Sorted Lia Lqa Bool.
From Verif Require Import ExprModel ExprSpec ExprProof ConstraintModel ConstraintSpec ConstraintProof EvalModel EvalSpec EvalSpec2
  EvalProof EvalProof2 EvalProof3 SolutionModel SolutionSpec SolutionProof DuplicateModel DuplicateProof TabuModel TabuProof
  LoopModel LoopSpec LoopProof LoopProof2 LoopProof3 LocalModel LocalSpec LocalProof.
Import ListNotations.
Local Open Scope Q_scope.

Definition sinv (is01 : nat -> bool) (s0 : mstate) (h0 : holder (nat -> Z)) (l : slocal) : Prop :=
  minv is01 s0 (sl_ms l) /\ true_score (ms_model s0) (ms_x (sl_ms l)) (sl_score l) /\
  (forall p, In p (sl_visited l) -> true_score (ms_model s0) (fst p) (snd p)) /\
  (forall y, In y (sl_feasible l) -> satisfies (ms_model s0) y) /\
  sl_holder l = fold_left (h_step true) (offers (sl_visited l)) (reset_local h0).

(** Same violation and objective. *)
Definition alike (md : model) (x y : nat -> Z) : Prop := violation md x == violation md y /\ value md x == value md y.
Definition schain (s0 : mstate) (l : slocal) : Prop :=
  ForallOrdPairs (fun p q : (nat -> Z) * score => strictly_better (ms_model s0) (fst q) (fst p)) (sl_visited l) /\
  exists pre y sc, sl_visited l = pre ++ [(y, sc)] /\ alike (ms_model s0) y (ms_x (sl_ms l)).

Lemma alike_export is01 s0 s : loop_start is01 s0 -> same_frame s s0 -> alike (ms_model s0) (ms_x (ms_export s)) (ms_x s).
Proof.
  intros (_ & D & _) F. split.
  - unfold violation. apply sum_ext. intros c Hc He. apply viol_value. apply (eval_export s0 s _ F). intros d Hd. exact (proj1 (D d Hd) c Hc He).
  - unfold value. destruct (md_defined (ms_model s0)); [|reflexivity]. rewrite (eval_export s0 s _ F); [reflexivity|]. intros d Hd. exact (proj2 (D d Hd)).
Qed.
Lemma better_alike md x y x' y' : alike md x x' -> alike md y y' -> strictly_better md x y -> strictly_better md x' y'.
Proof.
  intros [A1 A2] [B1 B2] [H1 H2]. split.
  - intros H. assert (H' : 0 < violation md y) by lra. specialize (H1 H'). lra.
  - intros H. assert (H' : violation md y == 0) by lra. destruct (H2 H') as [H3 H4]. split; lra.
Qed.
Lemma alike_refl md x : alike md x x.
Proof. split; reflexivity. Qed.
Lemma alike_sym md x y : alike md x y -> alike md y x.
Proof. intros [A B]. split; symmetry; assumption. Qed.
Lemma alike_trans md x y z : alike md x y -> alike md y z -> alike md x z.
Proof. intros [A B] [C D]. split; etransitivity; eassumption. Qed.

Lemma setup_sinv is01 s0 h0 m0 : loop_start is01 s0 -> sinv is01 s0 h0 (s_setup s0 h0 m0) /\ schain s0 (s_setup s0 h0 m0).
Proof.
  intros L. unfold s_setup. pose proof (start_update is01 s0 L) as I.
  assert (Ws : model_wf (ms_update s0)) by (eapply minv_static; [exact I|apply L]).
  assert (T : true_score (ms_model s0) (ms_x (ms_update s0)) (evaluate (ms_model (ms_update s0)) (ms_x (ms_update s0)) [])).
  { apply (true_frame (ms_update s0)); [apply I|]. exists (ms_x (ms_update s0)).
    apply (full_correct (ms_model (ms_update s0)) (ms_x (ms_update s0)) []); [apply good_consistent; [exact Ws|apply I]|apply NoDup_nil]. }
  pose proof (offer_facts is01 s0 (ms_update s0) (reset_local h0) _ L I T) as O.
  destruct (l_offer (ms_update s0) (reset_local h0) (evaluate (ms_model (ms_update s0)) (ms_x (ms_update s0)) [])) as [[s1 h1] st] eqn:El.
  destruct O as (O1 & O2 & O3 & O4). unfold sinv, schain. cbn [sl_ms sl_score sl_visited sl_feasible sl_holder]. split.
  - split; [exact O1|]. split; [exact O2|]. split; [intros p [<-|[]]; exact O3|]. split; [intros y []|exact O4].
  - split; [constructor; constructor|]. exists [], (ms_x (ms_export (ms_update s0))), (evaluate (ms_model (ms_update s0)) (ms_x (ms_update s0)) []). split; [reflexivity|].
    pose proof (alike_export is01 s0 (ms_update s0) L (proj1 (proj2 I))) as A.
    unfold l_offer in El. destruct (try_update _ _ _) as [h' st']. injection El as <- _ _. destruct (0 <? st')%Z; [apply alike_refl|exact A].
Qed.

Lemma fop_snoc {A} (R : A -> A -> Prop) l a : ForallOrdPairs R l -> (forall b, In b l -> R b a) -> ForallOrdPairs R (l ++ [a]).
Proof.
  induction 1 as [|b l H1 H2 IH]; intros H; cbn [app]; [constructor; constructor|]. constructor.
  - apply Forall_app. split; [exact H1|constructor; [apply H; now left|constructor]].
  - apply IH. intros c Hc. apply H. now right.
Qed.
Lemma fop_in_last {A} (R : A -> A -> Prop) l a : ForallOrdPairs R (l ++ [a]) -> forall b, In b l -> R b a.
Proof.
  induction l as [|c l IH]; intros H b Hb; [destruct Hb|]. cbn [app] in H. inversion H as [|? ? H1 H2]; subst. destruct Hb as [->|Hb]; [|now apply IH].
  rewrite Forall_forall in H1. apply H1. apply in_or_app. right. now left.
Qed.

Lemma sorted_in ts q : In q (sorted_trials ts) <-> In q ts.
Proof.
  unfold sorted_trials. split; intros H.
  - apply (Permutation_in _ (sort_perm _ _)) in H. apply (Permutation_in _ (sort_perm _ _)) in H. exact H.
  - apply (Permutation_in _ (Permutation_sym (sort_perm _ _))). apply (Permutation_in _ (Permutation_sym (sort_perm _ _))). exact H.
Qed.
Definition ge_global (a b : tmove * score) : Prop := sc_global_aug (snd a) <= sc_global_aug (snd b).
Lemma sorted_order ts : StronglySorted ge_global (sorted_trials ts).
Proof.
  apply sort_ordered; unfold ge_global, smaller_global.
  - intros a b. destruct (Qlt_le_dec (sc_global_aug (snd b)) (sc_global_aug (snd a))); [lra|discriminate].
  - intros a b. destruct (Qlt_le_dec (sc_global_aug (snd b)) (sc_global_aug (snd a))); [discriminate|intros _; assumption].
  - intros a b c. lra.
Qed.
(** Nothing combined: the first trial is not worthwhile. *)
Lemma combine_grows adjust cons cur target ts : forall p, cb_alts p <> [] -> cb_alts (combine_moves adjust cons cur target ts p) <> [].
Proof.
  induction ts as [|[t sc] ts IH]; intros p Hp; cbn [combine_moves]; [exact Hp|]. destruct (negb (worth cur sc)); [exact Hp|].
  destruct (existsb _ (tm_related t)); [now apply IH|]. apply IH. cbn [cb_alts].
  assert (Ne : cb_alts p ++ tm_alts t <> []) by (destruct (cb_alts p); [congruence|discriminate]).
  destruct (adjust && tm_integer t); [|exact Ne]. destruct (cb_alts p ++ tm_alts t) as [|a [|b l]]; [congruence|discriminate|discriminate].
Qed.

Lemma iterate_facts is01 s0 h0 o e l : loop_start is01 s0 -> sinv is01 s0 h0 l ->
  (forall t, In t (se_moves e) -> trial_ok is01 s0 t /\ anchored (ms_model s0) t) ->
  let r := s_iterate o e l in
  sinv is01 s0 h0 (fst r) /\
  match snd r with
  | None => sl_iteration (fst r) = (sl_iteration l + 1)%Z /\ (sl_iteration l < so_iteration_max o)%Z /\ length (sl_visited (fst r)) = S (length (sl_visited l)) /\
            ((so_adjust o = false \/ forall t, In t (se_moves e) -> tm_integer t = false) -> schain s0 l -> schain s0 (fst r))
  | Some st => fst r = l /\ local_meaning o s0 e l st
  end.
Proof.
  intros L V K. cbv zeta. pose proof V as (I & T & Vi & Fe & H). unfold s_iterate.
  destruct (se_time_over e) eqn:Et; [split; [exact V|split; [reflexivity|exact Et]]|].
  destruct (Z.leb_spec (so_iteration_max o) (sl_iteration l)) as [Hi|Hi]; [split; [exact V|split; [reflexivity|exact Hi]]|].
  destruct (match sl_obj (ho_feasible (sl_holder l)) with Some q => Qle_bool q (so_target o) | None => false end) eqn:Er.
  { split; [exact V|]. split; [reflexivity|]. cbn [snd fst local_meaning]. destruct (sl_obj (ho_feasible (sl_holder l))) as [q|]; [|discriminate].
    exists q. split; [reflexivity|now apply Qle_bool_iff]. }
  destruct (se_moves e) as [|t0 ts0] eqn:Em.
  { split; [exact V|]. split; [reflexivity|]. pose proof (minv_feasible is01 s0 (sl_ms l) L I) as Fs. cbn [snd fst].
    destruct (ms_feasible (sl_ms l)); cbn [andb].
    - destruct (se_improvable e) eqn:Ei; cbn [negb]; [split; [exact Em|right; exact Ei]|]. split; [exact Em|]. split; [now apply Fs|exact Ei].
    - split; [exact Em|]. left. intros S. apply Fs in S. discriminate. }
  assert (Nm : se_moves e <> []) by (rewrite Em; discriminate). rewrite <- Em in *. clear t0 ts0 Em. set (moves := se_moves e) in *.
  set (md := ms_model (sl_ms l)). set (x := ms_x (sl_ms l)).
  set (trials := map (fun t => (t, eval_trial true md x (sl_score l) t)) moves).
  assert (Tm : true_score md x (sl_score l)) by (apply (true_frame s0); [apply frame_sym; apply I|exact T]).
  assert (Q : forall q, In q (sorted_trials trials) -> In (fst q) moves /\ trial_ok is01 s0 (fst q) /\ anchored (ms_model s0) (fst q) /\
     scores (ms_model s0) x (apply_move x (tm_alts (fst q))) (snd q)).
  { intros q Hq. apply (proj1 (sorted_in _ _)) in Hq. apply in_map_iff in Hq as (t & <- & Ht). cbn [fst snd]. destruct (K t Ht) as [K1 K2].
    split; [exact Ht|]. split; [exact K1|]. split; [exact K2|]. apply (scores_frame (sl_ms l)); [apply I|]. now apply (eval_trial_scores is01 s0). }
  set (p := combine_moves (so_adjust o) (md_cons md) (sl_score l) (se_target e) (sorted_trials trials) (mkCb [] [] 0)).
  assert (En : forall i, enabled_at (md_cons md) i = enabled_at (md_cons (ms_model s0)) i) by (intros i; apply enabled_frame; apply I).
  assert (Ok0 : alts_ok' is01 s0 (cb_alts (mkCb [] [] 0)) (cb_related (mkCb [] [] 0))).
  { split; [apply NoDup_nil|]. split; [intros v n []|]. split; [apply NoDup_nil|intros i c v _ _ []]. }
  assert (Ok : alts_ok' is01 s0 (cb_alts p) (cb_related p)).
  { apply (combine_ok is01 s0); [exact En|intros q Hq; destruct (Q q Hq) as (_ & Q1 & Q2 & _); auto|exact Ok0]. }
  destruct (cb_alts p) as [|a0 as0] eqn:Ep.
  - split; [exact V|]. split; [reflexivity|]. cbn [snd fst local_meaning].
    destruct (sorted_trials trials) as [|[t sc] rest] eqn:Es.
    { exfalso. apply Nm. assert (X : forall t0, ~ In t0 moves).
      { intros t0 H0. assert (X : In (t0, eval_trial true md x (sl_score l) t0) (sorted_trials trials)) by (apply sorted_in; apply in_map_iff; exists t0; auto).
        rewrite Es in X. destruct X. }
      destruct moves as [|t0 ts0]; [reflexivity|]. destruct (X t0). now left. }
    destruct (Q (t, sc) (or_introl eq_refl)) as (Ht & Kt & _ & Sc). cbn [fst snd] in *.
    assert (Wn : worth (sl_score l) sc = false).
    { destruct (worth (sl_score l) sc) eqn:W; [|reflexivity]. exfalso.
      unfold p in Ep. cbn [combine_moves] in Ep. rewrite W in Ep. cbn [negb cb_related cb_alts app] in Ep.
      assert (Ex : existsb (fun i => enabled_at (md_cons md) i && existsb (Nat.eqb i) []) (tm_related t) = false).
      { clear. induction (tm_related t) as [|i r IH]; [reflexivity|]. cbn [existsb]. rewrite andb_false_r. exact IH. }
      rewrite Ex in Ep. revert Ep. apply combine_grows. cbn [cb_alts].
      assert (Ne : tm_alts t <> []).
      { intros E0. apply (worth_better is01 s0 x (apply_move x (tm_alts t)) _ _ L T Sc) in W. rewrite E0 in W. apply accepted_better in W. exact (better_irrefl _ _ W). }
      destruct (so_adjust o && tm_integer t); [|exact Ne]. destruct (tm_alts t) as [|a [|b r]]; [congruence|discriminate|discriminate]. }
    exists t. split; [exact Ht|]. split.
    + intros Ac. apply (worth_better is01 s0 x (apply_move x (tm_alts t)) _ _ L T Sc) in Ac. congruence.
    + intros t' Ht'. assert (Hq : In (t', eval_trial true md x (sl_score l) t') ((t, sc) :: rest)) by (rewrite <- Es; apply sorted_in; apply in_map_iff; exists t'; auto).
      assert (Sc' : scores (ms_model s0) x (apply_move x (tm_alts t')) (eval_trial true md x (sl_score l) t')).
      { destruct (Q _ Hq) as (_ & _ & _ & S'). exact S'. }
      assert (Le : sc_global_aug sc <= sc_global_aug (eval_trial true md x (sl_score l) t')).
      { destruct Hq as [Hq|Hq]; [assert (E : sc = eval_trial true md x (sl_score l) t') by congruence; rewrite E; apply Qle_refl|]. pose proof (sorted_order trials) as So. rewrite Es in So.
        inversion So as [|? ? _ So']; subst. rewrite Forall_forall in So'. exact (So' _ Hq). }
      destruct Sc as (_ & _ & _ & _ & _ & _ & G & _), Sc' as (_ & _ & _ & _ & _ & _ & G' & _). cbv zeta in G, G'.
      fold x. unfold augmented, value, violation. rewrite <- G, <- G'. exact Le.
  - rewrite <- Ep in *. set (sc := evaluate_multi md x (cb_alts p) (cb_related p) (sl_score l)).
    destruct (move_minv' is01 s0 (sl_ms l) (cb_alts p) (cb_related p) L I Ok) as [I1 X1].
    pose proof (multi_scores is01 s0 (sl_ms l) (sl_score l) _ _ L I T Ok) as Sc. fold md x sc in Sc.
    set (s1 := ms_update_move (sl_ms l) (cb_alts p) (cb_related p)) in *.
    assert (T1 : true_score (ms_model s0) (ms_x s1) sc) by (rewrite X1; exists x; exact Sc).
    pose proof (offer_facts is01 s0 s1 (sl_holder l) sc L I1 T1) as O.
    destruct (l_offer s1 (sl_holder l) sc) as [[s2 h2] st] eqn:El. destruct O as (O1 & O2 & O3 & O4).
    assert (Al : alike (ms_model s0) (ms_x s2) (ms_x s1)).
    { pose proof (alike_export is01 s0 s1 L (proj1 (proj2 I1))) as A.
      unfold l_offer in El. destruct (try_update _ _ _) as [h' st']. injection El as <- _ _. destruct (0 <? st')%Z; [exact A|apply alike_refl]. }
    set (keep := so_store o && sc_feasible sc). set (s3 := if keep then ms_export s2 else s2).
    assert (I3 : minv is01 s0 s3) by (unfold s3; destruct keep; [now apply export_good|exact O1]).
    assert (T3 : true_score (ms_model s0) (ms_x s3) sc) by (unfold s3; destruct keep; [apply (true_export is01); [exact L|apply O1|exact O2]|exact O2]).
    assert (A3 : alike (ms_model s0) (ms_x s3) (ms_x s1)).
    { unfold s3. destruct keep; [|exact Al]. eapply alike_trans; [|exact Al]. apply (alike_export is01); [exact L|apply O1]. }
    cbn [fst snd]. split.
    + unfold sinv. cbn [sl_ms sl_score sl_visited sl_feasible sl_holder]. split; [exact I3|]. split; [exact T3|]. split.
      { intros q Hq. apply in_app_or in Hq as [Hq|[<-|[]]]; [now apply Vi|exact O3]. }
      split.
      { intros y Hy. unfold keep in Hy. destruct (so_store o && sc_feasible sc) eqn:Ek; [|now apply Fe].
        apply in_app_or in Hy as [Hy|[<-|[]]]; [now apply Fe|]. apply andb_true_iff in Ek as [_ Ek]. now apply (true_feasible is01 s0 _ sc L). }
      unfold offers in *. rewrite map_app, fold_left_app, <- H. exact O4.
    + split; [reflexivity|]. split; [exact Hi|]. split; [cbn [sl_visited]; rewrite app_length; cbn [length]; lia|].
      intros Ad (C1 & pre & y & sy & C2 & C3). unfold schain. cbn [sl_visited sl_ms].
      assert (B : cb_alts p = [] \/ strictly_better (ms_model s0) (apply_move x (cb_alts p)) x).
      { apply (combine_better is01 s0 (sl_ms l)); auto. intros q Hq. destruct (Q q Hq) as (Q0 & Q1 & Q2 & Q3). split; [exact Q1|]. split; [exact Q2|].
        split; [|exact Q3]. destruct Ad as [Ad|Ad]; [left; exact Ad|right; now apply Ad]. }
      destruct B as [B|B]; [rewrite Ep in B; discriminate|]. fold x in X1. rewrite <- X1 in B.
      pose proof (alike_export is01 s0 s1 L (proj1 (proj2 I1))) as A1.
      assert (By : strictly_better (ms_model s0) (ms_x (ms_export s1)) y).
      { apply (better_alike _ (ms_x s1) x); [now apply alike_sym|now apply alike_sym|exact B]. }
      split.
      * apply fop_snoc; [exact C1|]. intros b Hb. rewrite C2 in Hb. apply in_app_or in Hb as [Hb|[<-|[]]]; [|exact By].
        rewrite C2 in C1. cbn [fst]. apply (better_trans _ _ y); [exact By|]. exact (fop_in_last _ _ _ C1 b Hb).
      * exists (sl_visited l), (ms_x (ms_export s1)), sc. split; [reflexivity|]. eapply alike_trans; [exact A1|now apply alike_sym].
Qed.

Definition moves_ok (is01 : nat -> bool) (s0 : mstate) (es : list senv) : Prop :=
  forall e t, In e es -> In t (se_moves e) -> trial_ok is01 s0 t /\ anchored (ms_model s0) t.
Lemma run_facts is01 s0 h0 o : loop_start is01 s0 -> forall es l, sinv is01 s0 h0 l -> moves_ok is01 s0 es ->
  let r := s_run o es l in
  sinv is01 s0 h0 (fst r) /\
  (Z.of_nat (length (sl_visited (fst r))) <= Z.of_nat (length (sl_visited l)) + Z.max 0 (so_iteration_max o - sl_iteration l))%Z /\
  ((so_adjust o = false \/ forall e t, In e es -> In t (se_moves e) -> tm_integer t = false) -> schain s0 l -> schain s0 (fst r)) /\
  match snd r with
  | None => (Z.of_nat (length es) <= Z.max 0 (so_iteration_max o - sl_iteration l))%Z
  | Some st => exists e, In e es /\ local_meaning o s0 e (fst r) st
  end.
Proof.
  intros L. induction es as [|e es IH]; intros l I K; cbv zeta; cbn [s_run].
  { cbn [fst snd length]. split; [exact I|]. split; [lia|]. split; [auto|lia]. }
  pose proof (iterate_facts is01 s0 h0 o e l L I (fun t Ht => K e t (or_introl eq_refl) Ht)) as F. cbv zeta in F.
  destruct (s_iterate o e l) as [l' [st|]]; cbn [fst snd] in *.
  - destruct F as (F1 & -> & F2). split; [exact F1|]. split; [lia|]. split; [auto|]. exists e. split; [now left|exact F2].
  - destruct F as (F1 & F2 & F3 & F4 & F5). destruct (IH l' F1 (fun e' t He Ht => K e' t (or_intror He) Ht)) as (G1 & G2 & G3 & G4). cbv zeta in *.
    split; [exact G1|]. split; [lia|]. split.
    + intros Ad C. apply G3; [destruct Ad as [Ad|Ad]; [now left|right; intros e' t He Ht; exact (Ad e' t (or_intror He) Ht)]|].
      apply F5; [|exact C]. destruct Ad as [Ad|Ad]; [now left|right; intros t Ht; exact (Ad e t (or_introl eq_refl) Ht)].
    + destruct (snd (s_run o es l')) as [st|].
      * destruct G4 as (e' & H1 & H2). exists e'. split; [now right|exact H2].
      * cbn [length]. lia.
Qed.

Lemma local_true is01 o s0 h0 m0 es : loop_start is01 s0 ->
  (forall e t, In e es -> In t (se_moves e) -> trial_ok is01 s0 t /\ anchored (ms_model s0) t) ->
  let l := fst (s_search o s0 h0 m0 es) in
  true_score (ms_model s0) (ms_x (sl_ms l)) (sl_score l) /\
  (forall y sc, In (y, sc) (sl_visited l) -> true_score (ms_model s0) y sc /\ (sc_feasible sc = true <-> satisfies (ms_model s0) y)) /\
  (forall y, In y (sl_feasible l) -> satisfies (ms_model s0) y) /\
  sl_holder l = fold_left (h_step true) (offers (sl_visited l)) (reset_local h0).
Proof.
  intros L K. cbv zeta. unfold s_search. destruct (setup_sinv is01 s0 h0 m0 L) as [I _].
  destruct (run_facts is01 s0 h0 o L es _ I K) as ((_ & T & V & F & H) & _). cbv zeta in *.
  split; [exact T|]. split; [|split; [exact F|exact H]].
  intros y sc Hy. pose proof (V (y, sc) Hy) as Ty. split; [exact Ty|exact (true_feasible is01 s0 y sc L Ty)].
Qed.
Lemma fop_nth {A} (R : A -> A -> Prop) l : ForallOrdPairs R l -> forall i j a b, (i < j)%nat -> nth_error l i = Some a -> nth_error l j = Some b -> R a b.
Proof.
  induction 1 as [|c l H1 H2 IH]; intros i j a b Hij Ha Hb; [destruct i; discriminate|]. destruct j as [|j]; [lia|]. cbn [nth_error] in Hb.
  destruct i as [|i]; cbn [nth_error] in Ha.
  - injection Ha as <-. rewrite Forall_forall in H1. apply H1. eapply nth_error_In; exact Hb.
  - apply (IH i j); auto. lia.
Qed.
Lemma local_improves is01 o s0 h0 m0 es : loop_start is01 s0 ->
  (forall e t, In e es -> In t (se_moves e) -> trial_ok is01 s0 t /\ anchored (ms_model s0) t) ->
  (so_adjust o = false \/ forall e t, In e es -> In t (se_moves e) -> tm_integer t = false) ->
  let l := fst (s_search o s0 h0 m0 es) in
  forall i j y y' sc sc', (i < j)%nat -> nth_error (sl_visited l) i = Some (y, sc) -> nth_error (sl_visited l) j = Some (y', sc') ->
  strictly_better (ms_model s0) y' y.
Proof.
  intros L K Ad. cbv zeta. unfold s_search. destruct (setup_sinv is01 s0 h0 m0 L) as [I C].
  destruct (run_facts is01 s0 h0 o L es _ I K) as (_ & _ & G & _). cbv zeta in *. destruct (G Ad C) as [Fo _].
  intros i j y y' sc sc' Hij H1 H2. exact (fop_nth _ _ Fo i j _ _ Hij H1 H2).
Qed.
Lemma local_stops is01 o s0 h0 m0 es : loop_start is01 s0 ->
  (forall e t, In e es -> In t (se_moves e) -> trial_ok is01 s0 t /\ anchored (ms_model s0) t) ->
  let r := s_search o s0 h0 m0 es in
  (Z.of_nat (length (sl_visited (fst r))) <= 1 + Z.max 0 (so_iteration_max o))%Z /\
  ((Z.max 0 (so_iteration_max o) < Z.of_nat (length es))%Z -> exists st, snd r = Some st) /\
  (forall st, snd r = Some st -> exists e, In e es /\ local_meaning o s0 e (fst r) st).
Proof.
  intros L K. cbv zeta. unfold s_search. destruct (setup_sinv is01 s0 h0 m0 L) as [I _].
  assert (V0 : length (sl_visited (s_setup s0 h0 m0)) = 1%nat /\ sl_iteration (s_setup s0 h0 m0) = 0%Z).
  { unfold s_setup. destruct (l_offer _ _ _) as [[s1 h1] st]. split; reflexivity. }
  destruct V0 as [V0 V1]. destruct (run_facts is01 s0 h0 o L es _ I K) as (_ & G1 & _ & G2). cbv zeta in *. rewrite V0, V1 in *.
  split; [lia|]. split.
  - intros Hl. destruct (snd (s_run o es (s_setup s0 h0 m0))) as [st|]; [now exists st|lia].
  - intros st E. rewrite E in G2. exact G2.
Qed.
