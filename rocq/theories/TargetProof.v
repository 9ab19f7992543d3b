(** Proofs for C94: the searches stop when the target is met. *)
From Coq Require Import List ZArith QArith Qabs Lia Lqa Bool.
From Verif Require Import ExprModel ExprSpec ConstraintModel EvalModel EvalSpec EvalSpec2 SolutionModel SolutionSpec SolutionProof TabuModel LoopModel LoopSpec LoopProof2 LoopProof4 LocalModel LagrangeModel ControllerModel SolverModel SolverSpec
  TargetModel TargetSpec.
Import ListNotations.
Local Open Scope Q_scope.

Notation pair := ((nat -> Z) * score)%type.

Section Stop.
Variables (t : Q) (hit ok : Q -> Prop).
Hypothesis H1 : forall v, hit v -> v <= t.
Hypothesis H2 : forall v q, hit v -> ok q -> q <= v + EPS -> q <= t.

Definition due (h : holder (nat -> Z)) : Prop := target_reached t h = true.
Definition slot_ok (h : holder (nat -> Z)) : Prop := forall q, sl_obj (ho_feasible h) = Some q -> ok q.
Definition hits (q : pair) : Prop := sc_feasible (snd q) = true /\ hit (sc_objective (snd q)).
Definition fine (q : pair) : Prop := sc_feasible (snd q) = true -> ok (sc_objective (snd q)).

Lemma feasible_step b (h : holder (nat -> Z)) y sc : ho_feasible (h_step b h (Offer y sc)) = if sc_feasible sc then fst (try_slot (sc_objective sc) y sc (ho_feasible h)) else ho_feasible h.
Proof.
  cbn [h_step]. unfold try_update. destruct (try_slot (sc_local_aug sc) y sc (ho_local h)) as [l bl]. destruct (try_slot (sc_global_aug sc) y sc (ho_global h)) as [g bg].
  destruct (sc_feasible sc); [|reflexivity]. destruct (try_slot (sc_objective sc) y sc (ho_feasible h)) as [f bf]. reflexivity.
Qed.
Lemma step_ok b h y sc : slot_ok h -> fine (y, sc) -> slot_ok (h_step b h (Offer y sc)).
Proof.
  unfold slot_ok, fine. rewrite feasible_step. cbn [snd]. intros A B q. destruct (sc_feasible sc); [|apply A]. unfold try_slot. destruct (improves _ _); cbn [fst sl_obj]; [|apply A].
  intros E. injection E as <-. now apply B.
Qed.
Lemma due_le h : due h <-> exists q, sl_obj (ho_feasible h) = Some q /\ q <= t.
Proof.
  unfold due, target_reached. destruct (sl_obj (ho_feasible h)) as [q|].
  - rewrite Qle_bool_iff. split; [intros; now exists q|]. intros (q' & E & L). injection E as ->. exact L.
  - split; [discriminate|]. intros (q & E & _). discriminate.
Qed.
Lemma step_due b h e : due h -> due (h_step b h e).
Proof.
  rewrite !due_le. intros (q & E & L). pose proof (proj1 (incumbents_monotone b [e] h)) as M. cbn [fold_left] in M. rewrite E in M.
  destruct (sl_obj (ho_feasible (h_step b h e))) as [q'|]; [|destruct M]. exists q'. split; [reflexivity|]. cbn in M. lra.
Qed.
Lemma step_hit b h y sc : slot_ok h -> hits (y, sc) -> due (h_step b h (Offer y sc)).
Proof.
  unfold hits, slot_ok. cbn [snd]. intros A [F B]. rewrite due_le, feasible_step, F. unfold try_slot, improves.
  destruct (sl_obj (ho_feasible h)) as [q|] eqn:E.
  - destruct (Qlt_le_dec (sc_objective sc + EPS) q) as [L|L]; cbn [fst sl_obj]; [exists (sc_objective sc); auto|]. exists q. split; [exact E|]. apply (H2 (sc_objective sc)); auto.
  - exists (sc_objective sc). cbn. auto.
Qed.
Lemma dual_due b h q : due (offer_dual b h q) <-> due h.
Proof. reflexivity. Qed.
Lemma dual_ok b h q : slot_ok (offer_dual b h q) <-> slot_ok h.
Proof. reflexivity. Qed.

(** A search: what it has visited and the incumbents.  After a hit at most [n] more. *)
Definition spans (n : nat) (vs : list pair) : Prop := forall pre q post, vs = pre ++ q :: post -> hits q -> (length post <= n)%nat.
Definition sinv (n : nat) (h0 : holder (nat -> Z)) (vs : list pair) (h : holder (nat -> Z)) : Prop :=
  (due h0 -> due h) /\ (Forall fine vs -> slot_ok h /\ ((exists q, In q vs /\ hits q) -> due h) /\ spans n vs).
Lemma sinv_weaken n m h0 vs h : (n <= m)%nat -> sinv n h0 vs h -> sinv m h0 vs h.
Proof. intros L [A B]. split; [exact A|]. intros F. destruct (B F) as (B1 & B2 & B3). split; [exact B1|]. split; [exact B2|]. intros pre q post E Hq. specialize (B3 pre q post E Hq). lia. Qed.
Lemma sinv_start h0 y sc : slot_ok h0 -> sinv 0 h0 [(y, sc)] (h_step true (reset_local h0) (Offer y sc)).
Proof.
  intros S0. split.
  - intros D. apply step_due. exact D.
  - intros F. inversion F; subst. split; [now apply step_ok|]. split.
    + intros (q & [<-|[]] & Hq). now apply step_hit.
    + intros pre q post E _. destruct pre as [|a [|b pre]]; cbn in E; try discriminate. injection E as _ <-. cbn. lia.
Qed.
Lemma last_split {A} (vs : list A) x pre q post : vs ++ [x] = pre ++ q :: post -> (post = [] /\ pre = vs /\ q = x) \/ exists post', post = post' ++ [x] /\ vs = pre ++ q :: post'.
Proof.
  destruct (exists_last (l := q :: post) ltac:(discriminate)) as (l & z & E). intros H. rewrite E in H. rewrite app_assoc in H. apply app_inj_tail in H as [Ha Hb]. subst z.
  destruct l as [|a l]; cbn in E; injection E as Ea Eb.
  - left. subst. split; [reflexivity|]. split; [now rewrite app_nil_r|reflexivity].
  - right. exists l. subst a. split; [exact Eb|exact Ha].
Qed.
(** One more solution, the target not met: nothing before was a hit. *)
Lemma sinv_grow n h0 vs h y sc : ~ due h -> sinv n h0 vs h -> sinv n h0 (vs ++ [(y, sc)]) (h_step true h (Offer y sc)).
Proof.
  intros N [A B]. split; [intros D; apply step_due; auto|]. intros F. apply Forall_app in F as [F1 F2]. inversion F2; subst. destruct (B F1) as (B1 & B2 & B3).
  split; [now apply step_ok|]. split.
  - intros (q & I & Hq). apply in_app_iff in I as [I|[<-|[]]]; [apply step_due, B2; now exists q|now apply step_hit].
  - intros pre q post E Hq. apply last_split in E as [(-> & _)|(post' & -> & ->)]; [cbn; lia|].
    exfalso. apply N, B2. exists q. split; [apply in_app_iff; right; now left|exact Hq].
Qed.
(** One more solution in any case. *)
Lemma sinv_more n h0 vs h y sc : (length vs <= S n)%nat -> sinv n h0 vs h -> sinv (S n) h0 (vs ++ [(y, sc)]) (h_step true h (Offer y sc)).
Proof.
  intros L [A B]. split; [intros D; apply step_due; auto|]. intros F. apply Forall_app in F as [F1 F2]. inversion F2; subst. destruct (B F1) as (B1 & B2 & B3).
  split; [now apply step_ok|]. split.
  - intros (q & I & Hq). apply in_app_iff in I as [I|[<-|[]]]; [apply step_due, B2; now exists q|now apply step_hit].
  - intros pre q post E Hq. apply (f_equal (@length _)) in E. rewrite !app_length in E. cbn [length] in E. lia.
Qed.

(** ** The tabu search *)
Lemma advance_grow o draw l alts related sc l' : l_advance o draw l alts related sc = Some l' ->
  exists y, lp_visited l' = lp_visited l ++ [(y, sc)] /\ lp_holder l' = h_step true (lp_holder l) (Offer y sc).
Proof.
  intros E. unfold l_advance in E. cbv zeta in E. pose proof (offer_holder (ms_update_move (lp_ms l) alts related) (lp_holder l) sc) as Oh.
  destruct (l_offer _ _ _) as [[s1 h1] st]. destruct (tenure_update _ _ _ _ _ _ _) as [q|]; [|discriminate]. injection E as <-.
  eexists. cbn [lp_visited lp_holder]. split; [reflexivity|exact Oh].
Qed.
Lemma modify_sinv o h0 mods : forall n l l', (length (lp_visited l) <= S n)%nat -> sinv n h0 (lp_visited l) (lp_holder l) -> l_modify o mods l = Some l' ->
  sinv (n + length mods) h0 (lp_visited l') (lp_holder l').
Proof.
  induction mods as [|[mv draw] mods IH]; intros n l l' L I E; cbn [l_modify] in E.
  - injection E as <-. cbn [length]. rewrite Nat.add_0_r. exact I.
  - destruct (l_advance _ _ _ _ _ _) as [l1|] eqn:A; [|discriminate]. apply advance_grow in A as (y & V & H). cbn [length]. rewrite Nat.add_succ_r. change (S (n + length mods))%nat with (S n + length mods)%nat.
    apply (IH (S n) l1 l'); [rewrite V, app_length; cbn [length]; lia| |exact E]. rewrite V, H. now apply sinv_more.
Qed.
Lemma reach_due o h : lo_target o = t -> reach_target o h = true <-> due h.
Proof. intros E. unfold reach_target, due, target_reached. rewrite E. reflexivity. Qed.
Lemma iterate_sinv o n h0 e l : lo_target o = t -> sinv n h0 (lp_visited l) (lp_holder l) ->
  let l' := fst (l_iterate o e l) in sinv n h0 (lp_visited l') (lp_holder l').
Proof.
  intros T I. unfold l_iterate. cbv zeta. destruct (en_time_over e); [exact I|]. destruct (_ <=? _)%Z; [exact I|]. destruct (reach_target o (lp_holder l)) eqn:R; [exact I|].
  assert (N : ~ due (lp_holder l)) by (rewrite <- (reach_due o _ T), R; discriminate).
  destruct (early_stop _ _); [exact I|]. destruct (filter _ _) as [|m ms]; [exact I|]. destruct (gap_closed _); [exact I|]. destruct (select_move _ _ _) as [[i sc0]|]; [|exact I].
  destruct (nth_error (m :: ms) i) as [tm|]; [|exact I]. destruct (nth_error (map _ _) i) as [tr|]; [|exact I].
  match goal with |- context [l_advance ?a ?b ?c ?d ?e ?f] => destruct (l_advance a b c d e f) as [l1|] eqn:A end; [|exact I].
  apply advance_grow in A as (y & V & H). cbn [fst lp_visited lp_holder]. rewrite V, H. now apply sinv_grow.
Qed.
Lemma run_sinv o n h0 es : lo_target o = t -> forall l, sinv n h0 (lp_visited l) (lp_holder l) ->
  let l' := fst (l_run o es l) in sinv n h0 (lp_visited l') (lp_holder l').
Proof.
  intros T. induction es as [|e es IH]; intros l I; [exact I|]. cbn [l_run]. pose proof (iterate_sinv o n h0 e l T I) as K.
  destruct (l_iterate o e l) as [l' [st|]]; [exact K|]. now apply IH.
Qed.
Lemma search_sinv o s0 h0 m0 mods es : lo_target o = t -> slot_ok h0 ->
  let l := fst (l_search o s0 h0 m0 mods es) in sinv (length mods) h0 (lp_visited l) (lp_holder l).
Proof.
  intros T S0. unfold l_search. cbv zeta. set (l := l_setup o s0 h0 m0).
  assert (I : sinv 0 h0 (lp_visited l) (lp_holder l) /\ length (lp_visited l) = 1%nat).
  { unfold l, l_setup. cbv zeta. pose proof (offer_holder (ms_update s0) (reset_local h0) (evaluate (ms_model (ms_update s0)) (ms_x (ms_update s0)) [])) as Oh.
    destruct (l_offer _ _ _) as [[s1 h1] st]. cbn [fst snd] in Oh. cbn [lp_visited lp_holder]. rewrite Oh. split; [now apply sinv_start|reflexivity]. }
  clearbody l. destruct I as [I L]. destruct (l_modify o mods l) as [l1|] eqn:M; [|apply (sinv_weaken 0); [lia|exact I]].
  apply run_sinv; [exact T|]. apply (modify_sinv o h0 mods 0 l l1); [lia|exact I|exact M].
Qed.

(** ** The local search *)
Lemma s_iterate_sinv o h0 e l : so_target o = t -> sinv 0 h0 (sl_visited l) (sl_holder l) ->
  let l' := fst (s_iterate o e l) in sinv 0 h0 (sl_visited l') (sl_holder l').
Proof.
  intros T I. unfold s_iterate. cbv zeta. destruct (se_time_over e); [exact I|]. destruct (_ <=? _)%Z; [exact I|].
  change (match sl_obj (ho_feasible (sl_holder l)) with Some q => Qle_bool q (so_target o) | None => false end) with (target_reached (so_target o) (sl_holder l)).
  rewrite T. destruct (target_reached t (sl_holder l)) eqn:R; [exact I|].
  assert (N : ~ due (sl_holder l)) by (unfold due; rewrite R; discriminate).
  destruct (se_moves e) as [|m ms]; [exact I|]. destruct (cb_alts _) as [|a alts]; [exact I|].
  match goal with |- context [l_offer ?a ?b ?c] => pose proof (offer_holder a b c) as Oh; destruct (l_offer a b c) as [[s2 h] st] end.
  cbn [fst snd] in Oh. cbn [fst sl_visited sl_holder]. rewrite Oh. now apply sinv_grow.
Qed.
Lemma s_search_sinv o s0 h0 m0 es : so_target o = t -> slot_ok h0 ->
  let l := fst (s_search o s0 h0 m0 es) in sinv 0 h0 (sl_visited l) (sl_holder l).
Proof.
  intros T S0. unfold s_search. assert (I : sinv 0 h0 (sl_visited (s_setup s0 h0 m0)) (sl_holder (s_setup s0 h0 m0))).
  { unfold s_setup. cbv zeta. pose proof (offer_holder (ms_update s0) (reset_local h0) (evaluate (ms_model (ms_update s0)) (ms_x (ms_update s0)) [])) as Oh.
    destruct (l_offer _ _ _) as [[s1 h1] st]. cbn [fst snd] in Oh. cbn [sl_visited sl_holder]. rewrite Oh. now apply sinv_start. }
  revert I. generalize (s_setup s0 h0 m0) as l. induction es as [|e es IH]; intros l I; [exact I|]. cbn [s_run]. pose proof (s_iterate_sinv o h0 e l T I) as K.
  destruct (s_iterate o e l) as [l' [st|]]; [exact K|]. now apply IH.
Qed.

(** ** The Lagrange dual search *)
Lemma g_iterate_sinv o minimize vars lo hi h0 e l : go_target o = t -> sinv 0 h0 (gl_visited l) (gl_holder l) ->
  let l' := fst (g_iterate o minimize vars lo hi e l) in sinv 0 h0 (gl_visited l') (gl_holder l').
Proof.
  intros T I. unfold g_iterate. cbv zeta. destruct e; [exact I|]. destruct (_ <=? _)%Z; [exact I|].
  change (match sl_obj (ho_feasible (gl_holder l)) with Some q => Qle_bool q (go_target o) | None => false end) with (target_reached (go_target o) (gl_holder l)).
  rewrite T. destruct (target_reached t (gl_holder l)) eqn:R; [exact I|].
  assert (N : ~ due (gl_holder l)) by (unfold due; rewrite R; discriminate).
  match goal with |- context [l_offer ?a ?b ?c] => pose proof (offer_holder a b c) as Oh; destruct (l_offer a b c) as [[s2 h] st] end.
  cbn [fst snd] in Oh. match goal with |- context [match ?f with Some _ => _ | None => _ end] => destruct f as [q|]; [|exact I] end. cbn [fst gl_visited gl_holder]. rewrite Oh. now apply sinv_grow.
Qed.
Lemma g_search_sinv o minimize vars lo hi s0 h0 clock : go_target o = t -> slot_ok h0 ->
  let l := fst (g_search o minimize vars lo hi s0 h0 clock) in sinv 0 h0 (gl_visited l) (gl_holder l).
Proof.
  intros T S0. unfold g_search. assert (I : sinv 0 h0 (gl_visited (g_setup o (length vars) s0 h0)) (gl_holder (g_setup o (length vars) s0 h0))).
  { unfold g_setup. cbv zeta. pose proof (offer_holder (ms_update s0) (reset_local h0) (evaluate (ms_model (ms_update s0)) (ms_x (ms_update s0)) [])) as Oh.
    destruct (l_offer _ _ _) as [[s1 h1] st]. cbn [fst snd] in Oh. cbn [gl_visited gl_holder]. rewrite Oh. now apply sinv_start. }
  revert I. generalize (g_setup o (length vars) s0 h0) as l. induction clock as [|e es IH]; intros l I; [exact I|]. cbn [g_run]. pose proof (g_iterate_sinv o minimize vars lo hi h0 e l T I) as K.
  destruct (g_iterate o minimize vars lo hi e l) as [l' [st|]]; [exact K|]. now apply IH.
Qed.

(** ** The run *)
Definition brief (n : nat) (es : list (h_event (nat -> Z))) : Prop := forall pre y sc post, es = pre ++ Offer y sc :: post -> hits (y, sc) ->
  ~ In ResetLocal post /\ (length (offered post) <= n)%nat.
Definition kinv (n : nat) (r : run) : Prop := Forall fine (offered (rn_events r)) ->
  slot_ok (rn_holder r) /\ ((exists q, In q (offered (rn_events r)) /\ hits q) -> due (rn_holder r)) /\ brief n (rn_events r).
Lemma offered_map vs : offered (map (fun q : pair => Offer (fst q) (snd q)) vs) = vs.
Proof. induction vs as [|[y sc] vs IH]; cbn; [reflexivity|now rewrite IH]. Qed.
Lemma app_split {A} (a b pre post : list A) x : a ++ b = pre ++ x :: post -> (exists c, a = pre ++ x :: c /\ post = c ++ b) \/ exists c, b = c ++ x :: post.
Proof.
  revert pre. induction a as [|z a IH]; intros pre E; [right; exists pre; exact E|]. destruct pre as [|w pre]; cbn in E; injection E as -> E.
  - left. exists a. split; [reflexivity|now symmetry].
  - destruct (IH pre E) as [(c & -> & ->)|(c & ->)]; [left; exists c; auto|right; now exists c].
Qed.
Lemma in_offered {S} (y : S) sc es : In (Offer y sc) es -> In (y, sc) (offered es).
Proof. induction es as [|e es IH]; [intros []|]. intros [->|H]; [now left|]. destruct e; cbn [offered]; [right|..]; now apply IH. Qed.
(** A search that begins when the target is not met. *)
Lemma search_kinv n m r ms h mem cur dual starts k vs : ~ due (rn_holder r) -> (m <= n)%nat -> kinv n r -> (forall e, In e dual -> exists q, e = OfferDual q) ->
  (slot_ok (rn_holder r) -> sinv m (rn_holder r) vs h) ->
  kinv n (mkRun ms h mem cur (rn_events r ++ [ResetLocal] ++ map (fun q : pair => Offer (fst q) (snd q)) vs ++ dual) starts k).
Proof.
  intros N Hm K Du Si. unfold kinv. cbn [rn_events rn_holder].
  assert (Od : offered dual = []). { clear -Du. induction dual as [|e dual IH]; [reflexivity|]. destruct (Du e (or_introl eq_refl)) as [q ->]. cbn. apply IH. intros; apply Du; now right. }
  rewrite offered_app. change (offered ([ResetLocal] ++ ?l)) with (offered l). cbn [app offered]. rewrite offered_app, offered_map, Od, app_nil_r.
  intros F. apply Forall_app in F as [F1 F2]. destruct (K F1) as (K1 & K2 & K3). destruct (Si K1) as [_ S2]. destruct (S2 F2) as (S3 & S4 & S5).
  assert (Nh : forall q, In q (offered (rn_events r)) -> ~ hits q) by (intros q I Hq; apply N, K2; now exists q).
  split; [exact S3|]. split.
  - intros (q & I & Hq). apply in_app_iff in I as [I|I]; [destruct (Nh q I Hq)|]. apply S4. now exists q.
  - intros pre y sc post E Hq. apply app_split in E as [(c & E & _)|(c & E)].
    + destruct (Nh (y, sc)); [|exact Hq]. rewrite E, offered_app. apply in_app_iff. right. now left.
    + destruct c as [|e c]; cbn in E; [discriminate|]. injection E as _ E. apply app_split in E as [(d & E & ->)|(d & E)].
      * assert (Ex : exists v1 v2, vs = v1 ++ (y, sc) :: v2 /\ d = map (fun q : pair => Offer (fst q) (snd q)) v2).
        { clear -E. revert c E. induction vs as [|[z s] vs IH]; intros c E; [destruct c; discriminate|]. destruct c as [|w c]; cbn in E; injection E as E0 E.
          - subst. exists [], vs. split; [reflexivity|now symmetry].
          - destruct (IH c E) as (v1 & v2 & -> & ->). exists ((z, s) :: v1), v2. split; reflexivity. }
        destruct Ex as (v1 & v2 & -> & ->). split.
        -- intros I. apply in_app_iff in I as [I|I]; [apply in_map_iff in I as (q & I & _); discriminate|]. destruct (Du _ I); discriminate.
        -- rewrite offered_app, offered_map, Od, app_nil_r. specialize (S5 v1 (y, sc) v2 eq_refl Hq). lia.
      * destruct (Du (Offer y sc)) as [q Eq]; [rewrite E; apply in_app_iff; right; now left|discriminate].
Qed.
Definition kout (n : nat) (o : outcome run) : Prop := match o with Done r => kinv n r | Rejected r _ => kinv n r | NotANumber r => kinv n r end.
Lemma not_due r : target_reached t (rn_holder r) = false -> ~ due (rn_holder r).
Proof. unfold due. intros ->. discriminate. Qed.
Lemma lagrange_kinv n p g r : (forall a, g = Some a -> go_target (gg_options a) = t) -> kinv n r -> kout n (v_lagrange p g r).
Proof.
  intros T K. destruct g as [a|]; [|exact K]. cbn [v_lagrange]. rewrite (T a eq_refl). destruct (negb (gg_applicable a) || gg_late a); [exact K|]. cbn [orb].
  destruct (target_reached t (rn_holder r)) eqn:R; [exact K|]. apply not_due in R. destruct (import_sparse _ _ _) as [s|]; [|exact K]. cbn [kout].
  pose proof (fun S => g_search_sinv (gg_options a) (pb_minimize p) (gg_vars a) (gg_lo a) (gg_hi a) s (rn_holder r) (gg_clock a) (T a eq_refl) S) as Si. cbv zeta in Si.
  set (l := fst (g_search _ _ _ _ _ _ _ _)) in *.
  change (kinv n (mkRun (gl_ms l) (g_dual_bound (pb_minimize p) l) (rn_mem r) (rn_current r)
    (rn_events r ++ [ResetLocal] ++ map (fun q : pair => Offer (fst q) (snd q)) (gl_visited l) ++ match gl_lagrangian l with Some q => [OfferDual q] | None => [] end)
    (rn_starts r ++ [rn_current r]) (rn_rounds r))).
  apply (search_kinv n 0); [exact R|lia|exact K|intros e; destruct (gl_lagrangian l); [intros [<-|[]]; eauto|intros []]|].
  intros S. unfold g_dual_bound. destruct (gl_lagrangian l); exact (Si S).
Qed.
Lemma local_kinv n p g r : (forall a, g = Some a -> so_target (gc_options a) = t) -> kinv n r -> kout n (v_local p g r).
Proof.
  intros T K. destruct g as [a|]; [|exact K]. cbn [v_local]. rewrite (T a eq_refl). destruct (gc_late a); [exact K|]. cbn [orb].
  destruct (target_reached t (rn_holder r)) eqn:R; [exact K|]. apply not_due in R. destruct (import_sparse _ _ _) as [s|]; [|exact K]. cbn [kout].
  pose proof (fun S => s_search_sinv (gc_options a) s (rn_holder r) (rn_mem r) (gc_envs a) (T a eq_refl) S) as Si. cbv zeta in Si.
  set (l := fst (s_search _ _ _ _ _)) in *.
  change (kinv n (mkRun (sl_ms l) (sl_holder l) (sl_mem l) (rn_current r)
    (rn_events r ++ [ResetLocal] ++ map (fun q : pair => Offer (fst q) (snd q)) (sl_visited l)) (rn_starts r ++ [rn_current r]) (rn_rounds r))).
  rewrite <- (app_nil_r (map _ (sl_visited l))). apply (search_kinv n 0); [exact R|lia|exact K|intros e []|exact Si].
Qed.
Lemma rounds_kinv n o lg root p limit ds : (forall d, In d ds -> lo_target (td_options d) = t /\ (length (td_mods d) <= n)%nat) ->
  forall i last k r, kinv n r -> kout n (v_rounds o lg root p limit t ds i last k r).
Proof.
  induction ds as [|d ds IH]; intros T i last k r K; [exact K|]. cbn [v_rounds]. destruct (td_time_over d); [exact K|]. destruct (_ <=? _)%Z; [exact K|].
  destruct (target_reached t (rn_holder r)) eqn:R; [exact K|]. apply not_due in R. destruct (_ && _); [exact K|]. destruct (import_sparse _ _ _) as [s|]; [|exact K].
  destruct (T d (or_introl eq_refl)) as [T1 T2].
  pose proof (fun S => search_sinv (governed k (td_options d)) s (rn_holder r) (rn_mem r) (td_mods d) (td_envs d) T1 S) as Si. cbv zeta in Si.
  destruct (l_search _ _ _ _ _ _) as [l st]. cbn [fst] in Si. cbv zeta.
  assert (K' : kinv n (mkRun (lp_ms l) (lp_holder l) (lp_mem l) (rn_current r) (rn_events r ++ [ResetLocal] ++ map (fun q : pair => Offer (fst q) (snd q)) (lp_visited l))
     (rn_starts r ++ [k_current k]) (rn_rounds r + 1))).
  { rewrite <- (app_nil_r (map _ (lp_visited l))). apply (search_kinv n (length (td_mods d))); [exact R|exact T2|exact K|intros e []|exact Si]. }
  destruct (k_update _ _ _ _ _ _ _ _ _ _) as [[k' cs]|]; [|exact K']. apply IH; [intros d' Hd; apply T; now right|]. exact K'.
Qed.
Lemma solve_kinv n lg root p a s0 m0 : (forall g, in_lagrange a = Some g -> go_target (gg_options g) = t) -> (forall g, in_local a = Some g -> so_target (gc_options g) = t) ->
  in_target a = t -> (forall d, In d (in_rounds a) -> lo_target (td_options d) = t /\ (length (td_mods d) <= n)%nat) -> kinv n (ending (solve lg root p a s0 m0)).
Proof.
  intros T1 T2 T3 T4. unfold solve.
  assert (K0 : kinv n (v_pdlp p (in_pdlp a) (v_preprocess (in_naive a) s0 m0))).
  { assert (B : slot_ok (mkHolder false (mkSlot None None) (mkSlot None None) (mkSlot None None) (in_naive a))) by (intros q; discriminate).
    unfold v_preprocess. cbv zeta. set (y := ms_x _). set (sc := evaluate _ _ _).
    assert (Sp : forall es, (forall e, In e es -> exists q, e = OfferDual q) -> brief n (Offer y sc :: es)).
    { intros es D pre z sz post E _. assert (O : forall l, (forall e, In e l -> exists q : Q, e = @OfferDual (nat -> Z) q) -> ~ In ResetLocal l /\ offered l = []).
      { induction l as [|e l IH]; intros Dl; [split; [intros []|reflexivity]|]. destruct (Dl e (or_introl eq_refl)) as [q ->]. destruct IH as [I1 I2]; [intros; apply Dl; now right|].
        split; [intros [H|H]; [discriminate|auto]|exact I2]. }
      destruct pre as [|e pre]; cbn in E; injection E as E0 E.
      - subst. destruct (O post D) as [O1 O2]. split; [exact O1|]. rewrite O2. cbn. lia.
      - exfalso. destruct (D (Offer z sz)) as [q Eq]; [rewrite E; apply in_app_iff; right; now left|discriminate]. }
    destruct (in_pdlp a) as [q|]; cbn [v_pdlp]; unfold kinv; cbn [rn_events rn_holder app offered]; intros F; inversion F as [|? ? F1 F2]; subst;
      (split; [exact (step_ok true _ y sc B F1)|split; [intros (z & [<-|[]] & Hz); exact (step_hit true _ y sc B Hz)|apply Sp]]).
    - intros e [<-|[]]. eauto.
    - intros e []. }
  pose proof (lagrange_kinv n p (in_lagrange a) _ T1 K0) as K1. destruct (v_lagrange _ _ _) as [r1|r1 y|r1]; cbn [bind kout] in *; [|exact K1|exact K1].
  pose proof (local_kinv n p (in_local a) _ T2 K1) as K2. destruct (v_local _ _ _) as [r2|r2 y|r2]; cbn [bind kout] in *; [|exact K2|exact K2].
  unfold v_tabu. rewrite T3.
  pose proof (rounds_kinv n (in_control a) lg root p (in_limit a) (in_rounds a) T4 0%Z None (k_setup (in_control a) (rn_mem r2) (rn_current r2)) r2 K2) as K3.
  destruct (v_rounds _ _ _ _ _ _ _ _ _ _ _) as [r3|r3 y|r3]; cbn [bind kout] in *; [|exact K3|exact K3].
  unfold v_postprocess. cbv zeta. destruct (sl_stored _) as [[y sy]|]; [|exact K3]. destruct (import_kept _ _ _); exact K3.
Qed.
End Stop.
