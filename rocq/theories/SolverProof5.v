(** Statuses of rounds and the number of visited solutions. *)
From Coq Require Import List ZArith QArith Qabs Lia Lqa Bool.
From Verif Require Import ExprModel ConstraintModel EvalModel SolutionModel SolutionSpec VariableModel PresolveModel
  SelectionModel SelectionSpec TabuModel LoopModel LoopSpec LocalModel LagrangeModel ControllerModel ControllerSpec SolverModel SolverSpec LoopProof3.
Import ListNotations.
Local Open Scope Z_scope.

Lemma replay_bits (b : Z) : 0 <= b -> forall vs h st, Z.testbit (replay h vs st) b = true <->
  Z.testbit st b = true \/ exists pre y sc post, vs = pre ++ (y, sc) :: post /\
    Z.testbit (snd (try_update (fold_left (h_step true) (map (fun q : (nat -> Z) * score => Offer (fst q) (snd q)) pre) h) y sc)) b = true.
Proof.
  intros Hb vs. induction vs as [|[y sc] vs IH]; intros h st.
  - cbn [replay]. split; [auto|]. intros [H|([|q pre] & y & sc & post & E & _)]; [exact H|discriminate|discriminate].
  - cbn [replay]. destruct (try_update h y sc) as [h' st'] eqn:T. rewrite IH, Z.lor_spec. split.
    + intros [H|(pre & y1 & sc1 & post & E & H)].
      * apply orb_prop in H as [H|H]; [now left|]. right. exists [], y, sc, vs. split; [reflexivity|]. cbn [map fold_left]. rewrite T. exact H.
      * right. exists ((y, sc) :: pre), y1, sc1, post. split; [now rewrite E|]. cbn [map fold_left fst snd]. unfold h_step at 2. rewrite T. exact H.
    + intros [H|(pre & y1 & sc1 & post & E & H)]; [left; rewrite H; reflexivity|].
      destruct pre as [|[y2 sc2] pre].
      * cbn [app] in E. assert (y = y1) by congruence. assert (sc = sc1) by congruence. subst y1 sc1. cbn [map fold_left] in H. rewrite T in H. cbn [snd] in H. left. rewrite H. apply orb_true_r.
      * cbn [app] in E. assert (y = y2) by congruence. assert (sc = sc2) by congruence. subst y2 sc2. right. exists pre, y1, sc1, post.
        split; [congruence|]. cbn [map fold_left fst snd] in H. unfold h_step at 2 in H. rewrite T in H. exact H.
Qed.
Lemma improves_iff v o : improves v o = true <-> better v o.
Proof.
  unfold improves, better. destruct o as [q|]; [|tauto]. destruct (Qlt_le_dec (v + EPS) q) as [L|L]; [tauto|]. split; [discriminate|]. intros H. exfalso. lra.
Qed.
Lemma status_bits (h : holder (nat -> Z)) y sc :
  (Z.testbit (snd (try_update h y sc)) 0 = true <-> better (sc_local_aug sc) (sl_obj (ho_local h))) /\
  (Z.testbit (snd (try_update h y sc)) 1 = true <-> better (sc_global_aug sc) (sl_obj (ho_global h))) /\
  (Z.testbit (snd (try_update h y sc)) 2 = true <-> sc_feasible sc = true /\ better (sc_objective sc) (sl_obj (ho_feasible h))).
Proof.
  rewrite <- !improves_iff. unfold try_update, try_slot.
  destruct (improves (sc_local_aug sc) (sl_obj (ho_local h))), (improves (sc_global_aug sc) (sl_obj (ho_global h))), (sc_feasible sc);
  try destruct (improves (sc_objective sc) (sl_obj (ho_feasible h))); cbn [snd]; cbn; intuition congruence.
Qed.
Lemma total_status_spec h0 first vs :
  let before pre := fold_left (h_step true) (ResetLocal :: Offer (fst first) (snd first) :: map (fun q : (nat -> Z) * score => Offer (fst q) (snd q)) pre) h0 in
  let some P := exists pre y sc post, vs = pre ++ (y, sc) :: post /\ P sc (before pre) in
  (Z.testbit (total_status h0 (first :: vs)) 0 = true <-> some (fun sc h => better (sc_local_aug sc) (sl_obj (ho_local h)))) /\
  (Z.testbit (total_status h0 (first :: vs)) 1 = true <-> some (fun sc h => better (sc_global_aug sc) (sl_obj (ho_global h)))) /\
  (Z.testbit (total_status h0 (first :: vs)) 2 = true <-> some (fun sc h => sc_feasible sc = true /\ better (sc_objective sc) (sl_obj (ho_feasible h)))).
Proof.
  cbv zeta. destruct first as [y0 sc0]. cbn [total_status fold_left fst snd h_step].
  assert (G : forall b (P : score -> holder (nat -> Z) -> Prop), 0 <= b -> (forall h y sc, Z.testbit (snd (try_update h y sc)) b = true <-> P sc h) ->
    (Z.testbit (replay (fst (try_update (reset_local h0) y0 sc0)) vs 0) b = true <->
     exists pre y sc post, vs = pre ++ (y, sc) :: post /\ P sc (fold_left (h_step true) (map (fun q : (nat -> Z) * score => Offer (fst q) (snd q)) pre) (fst (try_update (reset_local h0) y0 sc0))))).
  { intros b P Hb HP. rewrite (replay_bits b Hb), Z.testbit_0_l. split.
    - intros [H|(pre & y & sc & post & E & H)]; [discriminate|]. exists pre, y, sc, post. split; [exact E|]. now apply (HP _ y).
    - intros (pre & y & sc & post & E & H). right. exists pre, y, sc, post. split; [exact E|]. now apply HP. }
  split; [|split].
  - apply (G 0 (fun sc h => better (sc_local_aug sc) (sl_obj (ho_local h)))); [lia|]. intros h y sc. apply status_bits.
  - apply (G 1 (fun sc h => better (sc_global_aug sc) (sl_obj (ho_global h)))); [lia|]. intros h y sc. apply status_bits.
  - apply (G 2 (fun sc h => sc_feasible sc = true /\ better (sc_objective sc) (sl_obj (ho_feasible h)))); [lia|]. intros h y sc. apply status_bits.
Qed.

(** ** How many solutions a round visits *)
Lemma advance_visits o draw l alts related sc l' : l_advance o draw l alts related sc = Some l' ->
  length (lp_visited l') = S (length (lp_visited l)) /\ lp_iteration l' = lp_iteration l.
Proof.
  unfold l_advance. destruct (l_offer _ _ _) as [[s1 h1] st]. destruct (tenure_update _ _ _ _ _ _ _) as [t|]; [|discriminate].
  intros E. apply (f_equal (fun q => match q with Some a => a | None => l end)) in E. cbn beta iota in E. subst l'. cbn [lp_visited lp_iteration].
  rewrite app_length. cbn [length]. split; [lia|reflexivity].
Qed.
Lemma modify_visits o mods : forall l l', l_modify o mods l = Some l' -> length (lp_visited l') = (length (lp_visited l) + length mods)%nat /\ lp_iteration l' = lp_iteration l.
Proof.
  induction mods as [|[t draw] mods IH]; intros l l'; cbn [l_modify].
  - intros E. injection E as <-. cbn [length]. split; [lia|reflexivity].
  - destruct (l_advance _ _ _ _ _ _) as [l1|] eqn:A; [|discriminate]. intros E. destruct (IH _ _ E) as [H1 H2]. destruct (advance_visits _ _ _ _ _ _ _ A) as [A1 A2].
    cbn [length]. split; [lia|congruence].
Qed.
Lemma iterate_visits o e l : let r := l_iterate o e l in
  lp_visited (fst r) = lp_visited l \/
  (lp_iteration l < lo_iteration_max o /\ length (lp_visited (fst r)) = S (length (lp_visited l)) /\ (snd r = None -> lp_iteration (fst r) = lp_iteration l + 1)).
Proof.
  cbv zeta. unfold l_iterate. destruct (en_time_over e); [now left|]. destruct (Z.leb_spec (lo_iteration_max o) (lp_iteration l)) as [L|L]; [now left|].
  destruct (reach_target o (lp_holder l)); [now left|]. destruct (early_stop o (lp_ineffective l)); [now left|].
  destruct (filter (available (lp_used l)) (en_moves e)) as [|t0 ts]; [now left|]. destruct (gap_closed (lp_holder l)); [now left|].
  destruct (select_move _ _ _) as [[i q]|]; [|now left]. destruct (nth_error (t0 :: ts) i) as [t|]; [|now left].
  destruct (nth_error _ i) as [tr|]; [|now left].
  destruct (l_advance _ _ _ _ _ _) as [l1|] eqn:A; [|now left]. destruct (advance_visits _ _ _ _ _ _ _ A) as [A1 A2].
  right. split; [exact L|]. cbn [fst snd lp_visited lp_iteration]. split; [exact A1|]. destruct (_ && too_large _ _ _); [discriminate|]. intros _. lia.
Qed.
Lemma iterate_none o e l : snd (l_iterate o e l) = None -> lp_visited (fst (l_iterate o e l)) <> lp_visited l.
Proof.
  unfold l_iterate. destruct (en_time_over e); [discriminate|]. destruct (Z.leb_spec (lo_iteration_max o) (lp_iteration l)) as [L|L]; [discriminate|].
  destruct (reach_target o (lp_holder l)); [discriminate|]. destruct (early_stop o (lp_ineffective l)); [discriminate|].
  destruct (filter (available (lp_used l)) (en_moves e)) as [|t0 ts]; [discriminate|]. destruct (gap_closed (lp_holder l)); [discriminate|].
  destruct (select_move _ _ _) as [[i q]|]; [|discriminate]. destruct (nth_error (t0 :: ts) i) as [t|]; [|discriminate].
  destruct (nth_error _ i) as [tr|]; [|discriminate].
  destruct (l_advance _ _ _ _ _ _) as [l1|] eqn:A; [|discriminate]. destruct (advance_visits _ _ _ _ _ _ _ A) as [A1 A2].
  cbn [fst snd lp_visited]. intros _ E. rewrite E in A1. lia.
Qed.
Lemma run_visits o es : forall l, Z.of_nat (length (lp_visited (fst (l_run o es l)))) <= Z.of_nat (length (lp_visited l)) + Z.max 0 (lo_iteration_max o - lp_iteration l).
Proof.
  induction es as [|e es IH]; intros l; cbn [l_run]; [cbn [fst]; lia|].
  pose proof (iterate_visits o e l) as H. cbv zeta in H. pose proof (iterate_none o e l) as N. destruct (l_iterate o e l) as [l' [st|]]; cbn [fst snd] in *.
  - destruct H as [->|(L & E & _)]; [lia|]. rewrite E. lia.
  - specialize (IH l'). destruct H as [E|(L & E & I)]; [exfalso; apply (N eq_refl E)|]. rewrite (I eq_refl) in IH. lia.
Qed.
Lemma search_visits o s h m mods es : Z.of_nat (length (lp_visited (fst (l_search o s h m mods es)))) <= 1 + Z.of_nat (length mods) + Z.max 0 (lo_iteration_max o).
Proof.
  unfold l_search. assert (V0 : length (lp_visited (l_setup o s h m)) = 1%nat /\ lp_iteration (l_setup o s h m) = 0).
  { unfold l_setup. destruct (l_offer _ _ _) as [[a b] c]. split; reflexivity. }
  destruct V0 as [V0 I0]. destruct (l_modify o mods (l_setup o s h m)) as [l'|] eqn:M.
  - destruct (modify_visits _ _ _ _ M) as [A B]. pose proof (run_visits o es l') as R. rewrite B, I0, A, V0 in R. lia.
  - cbn [fst]. rewrite V0. lia.
Qed.
Lemma update_limit o lg root r h m nmut draw md k k' cs' : k_update o lg root r h m nmut draw md k = Some (k', cs') ->
  k_iteration_max k <= Z.max (co_tenure o) (co_iteration_max o) -> k_iteration_max k' <= Z.max (co_tenure o) (co_iteration_max o).
Proof.
  unfold k_update. destruct (sl_obj (ho_global h)) as [qg|]; [|discriminate]. destruct (sl_stored (ho_global h)) as [[yg sg]|]; [|discriminate].
  destruct (sl_obj (ho_local h)) as [ql|]; [|discriminate]. destruct (sl_stored (ho_local h)) as [[yl sl]|]; [|discriminate].
  match goal with |- context [fl_relax ?f] => set (fl0 := f) end.
  set (fl := if co_inner_breaker o && fl_tighten fl0 && _ then _ else fl0).
  match goal with |- match ?pp with _ => _ end = _ -> _ => destruct pp as [[cs ex]|]; [|discriminate] end.
  match goal with |- match ?pp with _ => _ end = _ -> _ => destruct pp as [x|]; [|discriminate] end.
  intros U B. assert (E : k_iteration_max k' = if co_auto_iteration o then next_iteration_max o (Z.testbit (rr_status r) 1) r (k_iteration_max k) else k_iteration_max k).
  { clearbody fl. destruct (fl_relax fl); apply (f_equal (fun o => match o with Some a => fst a | None => k end)) in U; cbn beta iota in U; cbn [fst] in U; subst k'; reflexivity. }
  rewrite E. destruct (co_auto_iteration o); [|exact B]. unfold next_iteration_max. destruct (negb (rr_iterations r =? k_iteration_max k)); [exact B|]. lia.
Qed.

Lemma most_pos o ds : 0 <= most o ds.
Proof. induction ds as [|d ds IH]; cbn [most]; lia. Qed.
Lemma rounds_visits o lg root p limit target ds : forall i last k r, k_iteration_max k <= Z.max (co_tenure o) (co_iteration_max o) ->
  Z.of_nat (length (visited (reached (v_rounds o lg root p limit target ds i last k r)))) <= Z.of_nat (length (visited r)) + most o ds.
Proof.
  induction ds as [|d ds IH]; intros i last k r B; cbn [v_rounds most]; [cbn [reached]; lia|]. pose proof (most_pos o ds) as M0.
  destruct (td_time_over d); [cbn [reached]; lia|]. destruct (limit <=? i); [cbn [reached]; lia|].
  destruct (target_reached target (rn_holder r)); [cbn [reached]; lia|].
  destruct ((0 <? i) && match last with Some Optimal => true | _ => false end); [cbn [reached]; lia|].
  destruct (import_sparse p (rn_ms r) (k_current k)) as [s|]; [|cbn [reached]; lia].
  pose proof (search_visits (governed k (td_options d)) s (rn_holder r) (rn_mem r) (td_mods d) (td_envs d)) as V. cbn [governed lo_iteration_max] in V.
  fold (governed k (td_options d)) in V.
  destruct (l_search (governed k (td_options d)) s (rn_holder r) (rn_mem r) (td_mods d) (td_envs d)) as [l st]. cbn [fst] in V.
  fold (offers (lp_visited l)).
  set (r' := mkRun (lp_ms l) (lp_holder l) (lp_mem l) (rn_current r) (rn_events r ++ [ResetLocal] ++ offers (lp_visited l)) (rn_starts r ++ [k_current k]) (rn_rounds r + 1)).
  assert (Vl : Z.of_nat (length (visited r')) = Z.of_nat (length (visited r)) + Z.of_nat (length (lp_visited l))).
  { unfold visited. cbn [r' rn_events]. rewrite offered_app, map_app, app_length. cbn [app offered]. rewrite offered_offers, !map_length. lia. }
  match goal with |- context [k_update o lg root ?rs ?h ?m ?n ?dr ?md k] => destruct (k_update o lg root rs h m n dr md k) as [[k' cs']|] eqn:U end.
  - pose proof (update_limit _ _ _ _ _ _ _ _ _ _ _ _ U B) as B'.
    specialize (IH (i + 1) st k' (mkRun (with_constraints (rn_ms r') cs') (rn_holder r') (rn_mem r') (rn_current r') (rn_events r') (rn_starts r') (rn_rounds r')) B').
    match type of IH with _ <= Z.of_nat (length (visited ?q)) + _ => change (visited q) with (visited r') in IH end.
    eapply Z.le_trans; [exact IH|]. lia.
  - cbn [reached]. lia.
Qed.
Lemma tabu_visits o lg root p limit target ds r :
  Z.of_nat (length (visited (reached (v_tabu o lg root p limit target ds r)))) <= Z.of_nat (length (visited r)) + most o ds.
Proof.
  unfold v_tabu. pose proof (rounds_visits o lg root p limit target ds 0 None (k_setup o (rn_mem r) (rn_current r)) r) as H.
  assert (B : k_iteration_max (k_setup o (rn_mem r) (rn_current r)) <= Z.max (co_tenure o) (co_iteration_max o)).
  { unfold k_setup. cbn [k_iteration_max]. lia. }
  specialize (H B). destruct (v_rounds o lg root p limit target ds 0 None (k_setup o (rn_mem r) (rn_current r)) r) as [r1|r1 y|r1]; cbn [bind reached] in *; [|exact H|exact H].
  unfold visited, with_current in *. cbn [rn_events]. exact H.
Qed.
