(** Proofs for C94, continued: a target that is not met changes nothing in solve(). *)
From Coq Require Import List ZArith QArith Qabs Lia Lqa Bool.
From Verif Require Import ExprModel ExprSpec ConstraintModel EvalModel EvalSpec EvalSpec2 SolutionModel SolutionSpec SolutionProof VariableModel PresolveModel SelectionModel SelectionSpec TabuModel LoopModel LoopSpec LoopProof2 LoopProof4
  LocalModel LocalSpec LagrangeModel ControllerModel ControllerSpec SolverModel SolverSpec SolverProof SolverProof2 SolverProof3 TargetModel TargetSpec TargetProof TargetProof2 TargetProof3.
Import ListNotations.
Local Open Scope Q_scope.

Section Untouched.
Variables (u u' : Q).
Hypothesis H : u' <= u.

Definition end_of (o : outcome run) : run := match o with Done r => r | Rejected r _ => r | NotANumber r => r end.
Definition rslot (r : run) : Prop := slot_in (offered (rn_events r)) (rn_holder r).
Definition grows (r r' : run) : Prop := forall p, In p (offered (rn_events r)) -> In p (offered (rn_events r')).
Lemma missed_less r r' : grows r r' -> missed u (offered (rn_events r')) -> missed u (offered (rn_events r)).
Proof. intros G M p Hp. apply M, G, Hp. Qed.
Lemma rmissed r : rslot r -> missed u (offered (rn_events r)) -> target_reached u (rn_holder r) = false /\ target_reached u' (rn_holder r) = false.
Proof. intros S M. exact (missed_not u u' H _ _ S M). Qed.
Lemma offered_search es vs : offered (es ++ [ResetLocal] ++ map (fun q : pair => Offer (fst q) (snd q)) vs) = offered es ++ vs.
Proof. rewrite offered_app. cbn [app offered]. now rewrite offered_map. Qed.
Lemma offered_dual es vs (x : option Q) :
  offered (es ++ [ResetLocal] ++ map (fun q : pair => Offer (fst q) (snd q)) vs ++ match x with Some q => [OfferDual q] | None => [] end) = offered es ++ vs.
Proof. rewrite offered_app. cbn [app offered]. rewrite offered_app, offered_map. destruct x; cbn [offered]; now rewrite app_nil_r. Qed.

Definition lag (t : Q) (g : option glag) : option glag :=
  option_map (fun g => mkGlag (g_retarget t (gg_options g)) (gg_applicable g) (gg_late g) (gg_vars g) (gg_lo g) (gg_hi g) (gg_clock g)) g.
Definition loc (t : Q) (g : option gloc) : option gloc := option_map (fun g => mkGloc (s_retarget t (gc_options g)) (gc_late g) (gc_envs g)) g.
Definition rnd (t : Q) (d : tround) : tround :=
  mkTd (td_time_over d) (l_retarget t (td_options d)) (td_mods d) (td_envs d) (td_last_update d) (td_range d) (td_rate d) (td_draw d).

Lemma lagrange_same p g r : rslot r -> let o := v_lagrange p (lag u g) r in
  rslot (end_of o) /\ grows r (end_of o) /\ (missed u (offered (rn_events (end_of o))) -> v_lagrange p (lag u' g) r = o).
Proof.
  intros S. cbv zeta. destruct g as [a|]; [|split; [exact S|split; [intros q Hq; exact Hq|reflexivity]]].
  cbn [v_lagrange lag option_map gg_options gg_applicable gg_late gg_vars gg_lo gg_hi gg_clock go_target g_retarget].
  fold (g_retarget u (gg_options a)). fold (g_retarget u' (gg_options a)).
  destruct (negb (gg_applicable a) || gg_late a); cbn [orb]; [split; [exact S|split; [intros q Hq; exact Hq|reflexivity]]|].
  destruct (target_reached u (rn_holder r)) eqn:R.
  { split; [exact S|]. split; [intros q Hq; exact Hq|]. intros M. destruct (rmissed r S M) as [A _]. rewrite A in R. discriminate. }
  destruct (import_sparse p (rn_ms r) (rn_current r)) as [s|].
  - destruct (g_search_same u u' H (gg_options a) (pb_minimize p) (gg_vars a) (gg_lo a) (gg_hi a) s (rn_holder r) (gg_clock a) _ S) as [J1 J2].
    cbn [end_of]. unfold rslot, grows. cbn [with_current rn_events rn_holder]. rewrite offered_dual.
    assert (G : forall q, In q (offered (rn_events r)) -> In q (offered (rn_events r) ++ gl_visited (fst (g_search (g_retarget u (gg_options a)) (pb_minimize p) (gg_vars a) (gg_lo a) (gg_hi a) s (rn_holder r) (gg_clock a))))) by (intros q Hq; apply in_app_iff; now left).
    split; [unfold g_dual_bound; destruct (gl_lagrangian _); exact J1|]. split; [exact G|]. intros M.
    assert (Mr : missed u (offered (rn_events r))) by (intros q Hq; apply M, G, Hq). destruct (rmissed r S Mr) as [_ A]. rewrite A, (J2 M). reflexivity.
  - cbn [end_of]. split; [exact S|]. split; [intros q Hq; exact Hq|]. intros M. destruct (rmissed r S M) as [_ A]. now rewrite A.
Qed.
Lemma local_same p g r : rslot r -> let o := v_local p (loc u g) r in
  rslot (end_of o) /\ grows r (end_of o) /\ (missed u (offered (rn_events (end_of o))) -> v_local p (loc u' g) r = o).
Proof.
  intros S. cbv zeta. destruct g as [a|]; [|split; [exact S|split; [intros q Hq; exact Hq|reflexivity]]].
  cbn [v_local loc option_map gc_options gc_late gc_envs so_target s_retarget].
  fold (s_retarget u (gc_options a)). fold (s_retarget u' (gc_options a)).
  destruct (gc_late a); cbn [orb]; [split; [exact S|split; [intros q Hq; exact Hq|reflexivity]]|].
  destruct (target_reached u (rn_holder r)) eqn:R.
  { split; [exact S|]. split; [intros q Hq; exact Hq|]. intros M. destruct (rmissed r S M) as [A _]. rewrite A in R. discriminate. }
  destruct (import_sparse p (rn_ms r) (rn_current r)) as [s|].
  - destruct (s_search_same u u' H (gc_options a) s (rn_holder r) (rn_mem r) (gc_envs a) _ S) as [J1 J2].
    cbn [end_of]. unfold rslot, grows. cbn [with_current rn_events rn_holder]. rewrite offered_search.
    assert (G : forall q, In q (offered (rn_events r)) -> In q (offered (rn_events r) ++ sl_visited (fst (s_search (s_retarget u (gc_options a)) s (rn_holder r) (rn_mem r) (gc_envs a))))) by (intros q Hq; apply in_app_iff; now left).
    split; [exact J1|]. split; [exact G|]. intros M.
    assert (Mr : missed u (offered (rn_events r))) by (intros q Hq; apply M, G, Hq). destruct (rmissed r S Mr) as [_ A]. rewrite A, (J2 M). reflexivity.
  - cbn [end_of]. split; [exact S|]. split; [intros q Hq; exact Hq|]. intros M. destruct (rmissed r S M) as [_ A]. now rewrite A.
Qed.
Lemma rounds_same o lg root p limit ds : forall i last k r, rslot r -> let out := v_rounds o lg root p limit u (map (rnd u) ds) i last k r in
  rslot (end_of out) /\ grows r (end_of out) /\ (missed u (offered (rn_events (end_of out))) -> v_rounds o lg root p limit u' (map (rnd u') ds) i last k r = out).
Proof.
  induction ds as [|d ds IH]; intros i last k r S; cbv zeta; cbn [map v_rounds]; [split; [exact S|split; [intros q Hq; exact Hq|reflexivity]]|].
  cbn [rnd td_time_over td_options td_mods td_envs td_last_update td_range td_rate td_draw].
  change (lo_nmut (l_retarget u (td_options d))) with (lo_nmut (td_options d)). change (lo_nmut (l_retarget u' (td_options d))) with (lo_nmut (td_options d)).
  change (governed k (l_retarget u (td_options d))) with (l_retarget u (governed k (td_options d))). change (governed k (l_retarget u' (td_options d))) with (l_retarget u' (governed k (td_options d))).
  destruct (td_time_over d); [split; [exact S|split; [intros q Hq; exact Hq|reflexivity]]|]. destruct (limit <=? i)%Z; [split; [exact S|split; [intros q Hq; exact Hq|reflexivity]]|].
  destruct (target_reached u (rn_holder r)) eqn:R.
  { split; [exact S|]. split; [intros q Hq; exact Hq|]. intros M. destruct (rmissed r S M) as [A _]. rewrite A in R. discriminate. }
  destruct (_ && _).
  { split; [exact S|]. split; [intros q Hq; exact Hq|]. intros M. destruct (rmissed r S M) as [_ A]. now rewrite A. }
  destruct (import_sparse p (rn_ms r) (k_current k)) as [s|].
  2: { split; [exact S|]. split; [intros q Hq; exact Hq|]. intros M. destruct (rmissed r S M) as [_ A]. now rewrite A. }
  destruct (search_same u u' H (governed k (td_options d)) s (rn_holder r) (rn_mem r) (td_mods d) (td_envs d) _ S) as [J1 J2].
  destruct (l_search (l_retarget u (governed k (td_options d))) s (rn_holder r) (rn_mem r) (td_mods d) (td_envs d)) as [l st]. cbn [fst] in J1, J2. cbv zeta.
  set (r' := mkRun (lp_ms l) (lp_holder l) (lp_mem l) (rn_current r) _ (rn_starts r ++ [k_current k]) (rn_rounds r + 1)).
  assert (O : offered (rn_events r') = offered (rn_events r) ++ lp_visited l) by apply offered_search.
  assert (G : grows r r') by (intros q Hq; rewrite O; apply in_app_iff; now left).
  assert (S' : rslot r') by (unfold rslot; rewrite O; exact J1).
  assert (Same : missed u (offered (rn_events r')) -> target_reached u' (rn_holder r) = false /\ l_search (l_retarget u' (governed k (td_options d))) s (rn_holder r) (rn_mem r) (td_mods d) (td_envs d) = (l, st)).
  { intros M. split; [exact (proj2 (rmissed r S (missed_less r r' G M)))|]. apply J2. rewrite <- O. exact M. }
  match goal with |- context [k_update o lg root ?rs ?h ?m ?n ?dr ?md k] => destruct (k_update o lg root rs h m n dr md k) as [[k' cs]|] eqn:U end.
  - set (r2 := mkRun (with_constraints (rn_ms r') cs) (rn_holder r') (rn_mem r') (rn_current r') (rn_events r') (rn_starts r') (rn_rounds r')).
    destruct (IH (i + 1)%Z st k' r2 S') as (I1 & I2 & I3). split; [exact I1|]. split; [intros q Hq; apply I2; exact (G q Hq)|]. intros M.
    destruct (Same (fun q Hq => M q (I2 q Hq))) as [A B]. rewrite A, B. cbv zeta. rewrite U. exact (I3 M).
  - cbn [end_of]. split; [exact S'|]. split; [exact G|]. intros M. destruct (Same M) as [A B]. rewrite A, B. cbv zeta. rewrite U. reflexivity.
Qed.

Lemma bind_end {A} (o : outcome run) (f : run -> outcome A) : bind o f = match o with Done r => f r | Rejected r y => Rejected r y | NotANumber r => NotANumber r end.
Proof. destruct o; reflexivity. Qed.
Lemma post_end p r : ending (v_postprocess p r) = r.
Proof. unfold v_postprocess. cbv zeta. destruct (sl_stored _) as [[y sy]|]; [|reflexivity]. destruct (import_kept _ _ _); reflexivity. Qed.
Lemma solve_same lg root p a s0 m0 : let o := solve lg root p (targeted u a) s0 m0 in
  missed u (offered (rn_events (ending o))) -> solve lg root p (targeted u' a) s0 m0 = o.
Proof.
  cbv zeta. unfold solve.
  change (in_naive (targeted u a)) with (in_naive a). change (in_naive (targeted u' a)) with (in_naive a). change (in_pdlp (targeted u a)) with (in_pdlp a). change (in_pdlp (targeted u' a)) with (in_pdlp a).
  change (in_lagrange (targeted u a)) with (lag u (in_lagrange a)). change (in_lagrange (targeted u' a)) with (lag u' (in_lagrange a)).
  change (in_local (targeted u a)) with (loc u (in_local a)). change (in_local (targeted u' a)) with (loc u' (in_local a)).
  change (in_control (targeted u a)) with (in_control a). change (in_control (targeted u' a)) with (in_control a). change (in_limit (targeted u a)) with (in_limit a). change (in_limit (targeted u' a)) with (in_limit a).
  change (in_target (targeted u a)) with u. change (in_target (targeted u' a)) with u'. change (in_rounds (targeted u a)) with (map (rnd u) (in_rounds a)). change (in_rounds (targeted u' a)) with (map (rnd u') (in_rounds a)).
  set (r0 := v_pdlp p (in_pdlp a) (v_preprocess (in_naive a) s0 m0)).
  assert (S0 : rslot r0).
  { assert (B : slot_in [] (mkHolder false (mkSlot None None) (mkSlot None None) (mkSlot None None) (in_naive a) : holder (nat -> Z))) by (intros q; discriminate).
    unfold r0, v_preprocess. cbv zeta. destruct (in_pdlp a); exact (slot_step [] _ _ _ B). }
  clearbody r0. destruct (lagrange_same p (in_lagrange a) r0 S0) as (L1 & L2 & L3). rewrite !bind_end.
  destruct (v_lagrange p (lag u (in_lagrange a)) r0) as [r1|r1 y|r1]; cbn [end_of ending] in *; intros M; [|now rewrite (L3 M)|now rewrite (L3 M)].
  destruct (local_same p (in_local a) r1 L1) as (K1 & K2 & K3). rewrite bind_end in M. rewrite !bind_end.
  destruct (v_local p (loc u (in_local a)) r1) as [r2|r2 y|r2]; cbn [end_of ending] in *.
  2: { rewrite (L3 (missed_less _ _ K2 M)), bind_end, (K3 M). reflexivity. }
  2: { rewrite (L3 (missed_less _ _ K2 M)), bind_end, (K3 M). reflexivity. }
  unfold v_tabu in *. destruct (rounds_same (in_control a) lg root p (in_limit a) (in_rounds a) 0%Z None (k_setup (in_control a) (rn_mem r2) (rn_current r2)) r2 K1) as (J1 & J2 & J3).
  rewrite !bind_end in M. rewrite !bind_end.
  assert (E : missed u (offered (rn_events (end_of (v_rounds (in_control a) lg root p (in_limit a) u (map (rnd u) (in_rounds a)) 0%Z None (k_setup (in_control a) (rn_mem r2) (rn_current r2)) r2))))).
  { destruct (v_rounds (in_control a) lg root p (in_limit a) u (map (rnd u) (in_rounds a)) 0 None _ r2) as [r3|r3 y|r3]; cbn [end_of] in *; [|exact M|exact M]. rewrite post_end in M. exact M. }
  specialize (J3 E). pose proof (missed_less _ _ J2 E) as M2. rewrite (L3 (missed_less _ _ K2 M2)), bind_end, (K3 M2), bind_end, bind_end, J3. reflexivity.
Qed.
End Untouched.

(** In terms of the user's model. *)
Lemma untouched lg root p a s0 m0 is01 maximize t t' : prepared is01 p s0 m0 -> admissible is01 s0 a -> sense_is maximize (ms_model s0) -> chosen t ->
  (chosen t' /\ (if maximize then t <= t' else t' <= t)) \/ (left_alone t' /\ md_defined (ms_model s0) = true /\ t <= inject_Z (10 ^ 100)) ->
  let o := solve_target lg root p a s0 m0 t in
  (forall y, In y (visited (ending o)) -> satisfies (ms_model s0) y -> ~ as_good maximize (objective_at (ms_model s0) y) t) -> solve_target lg root p a s0 m0 t' = o.
Proof.
  intros P A S C D o N. unfold o, solve_target in *. set (md := ms_model s0) in *.
  pose proof (chosen_target (md_sign md) (md_defined md) t C) as U.
  assert (D' : (setup_target (md_sign md) (md_defined md) t' == t' * md_sign md /\ (if maximize then t <= t' else t' <= t)) \/
    (setup_target (md_sign md) (md_defined md) t' == t' /\ left_alone t' /\ t <= inject_Z (10 ^ 100))).
  { destruct D as [[D1 D2]|(D1 & D2 & D3)]; [left; split; [exact (chosen_target _ _ t' D1)|exact D2]|right]. split; [|split; assumption]. pose proof (default_target (md_sign md) (md_defined md) t' D1) as K. rewrite D2 in K at 2. exact K. }
  revert N U D'. generalize (setup_target (md_sign md) (md_defined md) t) as w, (setup_target (md_sign md) (md_defined md) t') as w'. intros w w' N U D'.
  pose proof S as S2. unfold sense_is in S2. rewrite S2 in U.
  assert (L : w' <= w).
  { rewrite U. destruct D' as [[D1 D2]|(D1 & D2 & D3)].
    - rewrite S2 in D1. rewrite D1. destruct maximize; lra.
    - rewrite D1. unfold left_alone in D2. rewrite D2. unfold chosen in C. destruct maximize; [lra|].
      apply Qle_trans with (- inject_Z (99999 * 10 ^ 95)); [vm_compute; discriminate|]. lra. }
  apply (solve_same _ _ L). intros [y sc] I F V. cbn [snd] in F, V. destruct (solve_honest lg root p _ s0 m0 is01 P (targeted_admissible is01 s0 _ a A) y sc I) as (Y1 & _ & Y2).
  apply (N y); [unfold visited; apply in_map_iff; exists (y, sc); split; [reflexivity|exact I]|now apply Y2|].
  fold md in Y1. rewrite Y1, U, (value_sense maximize md y S) in V. unfold as_good. destruct maximize; lra.
Qed.
