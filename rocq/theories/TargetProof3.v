(** Proofs for C94, continued: a target that is not met changes nothing. *)
From Coq Require Import List ZArith QArith Qabs Lia Lqa Bool.
From Verif Require Import ExprModel ExprSpec ConstraintModel EvalModel EvalSpec EvalSpec2 SolutionModel SolutionSpec SolutionProof VariableModel PresolveModel SelectionModel SelectionSpec TabuModel LoopModel LoopSpec LoopProof2 LoopProof4
  LocalModel LocalSpec LagrangeModel ControllerModel ControllerSpec SolverModel SolverSpec SolverProof SolverProof2 SolverProof3 TargetModel TargetSpec TargetProof TargetProof2.
Import ListNotations.
Local Open Scope Q_scope.

Definition l_retarget (t : Q) (o : loptions) : loptions :=
  mkLo (lo_iteration_max o) t (lo_pruning o) (lo_ignore_tabu o) (lo_all o) (lo_frequency o) (lo_lagrangian o) (lo_multiplier o) (lo_randomize o)
    (lo_inc o) (lo_dec o) (lo_fast o) (lo_break o) (lo_adjust o) (lo_store o) (lo_initial_tenure o) (lo_nmut o).
Definition s_retarget (t : Q) (o : soptions) : soptions := mkSo (so_iteration_max o) t (so_adjust o) (so_store o).
Definition g_retarget (t : Q) (o : goptions) : goptions := mkGo (go_iteration_max o) t (go_extend o) (go_reduce o) (go_tolerance o) (go_queue o) (go_store o).

Section Untouched.
Variables (u u' : Q).
Hypothesis H : u' <= u.

(** The feasible incumbent is one of the visited solutions. *)
Definition slot_in (vs : list pair) (h : holder (nat -> Z)) : Prop := forall q, sl_obj (ho_feasible h) = Some q ->
  exists p, In p vs /\ sc_feasible (snd p) = true /\ sc_objective (snd p) = q.
(** None of the visited solutions meets the target. *)
Definition missed (vs : list pair) : Prop := forall p, In p vs -> sc_feasible (snd p) = true -> ~ sc_objective (snd p) <= u.
Lemma slot_more vs vs' h : (forall p, In p vs -> In p vs') -> slot_in vs h -> slot_in vs' h.
Proof. intros I S q E. destruct (S q E) as (p & A & B). exists p. split; [now apply I|exact B]. Qed.
Lemma slot_step vs h y sc : slot_in vs h -> slot_in (vs ++ [(y, sc)]) (h_step true h (Offer y sc)).
Proof.
  intros S q. rewrite feasible_step. destruct (sc_feasible sc) eqn:F.
  - unfold try_slot. destruct (improves _ _); cbn [fst sl_obj].
    + intros E. injection E as <-. exists (y, sc). split; [apply in_app_iff; right; now left|]. split; [exact F|reflexivity].
    + apply (slot_more vs); [intros; apply in_app_iff; now left|exact S].
  - apply (slot_more vs); [intros; apply in_app_iff; now left|exact S].
Qed.
Lemma missed_not vs h : slot_in vs h -> missed vs -> target_reached u h = false /\ target_reached u' h = false.
Proof.
  intros S M. unfold target_reached. destruct (sl_obj (ho_feasible h)) as [q|] eqn:E; [|split; reflexivity].
  destruct (S q E) as (p & A & B & C). specialize (M p A B). rewrite C in M. split.
  - destruct (Qle_bool q u) eqn:L; [|reflexivity]. apply Qle_bool_iff in L. contradiction.
  - destruct (Qle_bool q u') eqn:L; [|reflexivity]. apply Qle_bool_iff in L. destruct M. lra.
Qed.

(** ** The tabu search *)
Lemma iterate_slot o e l E : slot_in (E ++ lp_visited l) (lp_holder l) ->
  let l' := fst (l_iterate o e l) in slot_in (E ++ lp_visited l') (lp_holder l') /\ forall p, In p (lp_visited l) -> In p (lp_visited l').
Proof.
  intros I. assert (K : slot_in (E ++ lp_visited l) (lp_holder l) /\ forall p, In p (lp_visited l) -> In p (lp_visited l)) by (split; auto).
  unfold l_iterate. cbv zeta. destruct (en_time_over e); [exact K|]. destruct (_ <=? _)%Z; [exact K|]. destruct (reach_target o (lp_holder l)); [exact K|].
  destruct (early_stop _ _); [exact K|]. destruct (filter _ _) as [|m ms]; [exact K|]. destruct (gap_closed _); [exact K|]. destruct (select_move _ _ _) as [[i sc0]|]; [|exact K].
  destruct (nth_error (m :: ms) i) as [tm|]; [|exact K]. destruct (nth_error (map _ _) i) as [tr|]; [|exact K].
  match goal with |- context [l_advance ?a ?b ?c ?d ?e ?f] => destruct (l_advance a b c d e f) as [l1|] eqn:A end; [|exact K].
  apply advance_grow in A as (y & V & Hh). cbn [fst lp_visited lp_holder]. rewrite V, Hh, app_assoc. split; [now apply slot_step|]. intros p Hp. apply in_app_iff. now left.
Qed.
Lemma run_slot o es E : forall l, slot_in (E ++ lp_visited l) (lp_holder l) ->
  let l' := fst (l_run o es l) in slot_in (E ++ lp_visited l') (lp_holder l') /\ forall p, In p (lp_visited l) -> In p (lp_visited l').
Proof.
  induction es as [|e es IH]; intros l I; [split; auto|]. cbn [l_run]. pose proof (iterate_slot o e l E I) as K. destruct (l_iterate o e l) as [l' [st|]]; [exact K|].
  cbn [fst] in K. destruct K as [K1 K2]. destruct (IH l' K1) as [J1 J2]. split; [exact J1|]. intros p Hp. apply J2, K2, Hp.
Qed.
Lemma iterate_same o e l : reach_target (l_retarget u o) (lp_holder l) = false -> reach_target (l_retarget u' o) (lp_holder l) = false ->
  l_iterate (l_retarget u' o) e l = l_iterate (l_retarget u o) e l.
Proof. intros A B. unfold l_iterate. rewrite A, B. reflexivity. Qed.
Lemma run_same o es E : forall l, slot_in (E ++ lp_visited l) (lp_holder l) -> missed (E ++ lp_visited (fst (l_run (l_retarget u o) es l))) ->
  l_run (l_retarget u' o) es l = l_run (l_retarget u o) es l.
Proof.
  induction es as [|e es IH]; intros l I M; [reflexivity|].
  assert (Ml : missed (E ++ lp_visited l)).
  { intros p Hp. apply M. destruct (run_slot (l_retarget u o) (e :: es) E l I) as [_ J]. apply in_app_iff in Hp as [Hp|Hp]; apply in_app_iff; [now left|right; now apply J]. }
  destruct (missed_not _ _ I Ml) as [N1 N2]. cbn [l_run] in *. rewrite (iterate_same o e l); [|exact N1|exact N2].
  pose proof (iterate_slot (l_retarget u o) e l E I) as K. destruct (l_iterate (l_retarget u o) e l) as [l' [st|]]; [reflexivity|]. apply (IH l' (proj1 K)). exact M.
Qed.
Lemma modify_slot o mods E : forall l l', slot_in (E ++ lp_visited l) (lp_holder l) -> l_modify o mods l = Some l' -> slot_in (E ++ lp_visited l') (lp_holder l').
Proof.
  induction mods as [|[mv draw] mods IH]; intros l l' I M; cbn [l_modify] in M; [injection M as <-; exact I|].
  destruct (l_advance _ _ _ _ _ _) as [l1|] eqn:A; [|discriminate]. apply advance_grow in A as (y & V & Hh). apply (IH l1 l'); [|exact M]. rewrite V, Hh, app_assoc. now apply slot_step.
Qed.
Lemma modify_same o mods : forall l, l_modify (l_retarget u' o) mods l = l_modify (l_retarget u o) mods l.
Proof.
  induction mods as [|[mv draw] mods IH]; intros l; cbn [l_modify]; [reflexivity|].
  change (l_advance (l_retarget u' o) draw l (tm_alts mv) (tm_related mv)) with (l_advance (l_retarget u o) draw l (tm_alts mv) (tm_related mv)).
  destruct (l_advance _ _ _ _ _ _); [apply IH|reflexivity].
Qed.
Lemma setup_slot o s0 h0 m0 E : slot_in E h0 -> slot_in (E ++ lp_visited (l_setup o s0 h0 m0)) (lp_holder (l_setup o s0 h0 m0)).
Proof.
  intros I. unfold l_setup. cbv zeta. pose proof (offer_holder (ms_update s0) (reset_local h0) (evaluate (ms_model (ms_update s0)) (ms_x (ms_update s0)) [])) as Oh.
  destruct (l_offer _ _ _) as [[s1 h1] st]. cbn [fst snd] in Oh. cbn [lp_visited lp_holder]. rewrite Oh. now apply slot_step.
Qed.
Lemma search_same o s0 h0 m0 mods es E : slot_in E h0 ->
  let l := fst (l_search (l_retarget u o) s0 h0 m0 mods es) in slot_in (E ++ lp_visited l) (lp_holder l) /\
  (missed (E ++ lp_visited l) -> l_search (l_retarget u' o) s0 h0 m0 mods es = l_search (l_retarget u o) s0 h0 m0 mods es).
Proof.
  intros I. unfold l_search. cbv zeta. pose proof (setup_slot (l_retarget u o) s0 h0 m0 E I) as I1.
  change (l_setup (l_retarget u' o) s0 h0 m0) with (l_setup (l_retarget u o) s0 h0 m0). rewrite (modify_same o mods).
  destruct (l_modify (l_retarget u o) mods (l_setup (l_retarget u o) s0 h0 m0)) as [l|] eqn:M; [|split; [exact I1|reflexivity]].
  pose proof (modify_slot (l_retarget u o) mods E _ _ I1 M) as I2. split; [apply (run_slot (l_retarget u o) es E l I2)|]. now apply run_same.
Qed.

(** ** The local search *)
Lemma s_iterate_slot o e l E : slot_in (E ++ sl_visited l) (sl_holder l) ->
  let l' := fst (s_iterate o e l) in slot_in (E ++ sl_visited l') (sl_holder l') /\ forall p, In p (sl_visited l) -> In p (sl_visited l').
Proof.
  intros I. assert (K : slot_in (E ++ sl_visited l) (sl_holder l) /\ forall p, In p (sl_visited l) -> In p (sl_visited l)) by (split; auto).
  unfold s_iterate. cbv zeta. destruct (se_time_over e); [exact K|]. destruct (_ <=? _)%Z; [exact K|].
  match goal with |- context [if ?c then (l, Some SReachTarget) else _] => destruct c; [exact K|] end.
  destruct (se_moves e) as [|m ms]; [exact K|]. destruct (cb_alts _) as [|a alts]; [exact K|].
  match goal with |- context [l_offer ?a ?b ?c] => pose proof (offer_holder a b c) as Oh; destruct (l_offer a b c) as [[s2 h] st] end.
  cbn [fst snd] in Oh. cbn [fst sl_visited sl_holder]. rewrite Oh, app_assoc. split; [now apply slot_step|]. intros p Hp. apply in_app_iff. now left.
Qed.
Lemma s_run_slot o es E : forall l, slot_in (E ++ sl_visited l) (sl_holder l) ->
  let l' := fst (s_run o es l) in slot_in (E ++ sl_visited l') (sl_holder l') /\ forall p, In p (sl_visited l) -> In p (sl_visited l').
Proof.
  induction es as [|e es IH]; intros l I; [split; auto|]. cbn [s_run]. pose proof (s_iterate_slot o e l E I) as K. destruct (s_iterate o e l) as [l' [st|]]; [exact K|].
  cbn [fst] in K. destruct K as [K1 K2]. destruct (IH l' K1) as [J1 J2]. split; [exact J1|]. intros p Hp. apply J2, K2, Hp.
Qed.
Lemma s_iterate_same o e l : target_reached u (sl_holder l) = false -> target_reached u' (sl_holder l) = false ->
  s_iterate (s_retarget u' o) e l = s_iterate (s_retarget u o) e l.
Proof. intros A B. unfold target_reached in A, B. unfold s_iterate. cbn [s_retarget so_target so_iteration_max so_adjust so_store]. rewrite A, B. reflexivity. Qed.
Lemma s_search_same o s0 h0 m0 es E : slot_in E h0 ->
  let l := fst (s_search (s_retarget u o) s0 h0 m0 es) in slot_in (E ++ sl_visited l) (sl_holder l) /\
  (missed (E ++ sl_visited l) -> s_search (s_retarget u' o) s0 h0 m0 es = s_search (s_retarget u o) s0 h0 m0 es).
Proof.
  intros I. unfold s_search. cbv zeta. assert (I1 : slot_in (E ++ sl_visited (s_setup s0 h0 m0)) (sl_holder (s_setup s0 h0 m0))).
  { unfold s_setup. cbv zeta. pose proof (offer_holder (ms_update s0) (reset_local h0) (evaluate (ms_model (ms_update s0)) (ms_x (ms_update s0)) [])) as Oh.
    destruct (l_offer _ _ _) as [[s1 h1] st]. cbn [fst snd] in Oh. cbn [sl_visited sl_holder]. rewrite Oh. now apply slot_step. }
  split; [apply (s_run_slot (s_retarget u o) es E _ I1)|]. revert I1. generalize (s_setup s0 h0 m0) as l.
  induction es as [|e es IH]; intros l J M; [reflexivity|].
  assert (Ml : missed (E ++ sl_visited l)).
  { intros p Hp. apply M. destruct (s_run_slot (s_retarget u o) (e :: es) E l J) as [_ J']. apply in_app_iff in Hp as [Hp|Hp]; apply in_app_iff; [now left|right; now apply J']. }
  destruct (missed_not _ _ J Ml) as [N1 N2]. cbn [s_run] in *. rewrite (s_iterate_same o e l N1 N2).
  pose proof (s_iterate_slot (s_retarget u o) e l E J) as K. destruct (s_iterate (s_retarget u o) e l) as [l' [st|]]; [reflexivity|]. apply (IH l' (proj1 K)). exact M.
Qed.

(** ** The Lagrange dual search *)
Lemma g_iterate_slot o mi vars lo hi e l E : slot_in (E ++ gl_visited l) (gl_holder l) ->
  let l' := fst (g_iterate o mi vars lo hi e l) in slot_in (E ++ gl_visited l') (gl_holder l') /\ forall p, In p (gl_visited l) -> In p (gl_visited l').
Proof.
  intros I. assert (K : slot_in (E ++ gl_visited l) (gl_holder l) /\ forall p, In p (gl_visited l) -> In p (gl_visited l)) by (split; auto).
  unfold g_iterate. cbv zeta. destruct e; [exact K|]. destruct (_ <=? _)%Z; [exact K|].
  match goal with |- context [if ?c then (l, Some GReachTarget) else _] => destruct c; [exact K|] end.
  match goal with |- context [l_offer ?a ?b ?c] => pose proof (offer_holder a b c) as Oh; destruct (l_offer a b c) as [[s2 h] st] end.
  cbn [fst snd] in Oh. match goal with |- context [match ?f with Some _ => _ | None => _ end] => destruct f as [q|]; [|exact K] end.
  cbn [fst gl_visited gl_holder]. rewrite Oh, app_assoc. split; [now apply slot_step|]. intros p Hp. apply in_app_iff. now left.
Qed.
Lemma g_run_slot o mi vars lo hi es E : forall l, slot_in (E ++ gl_visited l) (gl_holder l) ->
  let l' := fst (g_run o mi vars lo hi es l) in slot_in (E ++ gl_visited l') (gl_holder l') /\ forall p, In p (gl_visited l) -> In p (gl_visited l').
Proof.
  induction es as [|e es IH]; intros l I; [split; auto|]. cbn [g_run]. pose proof (g_iterate_slot o mi vars lo hi e l E I) as K. destruct (g_iterate o mi vars lo hi e l) as [l' [st|]]; [exact K|].
  cbn [fst] in K. destruct K as [K1 K2]. destruct (IH l' K1) as [J1 J2]. split; [exact J1|]. intros p Hp. apply J2, K2, Hp.
Qed.
Lemma g_iterate_same o mi vars lo hi e l : target_reached u (gl_holder l) = false -> target_reached u' (gl_holder l) = false ->
  g_iterate (g_retarget u' o) mi vars lo hi e l = g_iterate (g_retarget u o) mi vars lo hi e l.
Proof. intros A B. unfold target_reached in A, B. unfold g_iterate. cbn [g_retarget go_target go_iteration_max]. rewrite A, B. reflexivity. Qed.
Lemma g_search_same o mi vars lo hi s0 h0 es E : slot_in E h0 ->
  let l := fst (g_search (g_retarget u o) mi vars lo hi s0 h0 es) in slot_in (E ++ gl_visited l) (gl_holder l) /\
  (missed (E ++ gl_visited l) -> g_search (g_retarget u' o) mi vars lo hi s0 h0 es = g_search (g_retarget u o) mi vars lo hi s0 h0 es).
Proof.
  intros I. unfold g_search. cbv zeta. change (g_setup (g_retarget u' o) (length vars) s0 h0) with (g_setup (g_retarget u o) (length vars) s0 h0).
  assert (I1 : slot_in (E ++ gl_visited (g_setup (g_retarget u o) (length vars) s0 h0)) (gl_holder (g_setup (g_retarget u o) (length vars) s0 h0))).
  { unfold g_setup. cbv zeta. pose proof (offer_holder (ms_update s0) (reset_local h0) (evaluate (ms_model (ms_update s0)) (ms_x (ms_update s0)) [])) as Oh.
    destruct (l_offer _ _ _) as [[s1 h1] st]. cbn [fst snd] in Oh. cbn [gl_visited gl_holder]. rewrite Oh. now apply slot_step. }
  split; [apply (g_run_slot (g_retarget u o) mi vars lo hi es E _ I1)|]. revert I1. generalize (g_setup (g_retarget u o) (length vars) s0 h0) as l.
  induction es as [|e es IH]; intros l J M; [reflexivity|].
  assert (Ml : missed (E ++ gl_visited l)).
  { intros p Hp. apply M. destruct (g_run_slot (g_retarget u o) mi vars lo hi (e :: es) E l J) as [_ J']. apply in_app_iff in Hp as [Hp|Hp]; apply in_app_iff; [now left|right; now apply J']. }
  destruct (missed_not _ _ J Ml) as [N1 N2]. cbn [g_run] in *. rewrite (g_iterate_same o mi vars lo hi e l N1 N2).
  pose proof (g_iterate_slot (g_retarget u o) mi vars lo hi e l E J) as K. destruct (g_iterate (g_retarget u o) mi vars lo hi e l) as [l' [st|]]; [reflexivity|]. apply (IH l' (proj1 K)). exact M.
Qed.
End Untouched.
