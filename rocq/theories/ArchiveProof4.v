(** Proofs for C91, continued: nothing feasible is left out. *)
From Coq Require Import List ZArith QArith Qabs Bool Lia.
From Verif Require Import ExprModel ExprSpec ConstraintModel ConstraintSpec EvalModel EvalSpec EvalSpec2 EvalProof3 SolutionModel SolutionSpec VariableModel PresolveModel
  SelectionModel ContainerModel TabuModel LoopModel LoopSpec LoopProof LoopProof2 LoopProof3 LocalModel LocalSpec LocalProof LocalProof2 LagrangeModel LagrangeProof2 LagrangeProof3
  SolverModel SolverSpec SolverProof SolverProof2 ArchiveModel ArchiveSpec ArchiveProof.
From Verif Require ControllerModel OfferModel PrepareModel ParityModel RelaxModel.
Import ListNotations.
Local Open Scope nat_scope.

Lemma recorded_app store n a b : recorded store n (a ++ b) = recorded store n a ++ recorded store n b.
Proof. unfold recorded. destruct store; [|reflexivity]. now rewrite filter_app, map_app. Qed.
Section Exact.
  Context {E L S : Type}.
  Variables (step : E -> L -> L * option S) (kept : L -> nat) (ms : L -> mstate) (n : nat) (seen : L -> list ((nat -> Z) * score)) (store : bool) (J : L -> Prop).
  Definition added (l l' : L) : list ssol := if kept l <? kept l' then [export_sparse n (ms l')] else [].
  Hypothesis Keep : forall e l, J l -> J (fst (step e l)).
  Hypothesis Step : forall e l, J l -> exists w, seen (fst (step e l)) = seen l ++ w /\ map so_vars (added l (fst (step e l))) = recorded store n w.
  Lemma collect_exact es : forall l, J l -> exists vs, seen (fst (runs step es l)) = seen l ++ vs /\ map so_vars (collect step kept ms n es l) = recorded store n vs.
  Proof.
    induction es as [|e es IH]; intros l Hj; cbn [runs collect].
    - exists []. split; [now rewrite app_nil_r|]. unfold recorded. now destruct store.
    - pose proof (Keep e l Hj) as K. destruct (Step e l Hj) as (w & W1 & W2). destruct (step e l) as [l' [st|]] eqn:Es; cbn [fst] in *.
      + exists w. split; [exact W1|]. now rewrite app_nil_r.
      + destruct (IH l' K) as (vs & V1 & V2). exists (w ++ vs). split; [now rewrite V1, W1, app_assoc|]. rewrite map_app, recorded_app, V2. f_equal. exact W2.
  Qed.
End Exact.
Lemma exported_twice s0 n s h sc : resolved s0 -> same_static s s0 -> kept s0 (ms_x s) -> so_vars (export_sparse n (ms_export (fst (fst (l_offer s h sc))))) = nonzeros n (ms_x (ms_export s)).
Proof.
  intros R St K. pose proof (offer_state s h sc) as Of. cbv zeta in Of. unfold nonzeros. cbn [export_sparse so_vars]. f_equal. apply map_ext. intros v. f_equal.
  destruct Of as [->| ->]; [reflexivity|]. rewrite (export_settle (ms_export s)).
  rewrite (settle_static (ms_export s) s0); [apply (export_sound s0 s R St K)|].
  pose proof (export_clean s0 s (conj St K)) as [A _]. exact A.
Qed.
Lemma none_added {L} (kept : L -> nat) ms n store (l : L) (seen : L -> list ((nat -> Z) * score)) : exists w, seen l = seen l ++ w /\ map so_vars (added kept ms n l l) = recorded store n w.
Proof. exists []. split; [now rewrite app_nil_r|]. unfold added, recorded. rewrite Nat.ltb_irrefl. now destruct store. Qed.

Lemma l_step s0 n o e l : resolved s0 -> lclean s0 l ->
  exists w, lp_visited (fst (l_iterate o e l)) = lp_visited l ++ w /\ map so_vars (added (fun l => length (lp_feasible l)) lp_ms n l (fst (l_iterate o e l))) = recorded (lo_store o) n w.
Proof.
  intros R (Cl & _). unfold l_iterate. cbv zeta. pose proof (none_added (fun l => length (lp_feasible l)) lp_ms n (lo_store o) l lp_visited) as Na.
  repeat match goal with |- context [if ?b then (l, _) else _] => destruct b; [exact Na|] end.
  destruct (select_move _ _ _) as [[i tr]|]; [|exact Na].
  destruct (nth_error _ i) as [tm|]; [|exact Na]. destruct (nth_error _ i) as [tr'|]; [|exact Na].
  match goal with |- context [l_advance o _ l ?al ?re _] => set (alts := al); set (rel := re) end.
  match goal with |- context [l_advance o ?d l alts rel ?s] => set (sc := s); destruct (l_advance o d l alts rel sc) as [l1|] eqn:Ea; [|exact Na] end.
  cbn [fst]. unfold l_advance in Ea. cbv zeta in Ea. pose proof (move_clean s0 (lp_ms l) alts rel Cl) as [St K].
  pose proof (exported_twice s0 n (ms_update_move (lp_ms l) alts rel) (lp_holder l) sc R St K) as Ex.
  destruct (l_offer _ _ _) as [[s1 h1] st]. cbn [fst] in Ex. destruct (tenure_update _ _ _ _ _ _ _) as [tn|]; [|discriminate]. injection Ea as <-. cbn [lp_feasible lp_ms lp_visited lp_score].
  eexists. split; [reflexivity|]. unfold added, recorded. cbn [lp_feasible lp_ms filter snd fst map]. destruct (lo_store o); cbn [andb]; [|now rewrite Nat.ltb_irrefl].
  destruct (sc_feasible sc); [|now rewrite Nat.ltb_irrefl]. rewrite app_length. cbn [length]. replace (length (lp_feasible l) <? length (lp_feasible l) + 1) with true by (symmetry; apply Nat.ltb_lt; lia).
  cbn [map fst]. now rewrite Ex.
Qed.
Lemma s_step s0 n o e l : resolved s0 -> sclean s0 l ->
  exists w, sl_visited (fst (s_iterate o e l)) = sl_visited l ++ w /\ map so_vars (added (fun l => length (sl_feasible l)) sl_ms n l (fst (s_iterate o e l))) = recorded (so_store o) n w.
Proof.
  intros R (Cl & _). unfold s_iterate. cbv zeta. pose proof (none_added (fun l => length (sl_feasible l)) sl_ms n (so_store o) l sl_visited) as Na.
  repeat match goal with |- context [if ?b then (l, _) else _] => destruct b; [exact Na|] end.
  destruct (se_moves e) as [|t0 ts]; [exact Na|]. destruct (cb_alts _) as [|a0 al] eqn:Ec; [exact Na|]. try rewrite <- Ec.
  match goal with |- context [l_offer ?a ?h ?s] => set (sc := s); set (s2 := a); assert (C2 : clean s0 s2) by (subst s2; apply move_clean; exact Cl); pose proof (exported_twice s0 n s2 h sc R (proj1 C2) (proj2 C2)) as Ex end.
  destruct (l_offer _ _ _) as [[s1 h1] st]. cbn [fst sl_feasible sl_ms sl_visited sl_score] in *.
  eexists. split; [reflexivity|]. unfold added, recorded. cbn [sl_feasible sl_ms filter snd fst map]. destruct (so_store o); cbn [andb]; [|now rewrite Nat.ltb_irrefl].
  destruct (sc_feasible sc); [|now rewrite Nat.ltb_irrefl]. rewrite app_length. cbn [length]. replace (length (sl_feasible l) <? length (sl_feasible l) + 1) with true by (symmetry; apply Nat.ltb_lt; lia).
  cbn [map fst]. now rewrite Ex.
Qed.
Lemma primal_clean s0 (o : goptions) mi vars lo hi l : clean s0 (gl_ms l) ->
  clean s0 (with_x (gl_ms l) (primal_step mi vars lo hi (gl_ms l) (update_dual (md_cons (ms_model (gl_ms l))) (gl_step l) (gl_dual l)))).
Proof.
  intros [St K]. split; [exact St|]. intros v Hf Hd. cbn [with_x ms_x]. unfold primal_step. assert (E : ms_fixed (gl_ms l) v = true) by (destruct St as (_ & _ & _ & _ & -> & _); exact Hf).
  rewrite E. cbn [negb]. rewrite andb_false_r. now apply K.
Qed.
Lemma g_step s0 n o mi vars lo hi e l : resolved s0 -> gclean s0 l ->
  exists w, gl_visited (fst (g_iterate o mi vars lo hi e l)) = gl_visited l ++ w /\
    map so_vars (added (fun l => length (gl_feasible l)) gl_ms n l (fst (g_iterate o mi vars lo hi e l))) = recorded (go_store o) n w.
Proof.
  intros R (Cl & _). unfold g_iterate. cbv zeta. pose proof (none_added (fun l => length (gl_feasible l)) gl_ms n (go_store o) l gl_visited) as Na.
  repeat match goal with |- context [if ?b then (l, _) else _] => destruct b; [exact Na|] end.
  match goal with |- context [l_offer ?a ?h ?s] => set (sc := s); set (s2 := a); assert (C2 : clean s0 s2) by (subst s2; apply update_clean; apply (primal_clean s0 o mi vars lo hi l Cl)); pose proof (exported_twice s0 n s2 h sc R (proj1 C2) (proj2 C2)) as Ex end.
  destruct (l_offer _ _ _) as [[s1 h1] st]. destruct (fq_push _ _) as [q|]; [|exact Na]. cbn [fst gl_feasible gl_ms gl_visited gl_score] in *.
  eexists. split; [reflexivity|]. unfold added, recorded. cbn [gl_feasible gl_ms filter snd fst map]. destruct (go_store o); cbn [andb]; [|now rewrite Nat.ltb_irrefl].
  destruct (sc_feasible sc); [|now rewrite Nat.ltb_irrefl]. rewrite app_length. cbn [length]. replace (length (gl_feasible l) <? length (gl_feasible l) + 1) with true by (symmetry; apply Nat.ltb_lt; lia).
  cbn [map fst]. now rewrite Ex.
Qed.

(** ** The searches *)
Lemma self_clean s : clean s s.
Proof. split; [apply static_same|]. intros v _ _. reflexivity. Qed.
Lemma l_exact n o s h m mods es l1 : resolved s -> counted_all m -> l_modify o mods (l_setup o s h m) = Some l1 ->
  exists vs, lp_visited (fst (l_search o s h m mods es)) = lp_visited l1 ++ vs /\ map so_vars (l_collect n o s h m mods es) = recorded (lo_store o) n vs.
Proof.
  intros R Mc E. assert (C1 : lclean s l1).
  { pose proof (l_search_clean s R o s h m mods [] (self_clean s) Mc) as C. unfold l_search in C. rewrite E in C. exact C. }
  unfold l_search, l_collect. rewrite E, <- l_runs.
  exact (collect_exact (l_iterate o) (fun l => length (lp_feasible l)) lp_ms n lp_visited (lo_store o) (lclean s) (iterate_clean s R o) (fun e l => l_step s n o e l R) es l1 C1).
Qed.
Lemma s_exact n o s h m es : resolved s -> counted_all m ->
  exists vs, sl_visited (fst (s_search o s h m es)) = sl_visited (s_setup s h m) ++ vs /\ map so_vars (s_collect n o s h m es) = recorded (so_store o) n vs.
Proof.
  intros R Mc. pose proof (s_search_clean s R o s h m [] (self_clean s) Mc) as C. unfold s_search, s_collect in *. rewrite <- s_runs. cbn [s_run fst] in C.
  exact (collect_exact (s_iterate o) (fun l => length (sl_feasible l)) sl_ms n sl_visited (so_store o) (sclean s) (s_iterate_clean s R o) (fun e l => s_step s n o e l R) es _ C).
Qed.
Lemma g_exact n o mi vars lo hi s h clock : resolved s ->
  exists vs, gl_visited (fst (g_search o mi vars lo hi s h clock)) = gl_visited (g_setup o (length vars) s h) ++ vs /\ map so_vars (g_collect n o mi vars lo hi s h clock) = recorded (go_store o) n vs.
Proof.
  intros R. pose proof (g_search_clean s R o mi vars lo hi s h [] (self_clean s)) as C. unfold g_search, g_collect in *. rewrite <- g_runs. cbn [g_run fst] in C.
  exact (collect_exact (g_iterate o mi vars lo hi) (fun l => length (gl_feasible l)) gl_ms n gl_visited (go_store o) (gclean s) (g_iterate_clean s R o mi vars lo hi) (fun e l => g_step s n o mi vars lo hi e l R) clock _ C).
Qed.

(** ** The option is off *)
Section Off.
  Context {E L S : Type}.
  Variables (step : E -> L -> L * option S) (kept : L -> nat) (ms : L -> mstate) (n : nat).
  Hypothesis Same : forall e l, kept (fst (step e l)) = kept l.
  Lemma collect_off es : forall l, collect step kept ms n es l = [].
  Proof.
    induction es as [|e es IH]; intros l; cbn [collect]; [reflexivity|]. pose proof (Same e l) as H. destruct (step e l) as [l' st]. cbn [fst] in H. rewrite H, Nat.ltb_irrefl. cbn [app].
    destruct st; [reflexivity|apply IH].
  Qed.
End Off.
Lemma l_same o e l : lo_store o = false -> length (lp_feasible (fst (l_iterate o e l))) = length (lp_feasible l).
Proof.
  intros E. unfold l_iterate. cbv zeta. repeat match goal with |- context [if ?b then (l, _) else _] => destruct b; [reflexivity|] end.
  destruct (select_move _ _ _) as [[i tr]|]; [|reflexivity]. destruct (nth_error _ i) as [tm|]; [|reflexivity]. destruct (nth_error _ i) as [tr'|]; [|reflexivity].
  destruct (l_advance _ _ _ _ _ _) as [l1|] eqn:Ea; [|reflexivity]. cbn [fst lp_feasible]. rewrite E. cbn [andb].
  unfold l_advance in Ea. cbv zeta in Ea. destruct (l_offer _ _ _) as [[s1 h1] st]. destruct (tenure_update _ _ _ _ _ _ _); [|discriminate]. injection Ea as <-. reflexivity.
Qed.
Lemma s_same o e l : so_store o = false -> length (sl_feasible (fst (s_iterate o e l))) = length (sl_feasible l).
Proof.
  intros E. unfold s_iterate. cbv zeta. repeat match goal with |- context [if ?b then (l, _) else _] => destruct b; [reflexivity|] end.
  destruct (se_moves e) as [|t0 ts]; [reflexivity|]. destruct (cb_alts _) as [|a0 al]; [reflexivity|]. destruct (l_offer _ _ _) as [[s1 h1] st]. cbn [fst sl_feasible]. rewrite E. reflexivity.
Qed.
Lemma g_same o mi vars lo hi e l : go_store o = false -> length (gl_feasible (fst (g_iterate o mi vars lo hi e l))) = length (gl_feasible l).
Proof.
  intros E. unfold g_iterate. cbv zeta. repeat match goal with |- context [if ?b then (l, _) else _] => destruct b; [reflexivity|] end.
  destruct (l_offer _ _ _) as [[s1 h1] st]. destruct (fq_push _ _) as [q|]; [|reflexivity]. cbn [fst gl_feasible]. rewrite E. reflexivity.
Qed.
Lemma rounds_off nb o lg root p limit target ds : (forall g, In g ds -> lo_store (OfferModel.gd_options g) = false) -> forall i last k r l,
  In l (rounds_stored nb o lg root p limit target ds i last k r) -> l = [].
Proof.
  induction ds as [|g ds IH]; intros H i last k r l Il; cbn [rounds_stored] in Il; [destruct Il|].
  destruct (OfferModel.gd_time_over g); [destruct Il|]. destruct (limit <=? i)%Z; [destruct Il|]. destruct (target_reached target (rn_holder r)); [destruct Il|].
  destruct ((0 <? i)%Z && _); [destruct Il|]. destruct (import_sparse _ _ _) as [s|]; [|destruct Il]. cbv zeta in Il. destruct (l_search _ _ _ _ _ _) as [l1 st]. destruct Il as [<-|Il].
  - unfold l_collect. destruct (l_modify _ _ _) as [l2|]; [|reflexivity]. apply collect_off. intros e l3. apply l_same. cbn [governed lo_store]. apply H. now left.
  - destruct (ControllerModel.k_update _ _ _ _ _ _ _ _ _ _) as [[k' cs]|]; [|destruct Il]. refine (IH _ _ _ _ _ l Il). intros g' Hg. apply H. now right.
Qed.
Lemma stored_off nb lg root p naive b g a s0 m0 l :
  (forall x, g = Some x -> go_store (gg_options x) = false) -> (forall o late ds, OfferModel.ni_local a = Some (o, late, ds) -> so_store o = false) ->
  (forall x, In x (OfferModel.ni_rounds a) -> lo_store (OfferModel.gd_options x) = false) -> In l (n_stored nb lg root p naive b g a s0 m0) -> l = [].
Proof.
  intros H1 H2 H3 Il. unfold n_stored in Il. cbv zeta in Il. set (r0 := v_pdlp p b (v_preprocess naive s0 m0)) in *. clearbody r0. apply in_app_iff in Il as [Il|Il].
  { unfold lagrange_stored in Il. destruct g as [x|]; [|destruct Il]. destruct (negb _ || _ || _); [destruct Il|]. destruct (import_sparse _ _ _); [|destruct Il]. destruct Il as [<-|[]].
    unfold g_collect. apply collect_off. intros e l. apply g_same, H1. reflexivity. }
  destruct (v_lagrange p g r0) as [r1|r1 y|r1]; [|destruct Il|destruct Il]. apply in_app_iff in Il as [Il|Il].
  { unfold local_stored in Il. destruct (OfferModel.ni_local a) as [[[o late] ds]|]; [|destruct Il]. destruct (late || _); [destruct Il|]. destruct (import_sparse _ _ _); [|destruct Il]. destruct Il as [<-|[]].
    unfold s_collect. apply collect_off. intros e l. apply s_same. apply (H2 o late ds). reflexivity. }
  destruct (OfferModel.n_local nb p (OfferModel.ni_local a) r1) as [r2|r2 y|r2]; [|destruct Il|destruct Il]. exact (rounds_off _ _ _ _ _ _ _ _ H3 _ _ _ _ l Il).
Qed.
Lemma archive_off fuel order sw su on pairs o nrm red ext sq lg root m x a capacity s l :
  (forall go late clock, RelaxModel.rx_lagrange x = Some (go, late, clock) -> go_store go = false) -> (forall o late ds, OfferModel.ni_local a = Some (o, late, ds) -> so_store o = false) ->
  (forall g, In g (OfferModel.ni_rounds a) -> lo_store (OfferModel.gd_options g) = false) ->
  solve_archive fuel order sw su on pairs o nrm red ext sq lg root m x a capacity s = Some (Ok l) -> l = [].
Proof.
  intros H1 H2 H3. unfold solve_archive. destruct (PrepareModel.prepare fuel sw su m s) as [[r| |]|]; cbn [PresolveModel.bind]; try discriminate. cbv zeta.
  destruct (RelaxModel.pdlp_phase _ _ _ _ _ _ _) as [b| |]; cbn [PresolveModel.bind]; try discriminate. intros E. injection E as <-. unfold feasible_archive.
  match goal with |- context [filter ?f ?l] => replace (filter f l) with (@nil (list ssol)); [reflexivity|] end. symmetry.
  match goal with |- filter ?f ?l = [] => assert (Z0 : forall y, In y l -> y = []) end.
  { intros y. apply stored_off; [|exact H2|exact H3]. intros g Eg. unfold RelaxModel.lagrange_phase in Eg. destruct (RelaxModel.rx_lagrange x) as [[[go late] clock]|]; [|discriminate]. injection Eg as <-. cbn [gg_options]. exact (H1 go late clock eq_refl). }
  match goal with |- filter ?f ?l = [] => induction l as [|y t IH]; [reflexivity|] end. cbn [filter]. rewrite (Z0 y) by now left. cbn [length Nat.eqb negb]. apply IH. intros z Hz. apply Z0. now right.
Qed.
