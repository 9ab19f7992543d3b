(** Proofs for C58, continued: the phases. *)
From Coq Require Import List ZArith QArith Qabs Permutation Lia Lqa Bool.
From Verif Require Import ContainerModel ExprModel ExprSpec ExprProof ConstraintModel ConstraintSpec ConstraintProof EvalModel EvalSpec EvalSpec2
  EvalProof EvalProof2 EvalProof3 SolutionModel SolutionSpec SolutionProof VariableModel PresolveModel SelectionModel SelectionSpec SelectionProof3
  TabuModel TabuSpec TabuProof LoopModel LoopSpec LoopProof LoopProof2 LoopProof3 LocalModel LocalSpec LocalProof LocalProof2
  LagrangeModel LagrangeSpec LagrangeProof LagrangeProof2 LagrangeProof3 ControllerModel ControllerSpec ControllerProof ControllerProof2 ControllerProof3 SolverModel SolverSpec SolverProof.
Import ListNotations.
Local Open Scope Q_scope.

Definition h_start (naive : Q) : holder (nat -> Z) := mkHolder false (mkSlot None None) (mkSlot None None) (mkSlot None None) naive.
Lemma h_start_run b naive es : h_inv es (fold_left (h_step b) es (h_start naive)).
Proof.
  induction es as [|e es IH] using rev_ind.
  - split; [split; [discriminate|intros (? & ? & [] & _)]|]. split; [left; split; reflexivity|]. split; left; split; reflexivity.
  - rewrite fold_left_app. cbn [fold_left]. now apply h_inv_step.
Qed.
Lemma fold_offers b l : forall h : holder (nat -> Z), fold_left (h_step true) (offers l) h = fold_left (h_step b) (offers l) h.
Proof. induction l as [|p l IH]; intros h; cbn [offers map fold_left]; [reflexivity|]. apply IH. Qed.
Lemma since_offers es l : since_reset (es ++ ResetLocal :: offers l) = l.
Proof.
  unfold since_reset. rewrite fold_left_app. cbn [fold_left].
  assert (G : forall l a, fold_left (fun (acc : list ((nat -> Z) * score)) e => match e with Offer sol sc => acc ++ [(sol, sc)] | ResetLocal => [] | OfferDual _ => acc end) (offers l) a = a ++ l).
  { clear. induction l as [|[y sc] l IH]; intros a; cbn [offers map fold_left fst snd]; [now rewrite app_nil_r|]. fold (offers l). rewrite IH, <- app_assoc. reflexivity. }
  now rewrite G.
Qed.

Lemma static_same s : same_static s s.
Proof. repeat split. Qed.

Section Solve.
Variables (is01 : nat -> bool) (p : problem) (s0 : mstate) (m0 : memory) (naive cap : Q) (steady : Prop) (good : (nat -> Z) -> Prop).
Hypothesis PREP : prepared is01 p s0 m0.
Hypothesis GE : forall x y, (forall v, x v = y v) -> good x -> good y.

Definition rinv (r : run) : Prop :=
  same_core (rn_ms r) s0 /\ kept s0 (ms_x (rn_ms r)) /\ counted_all (rn_mem r) /\
  rn_holder r = fold_left (h_step (pb_minimize p)) (rn_events r) (h_start naive) /\
  (forall y sc, In (y, sc) (offered (rn_events r)) -> honest (ms_model s0) y sc /\ sound s0 y) /\
  In (rn_current r) (visited r) /\ (forall y, In y (rn_starts r) -> In y (visited r)) /\
  (steady -> Forall (priced_within cap) (md_cons (ms_model (rn_ms r)))) /\
  forall y, In y (visited r) -> good y.

Lemma rinv_current r : rinv r -> In (rn_current r) (visited r).
Proof. intros (_ & _ & _ & _ & _ & H & _). exact H. Qed.
Lemma rinv_starts r : rinv r -> forall y, In y (rn_starts r) -> In y (visited r).
Proof. intros (_ & _ & _ & _ & _ & _ & H & _). exact H. Qed.
Lemma rinv_counts r : rinv r -> counted_all (rn_mem r).
Proof. intros (_ & _ & H & _). exact H. Qed.
Lemma rinv_prices r : rinv r -> steady -> Forall (priced_within cap) (md_cons (ms_model (rn_ms r))).
Proof. intros (_ & _ & _ & _ & _ & _ & _ & H & _). exact H. Qed.
Lemma rinv_good r : rinv r -> forall y, In y (visited r) -> good y.
Proof. intros (_ & _ & _ & _ & _ & _ & _ & _ & H). exact H. Qed.
Lemma visited_sound r y : rinv r -> In y (visited r) -> sound s0 y.
Proof. intros (_ & _ & _ & _ & V & _) H. unfold visited in H. apply in_map_iff in H as ([z sc] & <- & H). exact (proj2 (V z sc H)). Qed.

Lemma import_spec r y : rinv r -> sound s0 y ->
  match import_sparse p (rn_ms r) y with
  | Some s => (exists x, s = with_x (rn_ms r) x /\ forall v, x v = y v) /\ loop_start is01 s /\ same_core s s0 /\ clean s0 s
  | None => ~ valid_start (pb_n p) (placed p y) (pb_sels p)
  end.
Proof.
  intros I [K _]. destruct PREP as (L & D & R & Sel & B & Z1 & _). destruct I as (Co & Kr & _). unfold import_sparse.
  assert (F : forallb (fun v => negb (ms_fixed (rn_ms r) v) || (y v =? ms_x (rn_ms r) v)%Z) (seq 0 (pb_n p)) = true).
  { apply forallb_forall. intros v _. destruct (ms_fixed (rn_ms r) v) eqn:Ef; [|reflexivity]. cbn [negb orb]. apply Z.eqb_eq.
    assert (Ef0 : ms_fixed s0 v = true) by (destruct Co as (_ & _ & _ & (_ & _ & _ & _ & E & _)); now rewrite <- E).
    assert (Nd : ~ In v (map fst (ms_deps s0))) by (intros Hd; destruct (D v Hd); congruence). now rewrite (K v Ef0 Nd), (Kr v Ef0 Nd). }
  rewrite F. clear F.
  assert (Rd : selections_ready (placed p y) (pb_sels p)) by exact Sel. assert (Sb : sane_bounds (pb_n p) (placed p y)) by exact B.
  destruct (verify false (pb_n p) (md_cons (ms_model (rn_ms r))) (pb_sens p) (placed p y) (pb_sels p)) as [[vs ss]|] eqn:E.
  - destruct (verify_spec _ _ _ _ _ _ _ _ Rd Sb E) as (S1 & S2 & _ & S4). specialize (S4 eq_refl).
    assert (Ev : forall v, va_value (vs v) = y v) by (intros v; rewrite S4; reflexivity).
    assert (Cw : same_core (with_x (rn_ms r) (fun v => va_value (vs v))) s0) by exact Co.
    split; [exists (fun v => va_value (vs v)); split; [reflexivity|exact Ev]|]. split; [|split; [exact Cw|]].
    + apply (core_start is01 s0); [exact L|exact Cw|]. intros v Hv. cbn [with_x ms_x]. destruct (Z1 v Hv) as (Hn & Hs). destruct S2 as [V1 V2]. destruct (V2 v Hn) as [P1 P2].
      destruct (S1 v) as (L1 & L2 & _ & L4 & _). rewrite L4 in P1, P2. rewrite L1, L2 in P2. cbn [placed v_with_value va_sense va_lower va_upper] in P1, P2.
      destruct Hs as [Hs|[(Hs & Hb & Hc)|(sl & H1 & H2)]]; [destruct (P1 Hs); lia|specialize (P2 Hs); lia|].
      destruct (V1 sl H1) as (w & W1 & W2 & W3). destruct (Nat.eq_dec v w) as [->|Dw]; [lia|rewrite (W3 v H2 Dw); lia].
    + split; [apply Cw|]. intros v Hf Hd. cbn [with_x ms_x]. rewrite Ev. now apply K.
  - intros V. destruct (verify_valid false (pb_n p) (md_cons (ms_model (rn_ms r))) (pb_sens p) (placed p y) (pb_sels p) Rd V) as (vs & ss & E' & _). congruence.
Qed.

(** What a search leaves behind. *)
Lemma search_rinv r s s1 h1 m1 vs cur starts n : rinv r -> loop_start is01 s -> same_core s s0 ->
  (steady -> Forall (priced_within cap) (md_cons (ms_model s))) ->
  same_frame s1 s -> clean s0 s1 -> counted_all m1 -> (forall q, In q vs -> true_score (ms_model s) (fst q) (snd q)) -> all_sound s0 vs ->
  h1 = fold_left (h_step true) (offers vs) (reset_local (rn_holder r)) ->
  In cur (visited r) -> (forall y, In y starts -> In y (visited r)) -> (forall q, In q vs -> good (fst q)) ->
  rinv (mkRun s1 h1 m1 cur (rn_events r ++ [ResetLocal] ++ offers vs) starts n).
Proof.
  intros (_ & _ & _ & H & V & _ & _ & _ & Gd) L Co Pr F [_ K] M T Sd Hh Hc Hs Gv.
  assert (Ov : forall y, In y (visited r) -> In y (visited (mkRun s1 h1 m1 cur (rn_events r ++ [ResetLocal] ++ offers vs) starts n))).
  { intros y Hy. unfold visited in *. cbn [rn_events]. rewrite offered_app, map_app. apply in_app_iff. now left. }
  split; [eapply core_trans; [apply core_of_frame; exact F|exact Co]|]. split; [exact K|]. split; [exact M|]. split; [|split; [|split; [apply Ov, Hc|split; [intros y Hy; apply Ov, Hs, Hy|split]]]]; cbn [rn_ms rn_holder rn_events].
  - rewrite Hh, H, (fold_offers (pb_minimize p)), fold_left_app. reflexivity.
  - intros y sc Hy. rewrite offered_app in Hy. apply in_app_iff in Hy as [Hy|Hy]; [now apply V|]. cbn [app offered] in Hy. rewrite offered_offers in Hy.
    split; [|now apply (Sd y sc)]. apply (core_honest is01 s0 s); [exact L|exact Co|]. exact (T (y, sc) Hy).
  - intros St. specialize (Pr St). destruct F as (Fc & _). clear - Pr Fc. revert Fc Pr. generalize (md_cons (ms_model s1)) as l1, (md_cons (ms_model s)) as l.
    induction l1 as [|c l1 IH]; intros [|c' l] E P; try discriminate; constructor.
    + cbn [map] in E. assert (Eh : frame c = frame c') by (injection E; intros; unfold frame; congruence). inversion P; subst. unfold priced_within in *. unfold frame in Eh.
      assert (E1 : ct_pen_less c = ct_pen_less c') by congruence. assert (E2 : ct_pen_greater c = ct_pen_greater c') by congruence. rewrite E1, E2. assumption.
    + cbn [map] in E. inversion P; subst. apply (IH l); [injection E; intros; assumption|assumption].
  - intros y Hy. unfold visited in Hy. cbn [rn_events] in Hy. rewrite offered_app, map_app in Hy. apply in_app_iff in Hy as [Hy|Hy]; [now apply Gd|]. cbn [app offered] in Hy. rewrite offered_offers in Hy.
    apply in_map_iff in Hy as (q & <- & Hq). now apply Gv.
Qed.

(** The incumbents of a run. *)
Lemma rinv_h r : rinv r -> h_inv (rn_events r) (rn_holder r).
Proof. intros (_ & _ & _ & H & _). rewrite H. apply h_start_run. Qed.
Lemma in_visited r y sc : In (y, sc) (offered (rn_events r)) -> In y (visited r).
Proof. intros H. unfold visited. exact (in_map fst _ _ H). Qed.
Lemma global_visited r : rinv r -> In (global_solution r) (visited r).
Proof.
  intros I. pose proof (rinv_h r I) as (_ & _ & [[E1 _]|(y & sc & H1 & _ & H3 & _)] & _).
  - destruct I as (_ & _ & _ & _ & _ & C & _). unfold visited in C. rewrite E1 in C. destruct C.
  - unfold global_solution. rewrite H3. exact (in_visited r y sc H1).
Qed.
Lemma current_rinv r : rinv r -> rinv (with_current r).
Proof.
  intros I. pose proof (global_visited r I) as G. destruct I as (A & B & C & D & E & _ & F). unfold rinv. cbn [with_current rn_ms rn_holder rn_mem rn_current rn_events rn_starts].
  split; [exact A|]. split; [exact B|]. split; [exact C|]. split; [exact D|]. split; [exact E|]. split; [exact G|exact F].
Qed.

(** The beginning. *)
Lemma preprocess_rinv : (steady -> Forall (priced_within cap) (md_cons (ms_model s0))) -> good (ms_x (ms_export (ms_update s0))) -> rinv (v_preprocess naive s0 m0).
Proof.
  intros Pr G0. destruct PREP as (L & D & R & _ & _ & _ & M). unfold v_preprocess.
  pose proof (start_update is01 s0 L) as I. pose proof (true_fresh is01 s0 _ L I) as T.
  pose proof (offer_facts is01 s0 (ms_update s0) (h_start naive) _ L I T) as O. unfold l_offer in O.
  assert (C0 : clean s0 s0) by (split; [apply static_same|intros v _ _; reflexivity]).
  assert (Cu := update_clean s0 s0 C0).
  assert (Te : true_score (ms_model s0) (ms_x (ms_export (ms_update s0))) (evaluate (ms_model (ms_update s0)) (ms_x (ms_update s0)) [])).
  { destruct (try_update _ _ _) as [h st] in O. destruct O as (_ & _ & O & _). exact O. }
  assert (Fe : same_frame (ms_export (ms_update s0)) s0) by (eapply frame_trans; [apply export_frame|apply update_frame]).
  split; [now apply core_of_frame|]. split; [apply (export_clean s0 _ Cu)|]. split; [exact M|]. split; [reflexivity|]. split.
  - intros y sc [H|[]]. assert (y = ms_x (ms_export (ms_update s0))) by congruence. assert (sc = evaluate (ms_model (ms_update s0)) (ms_x (ms_update s0)) []) by congruence. subst y sc.
    split; [|now apply clean_sound]. apply (core_honest is01 s0 s0); [exact L| |exact Te]. split; [reflexivity|]. split; [reflexivity|]. split; [reflexivity|apply static_same].
  - split; [now left|]. split; [intros y []|]. split; [|intros y [<-|[]]; exact G0]. intros St. specialize (Pr St). clear - Pr Fe. cbn [rn_ms]. destruct Fe as (Fc & _). revert Fc Pr.
    generalize (md_cons (ms_model (ms_export (ms_update s0)))) as l1, (md_cons (ms_model s0)) as l.
    induction l1 as [|c l1 IH]; intros [|c' l] E P; try discriminate; constructor.
    + cbn [map] in E. assert (Eh : frame c = frame c') by (injection E; intros; unfold frame; congruence). inversion P; subst. unfold priced_within in *. unfold frame in Eh.
      assert (E1 : ct_pen_less c = ct_pen_less c') by congruence. assert (E2 : ct_pen_greater c = ct_pen_greater c') by congruence. rewrite E1, E2. assumption.
    + cbn [map] in E. inversion P; subst. apply (IH l); [injection E; intros; assumption|assumption].
Qed.
Lemma dual_rinv r s h q : rinv r -> h = h_step (pb_minimize p) (rn_holder r) (OfferDual q) -> s = rn_ms r ->
  rinv (mkRun s h (rn_mem r) (rn_current r) (rn_events r ++ [OfferDual q]) (rn_starts r) (rn_rounds r)).
Proof.
  intros (A & B & C & D & E & F & G & P) -> ->. unfold rinv, visited in *. cbn [rn_ms rn_holder rn_mem rn_current rn_events rn_starts].
  assert (Eo : offered (rn_events r ++ [OfferDual q]) = offered (rn_events r)) by (rewrite offered_app; cbn [offered]; apply app_nil_r).
  rewrite Eo. split; [exact A|]. split; [exact B|]. split; [exact C|]. split; [|split; [exact E|split; [exact F|split; [exact G|exact P]]]]. rewrite D, fold_left_app. reflexivity.
Qed.
Lemma pdlp_rinv b r : rinv r -> rinv (v_pdlp p b r).
Proof. intros I. destruct b as [q|]; [|exact I]. cbn [v_pdlp]. now apply dual_rinv. Qed.

(** The outcome of a phase. *)
Definition phase_ok (o : outcome run) (n : Z) : Prop :=
  match o with
  | Done r => rinv r /\ rn_rounds r = n
  | Rejected r y => rinv r /\ rn_rounds r = n /\ In y (visited r) /\ ~ valid_start (pb_n p) (placed p y) (pb_sels p)
  | NotANumber r => False
  end.
Lemma lagrange_ok g r : rinv r ->
  (forall a, g = Some a -> gg_applicable a = true -> ms_deps s0 = [] /\ (1 <= go_queue (gg_options a))%Z /\
     forall v, is01 v = true -> (0 <= gg_lo a v <= 1)%Z /\ (0 <= gg_hi a v <= 1)%Z) ->
  (forall a s h, g = Some a -> gg_applicable a = true -> same_core s s0 -> good (ms_x s) ->
     forall q, In q (gl_visited (fst (g_search (gg_options a) (pb_minimize p) (gg_vars a) (gg_lo a) (gg_hi a) s h (gg_clock a)))) -> good (fst q)) ->
  phase_ok (v_lagrange p g r) (rn_rounds r).
Proof.
  intros I H HG. destruct g as [a|]; [|split; [exact I|reflexivity]]. cbn [v_lagrange].
  destruct (gg_applicable a) eqn:Ea; cbn [negb orb]; [|split; [now apply current_rinv|reflexivity]].
  destruct (gg_late a || target_reached (go_target (gg_options a)) (rn_holder r)); [split; [now apply current_rinv|reflexivity]|].
  destruct (H a eq_refl Ea) as (H1 & H2 & H3). assert (Cv : In (rn_current r) (visited r)) by now apply rinv_current. pose proof (import_spec r _ I (visited_sound r _ I Cv)) as Im.
  destruct (import_sparse p (rn_ms r) (rn_current r)) as [s|]; [|split; [exact I|split; [reflexivity|split; [exact Cv|exact Im]]]].
  destruct Im as ((x & Ex & Exy) & L & Co & Cl). assert (Gs0 : good (ms_x s)) by (subst s; cbn [with_x ms_x]; apply (GE (rn_current r)); [intros v; symmetry; apply Exy|now apply (rinv_good r)]). assert (Dp : ms_deps s = []) by (destruct Co as (_ & _ & _ & (_ & _ & _ & _ & _ & _ & ->)); exact H1).
  destruct PREP as (_ & _ & R & _).
  pose proof (g_search_clean s0 R (gg_options a) (pb_minimize p) (gg_vars a) (gg_lo a) (gg_hi a) s (rn_holder r) (gg_clock a) Cl) as [Gc Gs].
  assert (Q0 : qinv (gg_options a) (g_setup (gg_options a) (length (gg_vars a)) s (rn_holder r))).
  { unfold g_setup. destruct (l_offer _ _ _) as [[s1 h1] st]. split; [reflexivity|]. cbn. lia. }
  destruct (run_ginv is01 (gg_options a) (pb_minimize p) (gg_vars a) (gg_lo a) (gg_hi a) s (rn_holder r) L Dp H2 H3 (gg_clock a) _ (setup_ginv is01 _ (length (gg_vars a)) s (rn_holder r) L) Q0) as ((Mi & _ & V & _ & Hh) & _).
  fold (g_search (gg_options a) (pb_minimize p) (gg_vars a) (gg_lo a) (gg_hi a) s (rn_holder r) (gg_clock a)) in *.
  set (l := fst (g_search (gg_options a) (pb_minimize p) (gg_vars a) (gg_lo a) (gg_hi a) s (rn_holder r) (gg_clock a))) in *.
  assert (I1 : rinv (mkRun (gl_ms l) (gl_holder l) (rn_mem r) (rn_current r) (rn_events r ++ [ResetLocal] ++ offers (gl_visited l)) (rn_starts r ++ [rn_current r]) (rn_rounds r))).
  { apply (search_rinv r s); try assumption; [subst s; exact (rinv_prices r I)|apply Mi|now apply rinv_counts| |now apply HG].
    intros y Hy. apply in_app_iff in Hy as [Hy|[<-|[]]]; [now apply rinv_starts|exact Cv]. }
  split; [|reflexivity]. apply current_rinv. fold (offers (gl_visited l)). unfold g_dual_bound.
  destruct (gl_lagrangian l) as [q|]; [|rewrite app_nil_r; exact I1].
  rewrite (app_assoc [ResetLocal] (offers (gl_visited l)) [OfferDual q]), app_assoc.
  exact (dual_rinv _ (gl_ms l) _ q I1 eq_refl eq_refl).
Qed.
Lemma local_ok g r : rinv r -> (forall a, g = Some a -> forall e t, In e (gc_envs a) -> In t (se_moves e) -> trial_ok is01 s0 t /\ anchored (ms_model s0) t) ->
  (forall a s h m, g = Some a -> same_core s s0 -> good (ms_x s) -> forall q, In q (sl_visited (fst (s_search (gc_options a) s h m (gc_envs a)))) -> good (fst q)) ->
  phase_ok (v_local p g r) (rn_rounds r).
Proof.
  intros I H HG. destruct g as [a|]; [|split; [exact I|reflexivity]]. cbn [v_local].
  destruct (gc_late a || target_reached (so_target (gc_options a)) (rn_holder r)); [split; [now apply current_rinv|reflexivity]|].
  assert (Cv : In (rn_current r) (visited r)) by now apply rinv_current. pose proof (import_spec r _ I (visited_sound r _ I Cv)) as Im.
  destruct (import_sparse p (rn_ms r) (rn_current r)) as [s|]; [|split; [exact I|split; [reflexivity|split; [exact Cv|exact Im]]]].
  destruct Im as ((x & Ex & Exy) & L & Co & Cl). assert (Gs0 : good (ms_x s)) by (subst s; cbn [with_x ms_x]; apply (GE (rn_current r)); [intros v; symmetry; apply Exy|now apply (rinv_good r)]). destruct PREP as (_ & _ & R & _).
  assert (Mc : counted_all (rn_mem r)) by now apply rinv_counts.
  pose proof (s_search_clean s0 R (gc_options a) s (rn_holder r) (rn_mem r) (gc_envs a) Cl Mc) as (Gc & Gs & Gm).
  destruct (setup_sinv is01 s (rn_holder r) (rn_mem r) L) as [Si _].
  destruct (run_facts is01 s (rn_holder r) (gc_options a) L (gc_envs a) _ Si (fun e t He Ht => conj (core_trial is01 s0 s t Co (proj1 (H a eq_refl e t He Ht))) (core_anchored s0 s t Co (proj2 (H a eq_refl e t He Ht))))) as ((Mi & _ & V & _ & Hh) & _).
  fold (s_search (gc_options a) s (rn_holder r) (rn_mem r) (gc_envs a)) in *.
  set (l := fst (s_search (gc_options a) s (rn_holder r) (rn_mem r) (gc_envs a))) in *.
  split; [|reflexivity]. apply current_rinv. fold (offers (sl_visited l)).
  apply (search_rinv r s); try assumption; [subst s; exact (rinv_prices r I)|apply Mi| |now apply HG].
  intros y Hy. apply in_app_iff in Hy as [Hy|[<-|[]]]; [now apply rinv_starts|exact Cv].
Qed.
End Solve.
