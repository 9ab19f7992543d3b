(** Proofs for C77, continued: solve() with its own moves. *)
From Coq Require Import List NArith ZArith QArith Permutation Bool Arith Lia.
From Verif Require Import ExprModel ExprSpec ConstraintModel VariableModel TypeModel PresolveModel DuplicateModel DependentModel DependentSpec
  SelectionModel SelectionSpec PrepareModel PrepareSpec EvalModel EvalSpec EvalSpec2 MoveModel SolutionModel TabuModel LoopModel LoopSpec LocalModel LocalSpec
  LagrangeModel ControllerModel ControllerSpec SolverModel SolverSpec WholeModel WholeSpec RelaxModel RelaxSpec OfferModel OfferSpec.
From Verif Require Import EvalProof3 LoopProof PrepareProof5 WholeProof WholeProof2 SolverProof SolverProof4 RelaxProof4 OfferProof OfferProof2 OfferProof3 OfferProof4.
From Verif Require ScreenModel.
Import ListNotations.
Local Open Scope nat_scope.

(** ** The same run as a run of SolverModel *)
Lemma local_same nb p g r : exists g', n_local nb p g r = v_local p g' r.
Proof.
  destruct g as [[[o late] ds]|]; [|exists None; reflexivity]. cbn [n_local].
  destruct (late || target_reached (so_target o) (rn_holder r)) eqn:E; [exists (Some (mkGloc o late [])); cbn [v_local gc_late gc_options]; rewrite E; reflexivity|].
  destruct (import_sparse p (rn_ms r) (rn_current r)) as [s|] eqn:Ei.
  - exists (Some (mkGloc o late (n_senvs nb o ds (s_setup s (rn_holder r) (rn_mem r))))). cbn [v_local gc_late gc_options gc_envs]. rewrite E, Ei. reflexivity.
  - exists (Some (mkGloc o late [])). cbn [v_local gc_late gc_options]. rewrite E, Ei. reflexivity.
Qed.

Lemma rounds_same nb o lg root p limit target ds : forall i last k r, exists ds', n_rounds nb o lg root p limit target ds i last k r = v_rounds o lg root p limit target ds' i last k r.
Proof.
  induction ds as [|g ds IH]; intros i last k r; [exists []; reflexivity|]. cbn [n_rounds].
  destruct (gd_time_over g) eqn:E1; [exists []; reflexivity|]. destruct (limit <=? i)%Z eqn:E2; [exists []; reflexivity|].
  destruct (target_reached target (rn_holder r)) eqn:E3; [exists []; reflexivity|].
  destruct ((0 <? i)%Z && match last with Some Optimal => true | _ => false end) eqn:E4; [exists []; reflexivity|].
  destruct (import_sparse p (rn_ms r) (k_current k)) as [s|] eqn:Ei.
  2: { exists [mkTd false (gd_options g) [] [] 0%Z 0%Q 0%Q 0%Z]. cbn [v_rounds td_time_over]. rewrite E2, E3, E4, Ei. reflexivity. }
  set (d := realise nb k s (rn_holder r) (rn_mem r) g).
  assert (Fd : td_time_over d = gd_time_over g /\ td_options d = gd_options g /\ td_last_update d = gd_last_update g /\ td_range d = gd_range g /\ td_rate d = gd_rate g /\ td_draw d = gd_draw g)
    by (repeat split; reflexivity).
  destruct Fd as (F1 & F2 & F3 & F4 & F5 & F6). clearbody d.
  destruct (l_search (governed k (gd_options g)) s (rn_holder r) (rn_mem r) (td_mods d) (td_envs d)) as [l st] eqn:El. cbv zeta.
  set (ku := k_update o lg root (mkRr (total_status (rn_holder r) (lp_visited l)) (lp_iteration l) (tn_tenure (lp_ten l)) (gd_last_update g) (gd_range g) (gd_rate g)) (lp_holder l) (lp_mem l)
    (lo_nmut (gd_options g)) (gd_draw g) (ms_model (lp_ms l)) k).
  destruct ku as [[k' cs]|] eqn:Ek.
  - match goal with |- exists ds', n_rounds _ _ _ _ _ _ _ _ ?i' ?l' ?k'' ?r' = _ => destruct (IH i' l' k'' r') as [ds' E] end. rewrite E. exists (d :: ds'). cbn [v_rounds].
    rewrite F1, F2, F3, F4, F5, F6, E1, E2, E3, E4, Ei, El. cbv zeta. fold ku. rewrite Ek. reflexivity.
  - exists [d]. cbn [v_rounds]. rewrite F1, F2, F3, F4, F5, F6, E1, E2, E3, E4, Ei, El. cbv zeta. fold ku. rewrite Ek. reflexivity.
Qed.
Lemma solve_same nb lg root p naive b g a s0 m0 : exists a', in_limit a' = ni_limit a /\ n_solve nb lg root p naive b g a s0 m0 = solve lg root p (with_relaxations naive b g a') s0 m0.
Proof.
  unfold n_solve, solve. cbv zeta. cbn [with_relaxations in_pdlp in_naive in_lagrange in_local in_control in_limit in_target in_rounds].
  destruct (v_lagrange p g (v_pdlp p b (v_preprocess naive s0 m0))) as [r1| |] eqn:E1.
  2,3: exists (mkIn naive b g None (ni_control a) (ni_limit a) (ni_target a) []); split; reflexivity.
  destruct (local_same nb p (ni_local a) r1) as [gl El]. cbn [bind]. rewrite El. destruct (v_local p gl r1) as [r2| |] eqn:E2.
  2,3: exists (mkIn naive b g gl (ni_control a) (ni_limit a) (ni_target a) []); split; [reflexivity|]; cbn [in_local]; rewrite E2; reflexivity.
  cbn [bind]. destruct (rounds_same nb (ni_control a) lg root p (ni_limit a) (ni_target a) (ni_rounds a) 0%Z None (k_setup (ni_control a) (rn_mem r2) (rn_current r2)) r2) as [ds Ed].
  rewrite Ed. exists (mkIn naive b g gl (ni_control a) (ni_limit a) (ni_target a) ds). split; [reflexivity|]. cbn [in_local in_control in_limit in_target in_rounds]. rewrite E2. cbn [bind]. unfold v_tabu.
  destruct (v_rounds _ _ _ _ _ _ ds _ _ _ _); reflexivity.
Qed.

Section Solve.
  Context (su : surroundings) (o : search_options) (mi : bool) (s : dstate) (r : dstate * list sel) (on : ctype -> bool) (pairs : list (nat * nat)).
  Hypothesis Rd : search_ready mi s r.
  Hypothesis St : settled r.
  Hypothesis Se : searchable su r.
  Hypothesis Ls : forall t, In t (snd r) -> listed (ds_cons (fst r)) t.
  Hypothesis Fp : flippable_pairs r pairs.
  Let n := ds_number (fst r).
  Let vs := ds_vars (fst r).
  Let is01 := zero_one_in n vs.
  Let s0 := search_state o mi r.
  Let nb := setup_neighborhood on pairs su r.
  Let p := search_problem su mi r.

  Lemma good_start : good r (ms_x (ms_export (ms_update s0))).
  Proof.
    apply (good_agree o mi s r Rd St (ms_x s0)).
    - intros v Hd. fold s0 in Hd. rewrite (export_x (ms_update s0) v) by exact Hd. rewrite (ms_update_x s0 v) by exact Hd. reflexivity.
    - split; [|reflexivity]. pose proof (sr_start _ _ _ Rd) as V. unfold valid. cbn [s0 search_state ms_x].
      destruct V as [V1 V2]. split; [exact V1|]. intros v L. exact (V2 v L).
  Qed.
  Lemma good_pointwise x y : (forall v, x v = y v) -> good r x -> good r y.
  Proof. intros E. apply (good_agree o mi s r Rd St). intros v _. apply E. Qed.
  Lemma core_fine t : same_core t s0 -> good r (ms_x t) -> fine s0 (good r) t.
  Proof. intros (_ & _ & _ & S) G. destruct S as (_ & _ & _ & _ & F & _ & D). split; [exact D|]. split; [intros v; now rewrite F|exact G]. Qed.

  (** *** The Lagrange dual search *)
  Definition boxes (v : nat) (a : Z) : Prop := v < n -> (va_sense (vs v) = VBinary -> a = 0 \/ a = 1)%Z /\ (va_sense (vs v) = VInteger -> va_lower (vs v) <= a <= va_upper (vs v))%Z.
  Lemma no_selections : lagrange_applies (fst r) = true -> snd r = [].
  Proof.
    intros A. destruct (snd r) as [|t l] eqn:E; [reflexivity|]. exfalso. assert (It : In t (snd r)) by (rewrite E; now left).
    destruct (proj1 (sr_start _ _ _ Rd) t It) as (w & Iw & _). pose proof (sr_members _ _ _ Rd t w It Iw) as L. pose proof (sel_sense mi s r Rd t w It Iw) as Sn.
    unfold lagrange_applies in A. rewrite forallb_forall in A. specialize (A w ltac:(apply in_seq; lia)). rewrite Sn in A. discriminate.
  Qed.
  Lemma lagrange_good go clock t h : lagrange_applies (fst r) = true -> same_core t s0 -> good r (ms_x t) ->
    forall q, In q (gl_visited (fst (g_search go mi (seq 0 n) (fun v => va_lower (vs v)) (fun v => va_upper (vs v)) t h clock))) -> good r (fst q).
  Proof.
    intros A Co G [y sc] I. cbn [fst]. pose proof (core_fine t Co G) as (D & _ & [[_ V] F]). pose proof (no_deps o mi s r Rd A) as Nd. fold s0 in Nd.
    assert (Bt : boxed (ms_deps s0) boxes t) by (split; [exact D|]; intros v _ L; exact (V v L)).
    assert (Bb : forall v, In v (seq 0 n) -> boxes v (va_lower (vs v)) /\ boxes v (va_upper (vs v))).
    { intros v _. destruct (sr_ready _ _ _ Rd) as (_ & So & _). destruct (So v) as (S1 & S2 & _). fold vs in S1, S2. split; intros _; (split; intros Sn; [specialize (S2 (or_introl Sn)); lia|lia]). }
    pose proof (g_search_box (ms_deps s0) boxes go mi (seq 0 n) (fun v => va_lower (vs v)) (fun v => va_upper (vs v)) t h clock Bb Bt) as [_ By].
    specialize (By y sc I). pose proof (search_prepared su o mi s r Rd St) as PP. destruct PP as (_ & _ & R & _).
    assert (C0 : clean s0 t).
    { destruct Co as (_ & _ & _ & Ss). split; [exact Ss|]. intros v Hf _. exact (F v Hf). }
    pose proof (g_search_clean s0 R go mi (seq 0 n) (fun v => va_lower (vs v)) (fun v => va_upper (vs v)) t h clock C0) as [_ Cy]. destruct (Cy y sc I) as [K _].
    split; [split|].
    - rewrite (no_selections A). intros t' [].
    - intros v L. refine (By v _ L). rewrite Nd. intros [].
    - intros v Hf. apply K; [exact Hf|]. rewrite Nd. intros [].
  Qed.

  Lemma choice_all c : choice_ok r c -> choice_ok r (accept_all c).
  Proof. intros H. exact H. Qed.

  Context (lg : Z -> Q) (root : Q -> Q) (naive : Q) (b : option Q) (x : relaxations) (a : ninputs).
  Hypothesis Gx : forall go late clock, rx_lagrange x = Some (go, late, clock) -> (1 <= go_queue go)%Z.
  Hypothesis Dv : driven r a.
  Lemma own_moves : match n_solve nb lg root p naive b (lagrange_phase x r) a s0 mem_setup with
    | Done (an, rn) => (orderly (ni_limit a) rn /\ (forall y, In y (visited rn) -> good r y)) /\ right_answer p s0 rn an /\ (an_feasible an = true -> solution_of s (wo_defined o) an)
    | Rejected _ _ => False
    | NotANumber rn => (orderly (ni_limit a) rn /\ (forall y, In y (visited rn) -> good r y)) /\ (log_like lg -> unpriceable s0 rn)
    end.
  Proof.
    pose proof (search_prepared su o mi s r Rd St) as PP.
    pose proof (n_solve_ok nb lg root p naive b (lagrange_phase x r) a s0 mem_setup is01 (good r) PP) as H.
    assert (A1 : forall g, lagrange_phase x r = Some g -> gg_applicable g = true -> ms_deps s0 = [] /\ (1 <= go_queue (gg_options g))%Z /\
      forall v, is01 v = true -> (0 <= gg_lo g v <= 1)%Z /\ (0 <= gg_hi g v <= 1)%Z).
    { intros g E Ap. unfold lagrange_phase in E. destruct (rx_lagrange x) as [[[go late] clock]|]; [|discriminate]. injection E as <-. cbn [gg_applicable gg_options gg_lo gg_hi] in *.
      split; [exact (no_deps o mi s r Rd Ap)|]. split; [exact (Gx go late clock eq_refl)|]. intros v Z1. unfold is01, zero_one_in in Z1. apply andb_true_iff in Z1 as [L Z1].
      destruct (sr_ready _ _ _ Rd) as (_ & So & _). destruct (So v) as (S1 & S2 & _). fold vs in S1, S2. destruct (va_sense (vs v)) eqn:Sn; try discriminate.
      - destruct S2 as [S3 S4]; [auto|]. fold vs. lia.
      - apply andb_true_iff in Z1 as [Z1 Z2]. apply Z.leb_le in Z1, Z2. fold vs. lia.
      - destruct S2 as [S3 S4]; [auto|]. fold vs. lia. }
    specialize (H A1 (dv_tenure r a Dv) good_pointwise good_start).
    assert (G1 : forall g t h, lagrange_phase x r = Some g -> gg_applicable g = true -> same_core t s0 -> good r (ms_x t) ->
      forall q, In q (gl_visited (fst (g_search (gg_options g) (pb_minimize p) (gg_vars g) (gg_lo g) (gg_hi g) t h (gg_clock g)))) -> good r (fst q)).
    { intros g t h E Ap Co G. unfold lagrange_phase in E. destruct (rx_lagrange x) as [[[go late] clock]|]; [|discriminate]. injection E as <-. cbn [gg_applicable gg_options gg_lo gg_hi gg_vars gg_clock] in *.
      exact (lagrange_good go clock t h Ap Co G). }
    specialize (H G1). clear A1 G1.
    pose proof (good_agree o mi s r Rd St) as AG. pose proof (good_step mi s r Rd) as SP. pose proof (fits_move r) as MV.
    pose proof (tried_sane su o mi s r on pairs Rd St Se Ls Fp) as TS. fold nb s0 n vs is01 in TS.
    assert (G2 : forall o' late ds t h m, ni_local a = Some (o', late, ds) -> loop_start is01 t -> same_core t s0 -> good r (ms_x t) -> let es := n_senvs nb o' ds (s_setup t h m) in
      (forall e u, In e es -> In u (se_moves e) -> trial_ok is01 s0 u /\ anchored (ms_model s0) u) /\ forall q, In q (sl_visited (fst (s_search o' t h m es))) -> good r (fst q)).
    { intros o' late ds t h m E L Co G. destruct (dv_local r a Dv o' late ds E) as [An Ds].
      refine (local_good is01 s0 nb (good r) (fits r) (choice_ok r) (tok r) AG SP MV TS _ o' t h m ds L Co (core_fine t Co G) Ds).
      intros c y u Cc Gy Iu. exact (tried_anchored su o mi s r on pairs Rd St Se Ls Fp c y u An Cc Gy Iu). }
    specialize (H G2). clear G2.
    assert (G3 : forall g k t h m, In g (ni_rounds a) -> same_core t s0 -> good r (ms_x t) -> let d := realise nb k t h m g in
      (0 <= lo_nmut (gd_options g))%Z /\ (forall u, In u (map fst (td_mods d)) -> trial_ok is01 s0 u) /\ (forall e u, In e (td_envs d) -> In u (en_moves e) -> trial_ok is01 s0 u) /\
      forall q, In q (lp_visited (fst (l_search (governed k (gd_options g)) t h m (td_mods d) (td_envs d)))) -> good r (fst q)).
    { intros g k t h m Ig Co G. split; [apply (dv_rounds r a Dv g Ig)|].
      exact (realise_good is01 s0 nb (good r) (fits r) (choice_ok r) (tok r) AG SP TS choice_all k t h m g (core_fine t Co G) (dv_rounds r a Dv g Ig)). }
    specialize (H G3). clear G3. cbv zeta in H.
    destruct (n_solve nb lg root p naive b (lagrange_phase x r) a s0 mem_setup) as [[an rn]|rn y|rn].
    - destruct H as ((H1 & H2 & _) & H3). split; [split; assumption|]. split; [exact H3|]. exact (right_solution su o mi s r Rd St rn an H3).
    - destruct H as ((_ & H2 & _) & H3 & H4). apply H4. destruct (H2 y H3) as [V _]. exact V.
    - destruct H as ((H1 & H2 & _) & H3). split; [split; assumption|exact H3].
  Qed.
End Solve.
