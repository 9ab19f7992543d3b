(** Proofs for C76: the Lagrange dual search on the prepared problem; the reported bound. *)
From Coq Require Import List NArith ZArith QArith Qabs Bool Arith Lia Lqa.
From Verif Require Import ExprModel ExprSpec ExprProof ConstraintModel ConstraintSpec VariableModel TypeModel TypeSpec PresolveModel PresolveSpec
  DuplicateModel DependentModel DependentSpec SelectionModel SelectionSpec PrepareModel PrepareSpec EvalModel LoopModel TabuModel WholeModel WholeSpec.
From Verif Require ScreenModel.
From Verif Require Import SolutionModel SolverModel SolverSpec LagrangeModel LagrangeSpec RelaxModel RelaxSpec.
From Verif Require Import SelectionProof3 EvalProof3 LoopProof LagrangeProof2 PrepareProof PrepareProof5 WholeProof WholeProof2 WholeProof6 RelaxProof RelaxProof2 RelaxProof3.
From Verif Require WholeProof4.
Import ListNotations.
Local Open Scope nat_scope.

(** Where no variable is defined by an expression all constraints hold at the solutions. *)
Definition all_in_force (r : dstate * list sel) : Prop := (forall v, ds_dep (fst r) v = None) -> forall y, meets r y -> forall c, In c (ds_cons (fst r)) -> satisfies c y.
Lemma prepared_in_force f sw su m s r : proper_model s -> prepare f sw su m s = Some (Ok r) -> search_ready m s r -> all_in_force r.
Proof.
  intros P Pr Rd N y M c I. refine (prepare_hold f sw su m s r y P Pr N _ c I). intros k K.
  apply (sv_cons _ _ (proj1 (proj1 (sr_keeps _ _ _ Rd) y M)) k K), (pm_enabled _ P), K.
Qed.

Section Dual.
  Context (su : surroundings) (o : search_options) (m : bool) (s : dstate) (r : dstate * list sel).
  Hypothesis Hold : all_in_force r.
  Hypothesis Rd : search_ready m s r.
  Hypothesis Ob : forall v, In v (keys (ds_obj (fst r))) -> v < ds_number (fst r).
  Hypothesis Df : wo_defined o = true.
  Let vs := ds_vars (fst r).
  Let n := ds_number (fst r).
  Let s0 := search_state o m r.
  Let p := search_problem su m r.

  Lemma applies_none : lagrange_applies (fst r) = true -> forall v, ds_dep (fst r) v = None.
  Proof.
    unfold lagrange_applies. intros A v. destruct (ds_dep (fst r) v) eqn:D; [|reflexivity]. exfalso.
    assert (N : ds_dep (fst r) v <> None) by congruence. destruct (proj1 (co_dep _ (sr_coherent _ _ _ Rd) v) N) as [L Dv].
    rewrite forallb_forall in A. specialize (A v ltac:(apply in_seq; lia)). destruct Dv as [Dv|Dv]; rewrite Dv in A; discriminate.
  Qed.
  Lemma no_deps : lagrange_applies (fst r) = true -> ms_deps s0 = [].
  Proof.
    intros A. cbn [s0 search_state ms_deps]. unfold defined_list. induction (seq 0 (ds_number (fst r))) as [|v l IH]; cbn [flat_map]; [reflexivity|]. rewrite (applies_none A v). exact IH.
  Qed.
  Lemma start_problem : lagrange_applies (fst r) = true -> dual_problem (seq 0 n) s0.
  Proof.
    intros A. pose proof (sr_coherent _ _ _ Rd) as Co. split; [split; [apply seq_NoDup|split]|split; [exact Df|split; [exact (no_deps A)|exact (co_obj _ Co)]]].
    - intros v K. apply in_seq. specialize (Ob v K). unfold n. lia.
    - intros c v I K. apply in_reset in I as (c0 & I & ->). pose proof (proj2 (co_cons _ Co c0 I) v K). apply in_seq. unfold n. lia.
  Qed.
  Lemma meets_all y : lagrange_applies (fst r) = true -> meets r y -> satisfies_all (ms_model s0) y.
  Proof.
    intros A M c I. apply in_reset in I as (c0 & I & ->).
    exact (Hold (applies_none A) y M c0 I).
  Qed.
  (** The state the search starts from. *)
  Lemma start_import sI b h : lagrange_applies (fst r) = true -> let r0 := v_pdlp p b (v_preprocess h s0 mem_setup) in
    import_sparse p (rn_ms r0) (rn_current r0) = Some sI -> same_frame sI s0 /\ forall v, ms_x sI v = va_value (vs v).
  Proof.
    intros A r0 E. assert (R0 : rn_ms r0 = ms_export (ms_update s0) /\ rn_current r0 = ms_x (ms_export (ms_update s0))) by (unfold r0, v_pdlp; destruct b; split; reflexivity).
    destruct R0 as [Y X]. rewrite X, Y in E. clear X Y r0. unfold import_sparse in E. destruct (forallb _ _); [|discriminate].
    destruct (verify _ _ _ _ _ _) as [[vs' ss]|] eqn:Ev; [|discriminate]. injection E as <-. destruct (sr_ready _ _ _ Rd) as (Sr & So & _). split.
    - refine (frame_trans _ _ _ (with_x_frame _ _) (frame_trans _ _ _ (export_frame _) (update_frame _))).
    - intros v. cbn [with_x ms_x].
      apply verify_spec in Ev as (_ & _ & _ & K).
      + rewrite (K eq_refl v). cbn [placed v_with_value va_value]. pose proof (no_deps A) as D.
        assert (D1 : ms_deps (ms_update s0) = []) by (destruct (update_frame s0) as (_ & _ & _ & (_ & _ & _ & _ & _ & _ & ->)); exact D).
        rewrite (export_x (ms_update s0) v); [|rewrite D1; intros []]. rewrite (ms_update_x s0 v); [reflexivity|rewrite D; intros []].
      + exact Sr.
      + intros w _. destruct (So w) as (S1 & S2 & _). split; [exact S1|]. intros E. apply S2. left. exact E.
  Qed.
  Lemma meets_attainable sI y : lagrange_applies (fst r) = true -> same_frame sI s0 -> (forall v, ms_x sI v = va_value (vs v)) -> meets r y ->
    attainable (seq 0 n) (fun v => va_lower (vs v)) (fun v => va_upper (vs v)) sI y.
  Proof.
    intros A F X M v _. assert (Ef : ms_fixed sI v = va_fixed (vs v)) by (destruct F as (_ & _ & _ & (_ & _ & _ & _ & -> & _)); reflexivity).
    pose proof (sv_range _ _ (proj1 M) v (applies_none A v)) as W. unfold within in W. fold vs in W. rewrite Ef, (X v). destruct (va_fixed (vs v)); split; congruence || auto.
  Qed.

  (** ** The reported bound *)
  Definition side (b : Q) (y : nat -> Z) : Prop := if m then (b <= e_eval (ds_obj (fst r)) y)%Q else (e_eval (ds_obj (fst r)) y <= b)%Q.
  Definition tighter (b b' : Q) : Prop := if m then (b <= b')%Q else (b' <= b)%Q.
  Lemma offer_side (h : holder (nat -> Z)) q y : side (ho_dual h) y -> side (if m then q else - q)%Q y -> side (ho_dual (offer_dual m h q)) y.
  Proof. unfold side, offer_dual. cbn [ho_dual]. destruct m; destruct (Qlt_le_dec _ _); auto. Qed.
  Lemma offer_tighter (h : holder (nat -> Z)) q : tighter (ho_dual h) (ho_dual (offer_dual m h q)).
  Proof. unfold tighter, offer_dual. cbn [ho_dual]. destruct m; destruct (Qlt_le_dec _ _); lra. Qed.

  Lemma lagrange_side x r0 y : (rx_lagrange x <> None -> m = true) -> (exists b h, r0 = v_pdlp p b (v_preprocess h s0 mem_setup)) -> meets r y ->
    side (ho_dual (rn_holder r0)) y ->
    let d := ho_dual (rn_holder (run_of (fun z => z) (v_lagrange p (lagrange_phase x r) r0))) in side d y /\ tighter (ho_dual (rn_holder r0)) d.
  Proof.
    intros Mn (b & h & E0) M S. cbv zeta. assert (T0 : tighter (ho_dual (rn_holder r0)) (ho_dual (rn_holder r0))) by (unfold tighter; destruct m; lra).
    unfold lagrange_phase. destruct (rx_lagrange x) as [[[go late] clock]|]; [|cbn [v_lagrange run_of]; auto].
    assert (m = true) as Em by (apply Mn; discriminate). cbv zeta. unfold v_lagrange. cbn [gg_applicable gg_late gg_options gg_vars gg_lo gg_hi gg_clock].
    destruct (lagrange_applies (fst r)) eqn:A; cbn [negb orb]; [|cbn [run_of]; auto]. destruct (late || _); [cbn [run_of]; auto|].
    destruct (import_sparse p (rn_ms r0) (rn_current r0)) as [sI|] eqn:Ei; [|cbn [run_of]; auto]. cbn [run_of with_current rn_holder].
    rewrite E0 in Ei. destruct (start_import sI b h A Ei) as [Fr X].
    change (pb_minimize p) with m. unfold g_dual_bound.
    fold vs n. set (l := fst (g_search go m (seq 0 n) _ _ sI (rn_holder r0) clock)).
    assert (Hd : ho_dual (gl_holder l) = ho_dual (rn_holder r0)) by apply g_search_dual.
    destruct (gl_lagrangian l) as [q|] eqn:El; [|rewrite Hd; auto].
    split; [|rewrite <- Hd; apply offer_tighter]. apply offer_side; [rewrite Hd; exact S|]. rewrite Em. unfold side. rewrite Em.
    unfold l in El. rewrite Em in El. pose proof (frame_problem _ _ _ Fr (start_problem A)) as Dp.
    pose proof (proj1 (search_bound go (seq 0 n) (fun v => va_lower (vs v)) (fun v => va_upper (vs v)) sI (rn_holder r0) clock Dp) q El y
      (meets_attainable sI y A Fr X M) (frame_satisfies _ _ y Fr (meets_all y A M))) as B.
    replace (md_obj (ms_model sI)) with (ds_obj (fst r)) in B; [exact B|]. destruct Fr as (_ & _ & _ & (_ & _ & -> & _)). reflexivity.
  Qed.

  Hypothesis Sc : forall c, In c (sel_cons r) -> ct_sense c = Equal /\ (forall y, meets r y -> satisfies c y) /\
    forall v, In v (keys (ct_expr c)) -> ds_dep (fst r) v = None.
  Context (nrm : list Q -> Q) (red ext : nat -> Q) (sq : Q -> Q) (lg : Z -> Q) (root : Q -> Q) (x : relaxations) (a : inputs) (b : option Q).
  Hypothesis Rx : forall po envs late, rx_pdlp x = Some (po, envs, late) -> relaxable nrm red ext sq m r envs.
  Hypothesis Lx : rx_lagrange x <> None -> m = true.
  Hypothesis Eb : pdlp_phase nrm red ext sq x m r = Ok b.
  Let naive := ScreenModel.naive_dual_bound m (ds_obj (fst r)) (ds_vars (fst r)).
  Let out := solve lg root p (with_relaxations naive b (lagrange_phase x r) a) s0 mem_setup.

  Lemma final_side y : meets r y -> side naive y -> side (reported_bound out) y /\ tighter naive (reported_bound out).
  Proof.
    intros M S. replace (reported_bound out) with (ho_dual (rn_holder (run_of snd out))) by (unfold reported_bound, final_run, run_of; destruct out as [[]| |]; reflexivity).
    unfold out. rewrite solve_dual. cbn [with_relaxations in_pdlp in_naive in_lagrange].
    set (r0 := v_pdlp p b (v_preprocess naive s0 mem_setup)).
    assert (S0 : side (ho_dual (rn_holder r0)) y /\ tighter naive (ho_dual (rn_holder r0))).
    { unfold r0, v_pdlp. set (h0 := rn_holder (v_preprocess naive s0 mem_setup)).
      assert (D0 : ho_dual h0 = naive) by (unfold h0, v_preprocess; cbn [rn_holder]; apply RelaxProof.try_dual).
      destruct b as [q|]; [|fold h0; rewrite D0; split; [exact S|unfold tighter; destruct m; lra]]. cbn [rn_holder h_step]. change (pb_minimize p) with m. fold h0.
      split; [|rewrite <- D0; apply offer_tighter]. apply offer_side; [rewrite D0; exact S|].
      pose proof (relaxation_bound m s r Rd Ob Sc nrm red ext sq x q Rx Eb y M) as B. unfold side. destruct m; exact B. }
    destruct S0 as [S0 T0]. destruct (lagrange_side x r0 y Lx (ex_intro _ b (ex_intro _ naive eq_refl)) M S0) as [S1 T1]. split; [exact S1|].
    unfold tighter in *. destruct m; lra.
  Qed.
  Lemma final_bound y : solves s y -> (if m then reported_bound out <= e_eval (ds_obj s) y else e_eval (ds_obj s) y <= reported_bound out)%Q /\ tighter naive (reported_bound out).
  Proof.
    intros S. destruct (proj2 (sr_keeps _ _ _ Rd) y S) as (z & Mz & G). destruct (proj1 (sr_keeps _ _ _ Rd) z Mz) as [Sz E].
    assert (S0 : side naive z).
    { pose proof (WholeProof6.dual_bound m s r Rd Ob z Sz) as B. unfold side, naive. unfold as_good in B. destruct m; lra. }
    destruct (final_side z Mz S0) as [S1 T]. split; [|exact T]. unfold side, as_good in *. destruct m; lra.
  Qed.
End Dual.

Lemma relaxed_eq f sw su o nrm red ext sq lg root m x a s r out : prepare f sw su m s = Some (Ok r) ->
  solve_relaxed f sw su o nrm red ext sq lg root m x a s = Some (Ok out) -> exists b, pdlp_phase nrm red ext sq x m r = Ok b /\
  out = solve lg root (search_problem su m r) (with_relaxations (ScreenModel.naive_dual_bound m (ds_obj (fst r)) (ds_vars (fst r))) b (lagrange_phase x r) a) (search_state o m r) mem_setup.
Proof.
  intros Pr E. unfold solve_relaxed in E. rewrite Pr in E. cbn [PresolveModel.bind] in E. destruct (pdlp_phase _ _ _ _ _ _ _) as [b| |]; try discriminate.
  cbn [PresolveModel.bind] in E. injection E as E. exists b. split; [reflexivity|symmetry; exact E].
Qed.

Section Gap.
  Context (f : nat) (sw : switches) (su : surroundings) (o : search_options) (m : bool) (s : dstate) (r : dstate * list sel).
  Hypothesis Pr : prepare f sw su m s = Some (Ok r).
  Hypothesis Rd : search_ready m s r.
  Hypothesis St : settled r.
  Hypothesis Df : wo_defined o = true.
  Context (nrm : list Q -> Q) (red ext : nat -> Q) (sq : Q -> Q) (lg : Z -> Q) (root : Q -> Q) (x : relaxations) (a : inputs).

  Lemma relaxed_admissible naive b : (forall go late clock, rx_lagrange x = Some (go, late, clock) -> (1 <= go_queue go)%Z) ->
    admissible (zero_one_in (ds_number (fst r)) (ds_vars (fst r))) (search_state o m r) a ->
    admissible (zero_one_in (ds_number (fst r)) (ds_vars (fst r))) (search_state o m r) (with_relaxations naive b (lagrange_phase x r) a).
  Proof.
    intros Q (_ & A2 & A3 & A4). split; [|split; [exact A2|split; [exact A3|exact A4]]].
    intros g E Ap. cbn [with_relaxations in_lagrange] in E. unfold lagrange_phase in E. destruct (rx_lagrange x) as [[[go late] clock]|]; [|discriminate]. injection E as <-.
    cbn [gg_applicable gg_options gg_lo gg_hi] in *. split; [exact (no_deps o m s r Rd Ap)|]. split; [exact (Q go late clock eq_refl)|].
    intros v Z1. unfold zero_one_in in Z1. apply andb_true_iff in Z1 as [L Z1]. destruct (sr_ready _ _ _ Rd) as (_ & So & _). destruct (So v) as (S1 & S2 & _).
    destruct (va_sense (ds_vars (fst r) v)) eqn:Sn; try discriminate.
    - destruct S2 as [S3 S4]; [auto|]. lia.
    - apply andb_true_iff in Z1 as [Z1 Z2]. apply Z.leb_le in Z1, Z2. lia.
    - destruct S2 as [S3 S4]; [auto|]. lia.
  Qed.
  Lemma gap_stmt an rn : (forall go late clock, rx_lagrange x = Some (go, late, clock) -> (1 <= go_queue go)%Z) ->
    admissible (zero_one_in (ds_number (fst r)) (ds_vars (fst r))) (search_state o m r) a ->
    solve_relaxed f sw su o nrm red ext sq lg root m x a s = Some (Ok (Done (an, rn))) -> an_feasible an = true -> bounds_all m s (reported_bound (Done (an, rn))) ->
    solution_of s true an /\ let b := reported_bound (Done (an, rn)) in
    if m then (b <= an_objective an /\ forall d y, an_objective an - b <= d -> solves s y -> an_objective an <= e_eval (ds_obj s) y + d)%Q
    else (an_objective an <= b /\ forall d y, b - an_objective an <= d -> solves s y -> e_eval (ds_obj s) y <= an_objective an + d)%Q.
  Proof.
    intros Q Ad E Fs B. destruct (relaxed_eq _ _ _ _ _ _ _ _ _ _ _ _ _ _ _ _ Pr E) as (b & _ & E').
    set (naive := ScreenModel.naive_dual_bound m (ds_obj (fst r)) (ds_vars (fst r))) in E'.
    pose proof (WholeProof4.whole_answer su o lg root m (with_relaxations naive b (lagrange_phase x r) a) s r Rd St (relaxed_admissible naive b Q Ad)) as W.
    cbv zeta in W. replace (with_naive _ _) with (with_relaxations naive b (lagrange_phase x r) a) in W by reflexivity. rewrite <- E' in W. destruct W as (_ & _ & W). specialize (W Fs). rewrite Df in W.
    split; [exact W|]. destruct W as (z & _ & Sz & Oz). specialize (Oz eq_refl). cbv zeta. unfold bounds_all in B. pose proof (B z Sz) as Bz. destruct m.
    - split; [lra|]. intros d y D Sy. pose proof (B y Sy). lra.
    - split; [lra|]. intros d y D Sy. pose proof (B y Sy). lra.
  Qed.
End Gap.
