(** Proofs for C91, continued: solve(). *)
From Coq Require Import List NArith ZArith QArith Permutation Bool Arith Lia Lqa Sorting.Sorted.
From Verif Require Import ExprModel ExprSpec ConstraintModel VariableModel TypeModel PresolveModel DuplicateModel DependentModel DependentSpec
  SelectionModel SelectionSpec PrepareModel PrepareSpec EvalModel EvalSpec EvalSpec2 MoveModel SolutionModel SolutionSpec TabuModel LoopModel LoopSpec LocalModel LocalSpec
  LagrangeModel ControllerModel ControllerSpec SolverModel SolverSpec WholeModel WholeSpec RelaxModel RelaxSpec OfferModel OfferSpec ParityModel ArchiveModel ArchiveSpec.
From Verif Require Import EvalProof3 LoopProof PrepareProof5 WholeProof WholeProof2 SolutionProof SolverProof SolverProof2 SolverProof3 SolverProof4 RelaxProof4
  OfferProof OfferProof2 OfferProof3 OfferProof4 OfferProof5 ParityProof4 ArchiveProof ArchiveProof2.
From Verif Require ScreenModel PrepareProof.
Import ListNotations.
Local Open Scope nat_scope.

(** ** All phases *)
Lemma n_stored_ok nb lg root p naive b gl a s0 m0 is01 (good : (nat -> Z) -> Prop) l q : SolverSpec.prepared is01 p s0 m0 ->
  (forall g, gl = Some g -> gg_applicable g = true -> ms_deps s0 = [] /\ (1 <= go_queue (gg_options g))%Z /\
     forall v, is01 v = true -> (0 <= gg_lo g v <= 1)%Z /\ (0 <= gg_hi g v <= 1)%Z) ->
  (0 <= co_tenure (ni_control a))%Z ->
  (forall x y, (forall v, x v = y v) -> good x -> good y) -> good (ms_x (ms_export (ms_update s0))) ->
  (forall g s h, gl = Some g -> gg_applicable g = true -> same_core s s0 -> good (ms_x s) ->
     forall q, In q (gl_visited (fst (g_search (gg_options g) (pb_minimize p) (gg_vars g) (gg_lo g) (gg_hi g) s h (gg_clock g)))) -> good (fst q)) ->
  (forall o late ds s h m, ni_local a = Some (o, late, ds) -> loop_start is01 s -> same_core s s0 -> good (ms_x s) -> let es := n_senvs nb o ds (s_setup s h m) in
     (forall e t, In e es -> In t (se_moves e) -> trial_ok is01 s0 t /\ anchored (ms_model s0) t) /\ forall q, In q (sl_visited (fst (s_search o s h m es))) -> good (fst q)) ->
  (forall g k s h m, In g (ni_rounds a) -> same_core s s0 -> good (ms_x s) -> let d := realise nb k s h m g in
     (0 <= lo_nmut (gd_options g))%Z /\ (forall t, In t (map fst (td_mods d)) -> trial_ok is01 s0 t) /\ (forall e t, In e (td_envs d) -> In t (en_moves e) -> trial_ok is01 s0 t) /\
     forall q, In q (lp_visited (fst (l_search (governed k (gd_options g)) s h m (td_mods d) (td_envs d)))) -> good (fst q)) ->
  In l (n_stored nb lg root p naive b gl a s0 m0) -> In q l -> right_stored good s0 (pb_n p) q.
Proof.
  intros PREP A1 A3 GE G0 G1 G2 G3 Il Iq. unfold n_stored in Il. cbv zeta in Il. set (o := ni_control a) in *.
  pose proof (preprocess_rinv is01 p s0 m0 naive (co_initial o) (well_priced lg root o s0) good PREP (fun W => proj2 (proj2 (proj2 (proj2 W)))) G0) as I0.
  apply (pdlp_rinv p s0 naive (co_initial o) (well_priced lg root o s0) good b) in I0.
  set (r0 := v_pdlp p b (v_preprocess naive s0 m0)) in *. clearbody r0. apply in_app_iff in Il as [Il|Il].
  { exact (lagrange_stored_ok is01 p s0 m0 naive (co_initial o) (well_priced lg root o s0) good PREP GE gl r0 l q I0 A1 G1 Il Iq). }
  pose proof (lagrange_ok is01 p s0 m0 naive (co_initial o) (well_priced lg root o s0) good PREP GE gl r0 I0 A1 G1) as P1.
  destruct (v_lagrange p gl r0) as [r1|r1 y|r1]; [|destruct Il|destruct Il]. destruct P1 as (I1 & _). apply in_app_iff in Il as [Il|Il].
  { exact (local_stored_ok is01 p s0 m0 naive (co_initial o) (well_priced lg root o s0) good nb PREP GE (ni_local a) r1 l q I1 G2 Il Iq). }
  pose proof (n_local_ok is01 p s0 m0 naive (co_initial o) (well_priced lg root o s0) good nb PREP GE (ni_local a) r1 I1 G2) as P2.
  destruct (n_local nb p (ni_local a) r1) as [r2|r2 y|r2]; [|destruct Il|destruct Il]. destruct P2 as (I2 & _).
  assert (Rt : well_priced lg root o s0 -> (co_relax_min o <= k_rate (k_setup o (rn_mem r2) (rn_current r2)) <= co_relax_max o)%Q).
  { intros ((_ & _ & _ & _ & S5 & S6 & _) & _). cbn [k_setup k_rate]. split; assumption. }
  exact (rounds_stored_ok is01 p s0 m0 naive o lg root good nb PREP A3 GE (ni_limit a) (ni_target a) (ni_rounds a) G3 0%Z None (k_setup o (rn_mem r2) (rn_current r2)) r2 I2
    (rinv_current p s0 naive (co_initial o) (well_priced lg root o s0) good r2 I2) A3 Rt l q Il Iq).
Qed.

(** ** From the search to the model of the user *)
Lemma pairs_sorted (f : nat * Z -> bool) y n : forall k, StronglySorted lt (map fst (filter f (map (fun v => (v, y v)) (seq k n)))) /\ forall v, In v (map fst (filter f (map (fun v => (v, y v)) (seq k n)))) -> k <= v.
Proof.
  induction n as [|n IH]; intros k; cbn [seq map filter]; [split; [constructor|intros v []]|]. destruct (IH (S k)) as [A B].
  destruct (f (k, y k)); cbn [map fst]; (split; [|]); try exact A.
  - constructor; [exact A|]. apply Forall_forall. intros v H. specialize (B v H). lia.
  - intros v [<-|H]; [lia|]. specialize (B v H). lia.
  - intros v H. specialize (B v H). lia.
Qed.
Section Solve.
  Context (su : surroundings) (o : search_options) (mi : bool) (s : dstate) (r : dstate * list sel) (on : ctype -> bool) (pairs : list (nat * nat)).
  Hypothesis Rd : search_ready mi s r.
  Hypothesis St : settled r.
  Hypothesis Se : searchable su r.
  Hypothesis Ls : forall t, In t (snd r) -> listed (ds_cons (fst r)) t.
  Hypothesis Fp : flippable_pairs r pairs.
  Let n := ds_number (fst r).
  Let vs := ds_vars (fst r).
  Let is01 := zero_one_in n vs.
  Let s0 := search_state o mi r.
  Let nb := setup_neighborhood on pairs su r.
  Let p := search_problem su mi r.

  Lemma stored_record q : right_stored (good r) s0 (pb_n p) q -> true_record s (wo_defined o) q.
  Proof.
    intros (y & [V Fx] & [_ Sy] & Sa & (T1 & T2 & T3)). pose proof (sr_coherent _ _ _ Rd) as Co.
    assert (M : meets r (WholeProof2.inside r y)).
    { apply (answer_meets su o mi s r Rd St); [exact V|exact Fx| |exact Sa]. intros d k E. pose proof (co_bound _ Co d k E) as L. rewrite <- (Sy d) at 1.
      apply (settle_dep s0 y d k (nth k (ds_exprs (fst r)) no_expr, true, 0%Q)); [apply defined_nodup|apply (defined_in _ _ _ Co), E|].
      apply (map_nth_error (fun e => (e, true, 0%Q))). apply nth_error_nth'. exact L. }
    destruct (proj1 (sr_keeps _ _ _ Rd) _ M) as [S Ob]. exists (WholeProof2.inside r y). split; [exact S|]. split; [|split; [exact T3|]].
    - unfold lists. rewrite T1. assert (En : pb_n p = ds_number s) by (exact (sr_number _ _ _ Rd)). rewrite En. split; [|apply pairs_sorted].
      intros v a. rewrite filter_In, in_map_iff. cbn [snd]. rewrite negb_true_iff, Z.eqb_neq. split.
      + intros [(w & E & I) N]. injection E as -> <-. apply in_seq in I. split; [lia|]. split; [|exact N]. apply WholeProof2.inside_in. rewrite (sr_number _ _ _ Rd). lia.
      + intros (L & E & N). split; [|exact N]. exists v. rewrite WholeProof2.inside_in in E by (rewrite (sr_number _ _ _ Rd); exact L). subst a. split; [reflexivity|]. apply in_seq. lia.
    - intros D. rewrite (T2 D). rewrite <- Ob. apply PrepareProof.eval_agree. intros v I. symmetry. apply WholeProof2.inside_in, (st_objective r St v I).
  Qed.

  Context (lg : Z -> Q) (root : Q -> Q) (naive : Q) (b : option Q) (x : relaxations) (a : ninputs).
  Hypothesis Gx : forall go late clock, rx_lagrange x = Some (go, late, clock) -> (1 <= go_queue go)%Z.
  Hypothesis Dv : driven r a.
  Lemma own_stored l q : In l (n_stored nb lg root p naive b (lagrange_phase x r) a s0 mem_setup) -> In q l -> true_record s (wo_defined o) q.
  Proof.
    intros Il Iq. apply stored_record. pose proof (search_prepared su o mi s r Rd St) as PP.
    pose proof (n_stored_ok nb lg root p naive b (lagrange_phase x r) a s0 mem_setup is01 (good r) l q PP) as H.
    assert (A1 : forall g, lagrange_phase x r = Some g -> gg_applicable g = true -> ms_deps s0 = [] /\ (1 <= go_queue (gg_options g))%Z /\
      forall v, is01 v = true -> (0 <= gg_lo g v <= 1)%Z /\ (0 <= gg_hi g v <= 1)%Z).
    { intros g E Ap. unfold lagrange_phase in E. destruct (rx_lagrange x) as [[[go late] clock]|]; [|discriminate]. injection E as <-. cbn [gg_applicable gg_options gg_lo gg_hi] in *.
      split; [exact (no_deps o mi s r Rd Ap)|]. split; [exact (Gx go late clock eq_refl)|]. intros v Z1. unfold is01, zero_one_in in Z1. apply andb_true_iff in Z1 as [L Z1].
      destruct (sr_ready _ _ _ Rd) as (_ & So & _). destruct (So v) as (S1 & S2 & _). fold vs in S1, S2. destruct (va_sense (vs v)) eqn:Sn; try discriminate.
      - destruct S2 as [S3 S4]; [auto|]. fold vs. lia.
      - apply andb_true_iff in Z1 as [Z1 Z2]. apply Z.leb_le in Z1, Z2. fold vs. lia.
      - destruct S2 as [S3 S4]; [auto|]. fold vs. lia. }
    specialize (H A1 (dv_tenure r a Dv) (good_pointwise o mi s r Rd St) (good_start o mi s r Rd St)).
    assert (G1 : forall g t h, lagrange_phase x r = Some g -> gg_applicable g = true -> same_core t s0 -> good r (ms_x t) ->
      forall q, In q (gl_visited (fst (g_search (gg_options g) (pb_minimize p) (gg_vars g) (gg_lo g) (gg_hi g) t h (gg_clock g)))) -> good r (fst q)).
    { intros g t h E Ap Co G. unfold lagrange_phase in E. destruct (rx_lagrange x) as [[[go late] clock]|]; [|discriminate]. injection E as <-. cbn [gg_applicable gg_options gg_lo gg_hi gg_vars gg_clock] in *.
      exact (lagrange_good su o mi s r Rd St Ls go clock t h Ap Co G). }
    specialize (H G1). clear A1 G1.
    pose proof (good_agree o mi s r Rd St) as AG. pose proof (good_step mi s r Rd) as SP. pose proof (fits_move r) as MV.
    pose proof (tried_sane su o mi s r on pairs Rd St Se Ls Fp) as TS. fold nb s0 n vs is01 in TS.
    assert (G2 : forall o' late ds t h m, ni_local a = Some (o', late, ds) -> loop_start is01 t -> same_core t s0 -> good r (ms_x t) -> let es := n_senvs nb o' ds (s_setup t h m) in
      (forall e u, In e es -> In u (se_moves e) -> trial_ok is01 s0 u /\ anchored (ms_model s0) u) /\ forall q, In q (sl_visited (fst (s_search o' t h m es))) -> good r (fst q)).
    { intros o' late ds t h m E L Co G. destruct (dv_local r a Dv o' late ds E) as [An Ds].
      refine (local_good is01 s0 nb (good r) (fits r) (choice_ok r) (tok r) AG SP MV TS _ o' t h m ds L Co (core_fine o mi r t Co G) Ds).
      intros c y u Cc Gy Iu. exact (tried_anchored su o mi s r on pairs Rd St Se Ls Fp c y u An Cc Gy Iu). }
    specialize (H G2). clear G2.
    assert (G3 : forall g k t h m, In g (ni_rounds a) -> same_core t s0 -> good r (ms_x t) -> let d := realise nb k t h m g in
      (0 <= lo_nmut (gd_options g))%Z /\ (forall u, In u (map fst (td_mods d)) -> trial_ok is01 s0 u) /\ (forall e u, In e (td_envs d) -> In u (en_moves e) -> trial_ok is01 s0 u) /\
      forall q, In q (lp_visited (fst (l_search (governed k (gd_options g)) t h m (td_mods d) (td_envs d)))) -> good r (fst q)).
    { intros g k t h m Ig Co G. split; [apply (dv_rounds r a Dv g Ig)|].
      exact (realise_good is01 s0 nb (good r) (fits r) (choice_ok r) (tok r) AG SP TS (choice_all r) k t h m g (core_fine o mi r t Co G) (dv_rounds r a Dv g Ig)). }
    specialize (H G3). clear G3.
    exact (H Il Iq).
  Qed.
End Solve.

(** ** The archive *)
Lemma archive_in capacity mi pushes q : In q (feasible_archive capacity mi pushes) -> exists l, In l pushes /\ In q l.
Proof.
  unfold feasible_archive. intros H. destruct (arch_run_inv capacity (if mi then Ascending else Descending) (filter (fun l => negb (length l =? 0)) pushes)) as (_ & I & _); [destruct mi; discriminate|].
  apply I in H. apply in_concat in H as (l & Hl & Hq). apply filter_In in Hl as [Hl _]. exists l. split; assumption.
Qed.
Lemma archive_model fuel order sw su on pairs o nrm red ext sq lg root m x a capacity s r b :
  proper_model s -> (exists y, solves s y) -> calm_rounds sw su m s -> calm_sets sw su m s ->
  prepare fuel sw su m s = Some (Ok r) -> prepare_parities order sw su r = r -> settled r -> searchable su r -> flippable_pairs r pairs -> driven r a ->
  (forall go late clock, rx_lagrange x = Some (go, late, clock) -> (1 <= go_queue go)%Z) -> pdlp_phase nrm red ext sq x m r = Ok b ->
  exists l, solve_archive fuel order sw su on pairs o nrm red ext sq lg root m x a capacity s = Some (Ok l) /\ forall q, In q l -> true_record s (wo_defined o) q.
Proof.
  intros P Fe C1 C2 Pr Id St Se Fp Dv Q B. unfold solve_archive. rewrite Pr. cbn [PresolveModel.bind]. cbv zeta. rewrite Id, B. cbn [PresolveModel.bind]. rewrite stale_same. eexists. split; [reflexivity|].
  intros q H. apply archive_in in H as (l & Hl & Hq).
  pose proof (prepare_search fuel sw su m s r P Fe C1 C2 Pr) as Rd. pose proof (prepare_listed fuel sw su m s r P Fe C1 C2 Pr) as Ls.
  exact (own_stored su o m s r on pairs Rd St Se Ls Fp lg root _ b x a Q Dv l q Hl Hq).
Qed.
Lemma ordered_best (m : bool) (l : list ssol) : in_order (if m then Ascending else Descending) l -> best_first m l.
Proof.
  intros H. unfold best_first. apply Sorted_StronglySorted.
  - intros a b c A B. destruct m; [exact (Qle_trans _ _ _ A B)|exact (Qle_trans _ _ _ B A)].
  - induction l as [|a l IH]; [constructor|]. destruct l as [|b l]; [constructor; constructor|]. destruct H as [H1 H2]. constructor; [exact (IH H2)|]. constructor.
    destruct m; cbn [rank] in H1; [exact H1|]. lra.
Qed.
Lemma archive_order fuel order sw su on pairs o nrm red ext sq lg root m x a capacity s l :
  solve_archive fuel order sw su on pairs o nrm red ext sq lg root m x a capacity s = Some (Ok l) -> ((0 < capacity)%Z -> (Z.of_nat (length l) <= capacity)%Z) /\ best_first m l.
Proof.
  unfold solve_archive. destruct (prepare fuel sw su m s) as [[r| |]|]; cbn [PresolveModel.bind]; try discriminate. cbv zeta.
  destruct (pdlp_phase _ _ _ _ _ _ _) as [b| |]; cbn [PresolveModel.bind]; try discriminate. intros E. injection E as <-. unfold feasible_archive.
  match goal with |- context [archive_run capacity ?md ?ps] => destruct (arch_run_inv capacity md ps) as (L & _ & O & _); [destruct m; discriminate|] end.
  split; [exact L|]. apply ordered_best, O.
Qed.
