(** Proofs for C87. *)
From Coq Require Import List ZArith QArith Qabs Bool Lia Lqa.
From Verif Require Import ExprModel ExprSpec ConstraintModel VariableModel TypeSpec PresolveModel PresolveSpec SparseModel SparseSpec LpModel LpSpec LpProof2 LpProof3 LpProof5 LpProof6 RestartModel RestartSpec.
Import ListNotations.
Local Open Scope Q_scope.

Section R.
  Variable nrm : vec -> Q.
  Variables red ext : nat -> Q.
  Variable sq : Q -> Q.
  Hypothesis Hs : forall q, 0 < q -> 0 < sq q.

  Lemma weight_pos s k : 0 < k_weight k -> 0 < new_weight nrm sq s k.
  Proof.
    intros H. unfold new_weight. destruct (Qlt_le_dec EPS _) as [A|]; [|assumption]. destruct (Qlt_le_dec EPS _) as [B|]; [|assumption].
    destruct (Qlt_le_dec _ (1 / EPS)) as [C|]; [|assumption]. destruct (Qlt_le_dec _ (1 / EPS)) as [D|]; [|assumption]. apply Hs.
    assert (E : 0 < EPS) by reflexivity. apply Qmult_lt_0_compat; [|assumption]. apply Qlt_shift_div_l; [lra|]. lra.
  Qed.
  Lemma step_weight trials l k k' lhs n t : step_loop red ext trials l k lhs n t = Some k' -> k_weight k' = k_weight k.
  Proof.
    revert n t. induction trials as [|trials IH]; intros n t E; [discriminate|]. cbn [step_loop] in E. destruct (trial l k lhs t) as [[x y] limit].
    match type of E with (if ?b then _ else _) = _ => destruct b end; [inversion E; reflexivity|]. eapply IH. exact E.
  Qed.
  Lemma solution_weight trials l k k' : update_solution red ext trials l k = Some k' -> k_weight k' = k_weight k.
  Proof. apply step_weight. Qed.
  Lemma information_same o l e s : rs_core (fst (information nrm sq o l e s)) = rs_core s /\ rs_bx (fst (information nrm sq o l e s)) = rs_bx s /\ rs_by (fst (information nrm sq o l e s)) = rs_by s.
  Proof.
    unfold information. destruct (Nat.leb (k_inner (rs_core s)) 1); [repeat split|]. destruct (negb _); [repeat split|]. cbv zeta.
    destruct (_ && d_lt _ _); [repeat split|]. destruct (_ && d_lt _ _); [repeat split|]. destruct (Qlt_le_dec _ _); repeat split.
  Qed.
  Lemma information_when o l e s : snd (information nrm sq o l e s) <> None -> Nat.leb (k_inner (rs_core s)) 1 = false.
  Proof. unfold information. destruct (Nat.leb (k_inner (rs_core s)) 1); [intros H; now elim H|reflexivity]. Qed.
  Lemma information_artificial o l e s : snd (information nrm sq o l e s) = None -> Nat.eqb (k_total (rs_core s) mod po_restart (ro_base o)) O = true ->
    (k_inner (rs_core s) <= 1)%nat \/ inject_Z (Z.of_nat (k_inner (rs_core s))) <= ro_artificial o * inject_Z (Z.of_nat (k_total (rs_core s))).
  Proof.
    unfold information. destruct (Nat.leb_spec (k_inner (rs_core s)) 1); [now left|]. intros E M. rewrite M in E. cbn [negb] in E. cbv zeta in E.
    destruct (_ && d_lt _ _); [discriminate|]. destruct (_ && d_lt _ _); [discriminate|]. destruct (Qlt_le_dec _ _); [discriminate|]. now right.
  Qed.

  (** One iteration is one of LpModel with a positive weight. *)
  Lemma iterate_same o l e s s' : 0 < k_weight (rs_core s) -> r_iterate nrm red ext sq o l e s = Some s' ->
    0 < k_weight (rs_core s') /\ exists p, same_clock e p /\ 0 < pe_weight p /\ iterate nrm red ext (ro_base o) l p (rs_core s) = Some (rs_core s').
  Proof.
    intros Hw E. unfold r_iterate in E. destruct (update_solution red ext (re_trials e) l (rs_core s)) as [k1|] eqn:E1; [|discriminate].
    pose proof (solution_weight _ _ _ _ E1) as W1. cbv zeta in E. set (k2 := update_averaged k1) in *. assert (W2 : k_weight k2 = k_weight (rs_core s)) by exact W1.
    set (s2 := mkRs k2 _ _ _ _ _ _) in *. set (r := if Nat.eqb (k_total k2 mod po_restart (ro_base o)) 0 then information nrm sq o l e s2 else (s2, None)) in *.
    assert (Hc : rs_core (fst r) = k2) by (unfold r; destruct (Nat.eqb _ _); [apply (information_same o l e s2)|reflexivity]).
    assert (Hr : snd r <> None -> Nat.eqb (k_total k2 mod po_restart (ro_base o)) 0 && negb (Nat.leb (k_inner k2) 1) = true).
    { unfold r. destruct (Nat.eqb _ _); [|intros H; now elim H]. intros H. apply information_when in H. change (rs_core s2) with k2 in H. now rewrite H. }
    clearbody r. destruct r as [s3 again]. cbn [fst snd] in Hc, Hr.
    set (k3 := if Nat.eqb (k_total k2 mod po_check (ro_base o)) 0 || Nat.eqb (k_total k2 mod po_log (ro_base o)) 0 then check nrm l k2 else k2) in *.
    assert (W3 : k_weight k3 = k_weight (rs_core s)) by (unfold k3; destruct (_ || _); exact W2).
    destruct again as [c|]; inversion E; subst s'; clear E; cbn [rs_core r_new_inner].
    - split; [cbn [count new_inner restart k_weight]; apply weight_pos; now rewrite W3|].
      exists (mkPe (re_time_over e) (re_trials e) (Some c) (new_weight nrm sq s3 k3)). split; [split; reflexivity|]. split; [cbn [pe_weight]; apply weight_pos; now rewrite W3|].
      unfold iterate. cbn [pe_trials]. rewrite E1. fold k2. unfold restarts. rewrite Hr by discriminate. cbn [pe_restart pe_weight]. reflexivity.
    - split; [cbn [count k_weight]; now rewrite W3|].
      exists (mkPe (re_time_over e) (re_trials e) None 1). split; [split; reflexivity|]. split; [reflexivity|].
      unfold iterate. cbn [pe_trials]. rewrite E1. fold k2. unfold restarts. cbn [pe_restart]. destruct (_ && negb _); reflexivity.
  Qed.
  Lemma loop_same o l : forall envs s s' t, 0 < k_weight (rs_core s) -> r_loop nrm red ext sq o l envs s = Some (s', t) ->
    exists penvs, Forall2 same_clock envs penvs /\ (forall p, In p penvs -> 0 < pe_weight p) /\ loop nrm red ext (ro_base o) l penvs (rs_core s) = Some (rs_core s', t).
  Proof.
    induction envs as [|e envs IH]; intros s s' t Hw E; [discriminate|]. cbn [r_loop] in E.
    destruct (stops (ro_base o) l (re_time_over e) (rs_core s)) as [t0|] eqn:St.
    - inversion E; subst. exists (map (fun e => mkPe (re_time_over e) (re_trials e) None 1) (e :: envs)). split; [|split].
      + clear. induction (e :: envs) as [|a q IHq]; constructor; [split; reflexivity|exact IHq].
      + intros p Hp. apply in_map_iff in Hp as (a & <- & _). reflexivity.
      + cbn [map loop pe_time_over]. now rewrite St.
    - destruct (r_iterate nrm red ext sq o l e s) as [s1|] eqn:Ei; [|discriminate]. destruct (iterate_same o l e s s1 Hw Ei) as (W1 & p & C & Pw & It).
      destruct (IH s1 s' t W1 E) as (penvs & F & Ps & L). exists (p :: penvs). split; [constructor; assumption|]. split; [intros q [<-|H]; [exact Pw|now apply Ps]|].
      cbn [loop]. destruct C as (C1 & C2). rewrite C1, St, It. exact L.
  Qed.
  (** A run that does not finish is one of LpModel that does not. *)
  Lemma iterate_none o l e s : r_iterate nrm red ext sq o l e s = None -> iterate nrm red ext (ro_base o) l (mkPe (re_time_over e) (re_trials e) None 1) (rs_core s) = None.
  Proof.
    unfold r_iterate, iterate. cbn [pe_trials]. destruct (update_solution red ext (re_trials e) l (rs_core s)) as [k1|]; [|reflexivity]. cbv zeta.
    destruct (if Nat.eqb _ _ then information _ _ _ _ _ _ else _) as [s3 again]. discriminate.
  Qed.
  Lemma loop_none o l : forall envs s, 0 < k_weight (rs_core s) -> r_loop nrm red ext sq o l envs s = None ->
    exists penvs, Forall2 same_clock envs penvs /\ (forall p, In p penvs -> 0 < pe_weight p) /\ loop nrm red ext (ro_base o) l penvs (rs_core s) = None.
  Proof.
    induction envs as [|e envs IH]; intros s Hw E; [exists []; repeat split; [constructor|intros p []]|]. cbn [r_loop] in E.
    destruct (stops (ro_base o) l (re_time_over e) (rs_core s)) as [t0|] eqn:St; [discriminate|].
    destruct (r_iterate nrm red ext sq o l e s) as [s1|] eqn:Ei.
    - destruct (iterate_same o l e s s1 Hw Ei) as (W1 & p & C & Pw & It).
      destruct (IH s1 W1 E) as (penvs & F & Ps & L). exists (p :: penvs). split; [constructor; assumption|]. split; [intros q [<-|H]; [exact Pw|now apply Ps]|].
      cbn [loop]. destruct C as (C1 & C2). rewrite C1, St, It. exact L.
    - exists (map (fun e => mkPe (re_time_over e) (re_trials e) None 1) (e :: envs)). split; [|split].
      + clear. induction (e :: envs) as [|a q IHq]; constructor; [split; reflexivity|exact IHq].
      + intros p Hp. apply in_map_iff in Hp as (a & <- & _). reflexivity.
      + cbn [map loop pe_time_over]. now rewrite St, (iterate_none o l e s Ei).
  Qed.
  Lemma start_same l s : r_start nrm l = Ok s -> core_start nrm l = Ok (rs_core s) /\ 0 < k_weight (rs_core s) /\ k_total (rs_core s) = O /\ k_inner (rs_core s) = O.
  Proof.
    unfold r_start, core_start, core_setup. destruct (Qlt_le_dec 0 (mt_infty (lp_A l))); [|discriminate]. cbn [bind]. intros E. inversion E; subst s. clear E. split; [reflexivity|]. split; [|split; reflexivity].
    cbn -[Qdiv]. destruct (Qlt_le_dec EPS (nrm (lp_c l))) as [H1|]; [|reflexivity]. destruct (Qlt_le_dec EPS (nrm (lp_b l))) as [H2|]; [|reflexivity].
    assert (0 < EPS) by reflexivity. apply Qlt_shift_div_l; lra.
  Qed.
  Lemma start_fails l : r_start nrm l = UB /\ core_start nrm l = UB \/ exists s, r_start nrm l = Ok s.
  Proof. unfold r_start, core_start, core_setup. destruct (Qlt_le_dec 0 (mt_infty (lp_A l))); [right; cbn [bind]; eexists; reflexivity|now left]. Qed.
  (** The clock alone, for the cases where the core does not run. *)
  Definition plain (envs : list renv) : list penv := map (fun e => mkPe (re_time_over e) (re_trials e) None 1) envs.
  Lemma plain_ok envs : Forall2 same_clock envs (plain envs) /\ forall p, In p (plain envs) -> 0 < pe_weight p.
  Proof. split; [induction envs as [|a q IHq]; constructor; [split; reflexivity|exact IHq]|]. intros p Hp. apply in_map_iff in Hp as (a & <- & _). reflexivity. Qed.
  Theorem run_same o l envs : exists penvs, Forall2 same_clock envs penvs /\ (forall p, In p penvs -> 0 < pe_weight p) /\
    core_run nrm red ext (ro_base o) l penvs = bind (r_run nrm red ext sq o l envs) (fun r => Ok (option_map (fun q => (rs_core (fst q), snd q)) r)).
  Proof.
    unfold core_run, r_run. destruct (start_fails l) as [[-> ->]|[s Es]].
    - exists (plain envs). destruct (plain_ok envs). repeat split; assumption.
    - rewrite Es. destruct (start_same l s Es) as (-> & Hw & _). cbn [bind]. destruct (r_loop nrm red ext sq o l envs s) as [[s' t]|] eqn:E.
      + destruct (loop_same o l envs s s' t Hw E) as (penvs & A & B & C). exists penvs. split; [exact A|]. split; [exact B|]. rewrite C. reflexivity.
      + destruct (loop_none o l envs s Hw E) as (penvs & A & B & C). exists penvs. split; [exact A|]. split; [exact B|]. rewrite C. reflexivity.
  Qed.
  Theorem controller_same o envs late minimize obj vs order fixed less sels equals greater : exists penvs, Forall2 same_clock envs penvs /\ (forall p, In p penvs -> 0 < pe_weight p) /\
    pdlp_run nrm red ext sq (ro_base o) penvs late minimize obj vs order fixed less sels equals greater = r_pdlp nrm red ext sq o envs late minimize obj vs order fixed less sels equals greater.
  Proof.
    unfold pdlp_run, r_pdlp. destruct (plain_ok envs) as (A & B).
    destruct (_ || late); [exists (plain envs); repeat split; assumption|]. destruct (export minimize obj vs order fixed less sels equals greater) as [l| |]; cbn [bind]; try (exists (plain envs); repeat split; assumption).
    destruct (Nat.leb (lp_cols l) 1 || Nat.leb (lp_rows l) 1); [exists (plain envs); repeat split; assumption|].
    destruct (lp_scaling sq (po_ruiz (ro_base o)) (po_pock (ro_base o)) l) as [l'| |]; cbn [bind]; try (exists (plain envs); repeat split; assumption).
    destruct (run_same o l' envs) as (penvs & C & D & E). exists penvs. split; [exact C|]. split; [exact D|]. rewrite E. destruct (r_run nrm red ext sq o l' envs) as [[[s t]|]| |]; reflexivity.
  Qed.

  (** ** Every run ends *)
  Hypothesis P : powers red ext.
  Lemma iterate_more o l e s trials k1 : update_solution red ext trials l (rs_core s) = Some k1 -> exists s', r_iterate nrm red ext sq o l (mkRe (re_time_over e) trials (re_average e) (re_current e)) s = Some s'.
  Proof. intros E. unfold r_iterate. cbn [re_trials]. rewrite E. cbv zeta. destruct (if Nat.eqb _ _ then information _ _ _ _ _ _ else _) as [s3 again]. eexists. reflexivity. Qed.
  Lemma loop_ends o l : vanishing red -> lp_wf l -> forall envs s, 0 < k_weight (rs_core s) -> inv nrm l (rs_core s) -> (k_total (rs_core s) <= po_iteration_max (ro_base o))%nat ->
    (po_iteration_max (ro_base o) < length envs + k_total (rs_core s))%nat -> exists envs' r, Forall2 same_renv envs envs' /\ r_loop nrm red ext sq o l envs' s = Some r.
  Proof.
    intros V W envs. induction envs as [|e envs IH]; intros s Hw Iv Ht Hl; [cbn [length] in Hl; lia|].
    destruct (stops (ro_base o) l (re_time_over e) (rs_core s)) as [t|] eqn:St.
    - exists (e :: envs), (s, t). split; [clear; induction (e :: envs) as [|a q IHq]; constructor; [repeat split|exact IHq]|]. cbn [r_loop]. now rewrite St.
    - destruct (solution_ends nrm red ext P V l (rs_core s) W Iv) as (trials & k1 & E1). destruct (iterate_more o l e s trials k1 E1) as (s1 & Ei).
      destruct (iterate_same _ _ _ _ _ Hw Ei) as (W1 & p & _ & Pw & It). destruct (iterate_inv nrm red ext P (ro_base o) l p (rs_core s) (rs_core s1) W Pw Iv It) as (I1 & T1).
      assert (Lt : (k_total (rs_core s) < po_iteration_max (ro_base o))%nat). { unfold stops in St. destruct (re_time_over e); [discriminate|]. destruct (Nat.leb_spec (po_iteration_max (ro_base o)) (k_total (rs_core s))); [discriminate|assumption]. }
      destruct (IH s1 W1 I1) as (envs' & r & F & R); [lia|cbn [length] in Hl; lia|].
      exists (mkRe (re_time_over e) trials (re_average e) (re_current e) :: envs'), r. split; [constructor; [repeat split|assumption]|]. cbn [r_loop re_time_over]. now rewrite St, Ei.
  Qed.
  Theorem ends_stmt o l envs : vanishing red -> lp_wf l -> 0 < mt_infty (lp_A l) -> (po_iteration_max (ro_base o) < length envs)%nat ->
    exists envs' s t, Forall2 same_renv envs envs' /\ r_run nrm red ext sq o l envs' = Ok (Some (s, t)).
  Proof.
    intros V W Hn Hl. destruct (start_fails l) as [[A _]|[s Es]]; [unfold r_start, core_setup in A; destruct (Qlt_le_dec 0 (mt_infty (lp_A l))); [discriminate|lra]|].
    destruct (start_same l s Es) as (Ec & Hw & T & _). destruct (start_inv nrm l (rs_core s) W Ec) as (Iv & _ & _).
    destruct (loop_ends o l V W envs s Hw Iv) as (envs' & [s' t] & F & R); [lia|lia|]. exists envs', s', t. split; [exact F|]. unfold r_run. rewrite Es. cbn [bind]. now rewrite R.
  Qed.
End R.

(** ** The bound, without a hypothesis about weights *)
Theorem bound_stmt (nrm : list Q -> Q) (red ext : nat -> Q) (sq : Q -> Q) o envs late (minimize : bool) obj vs order fixed less sels equals greater k s b :
  powers red ext -> norm_like nrm -> (forall q, 0 < q -> 0 < sq q) -> lists_ok obj vs order fixed less sels equals greater -> moderate_range vs order ->
  r_pdlp nrm red ext sq o envs late minimize obj vs order fixed less sels equals greater = Ok (Ran k s (Some b)) ->
  forall y, admitted vs less sels equals greater y -> if minimize then b <= e_eval obj y - ex_const obj else e_eval obj y - ex_const obj <= b.
Proof.
  intros P N Hs Lo Hm E. destruct (controller_same nrm red ext sq Hs o envs late minimize obj vs order fixed less sels equals greater) as (penvs & _ & Hw & Ep). rewrite E in Ep.
  exact (dual_bound_stmt nrm red ext P N sq Hs (ro_base o) penvs late minimize obj vs order fixed less sels equals greater k s b Lo Hw Hm Ep).
Qed.

(** ** Weights and inner loops *)
Section W.
  Variable nrm : vec -> Q.
  Variables red ext : nat -> Q.
  Variable sq : Q -> Q.
  Hypothesis Rt : root_like sq.
  Variables lo hi : Q.
  Hypothesis Hlo : 0 < lo /\ lo <= 1 # 40000000000.
  Hypothesis Hhi : 40000000000 <= hi.

  Lemma root_pos q : 0 < q -> 0 < sq q.
  Proof.
    intros H. destruct (Qlt_le_dec q 1) as [L|L].
    - destruct (Rt q q H H) as [A _]. assert (q * q <= q) by nra. specialize (A H0). assert (0 < q / 2) by (apply Qlt_shift_div_l; lra). lra.
    - destruct (Rt q 1 H) as [A _]; [lra|]. assert (1 * 1 <= q) by lra. specialize (A H0). assert (0 < 1 / 2) by reflexivity. lra.
  Qed.
  Lemma weight_range s k : lo <= k_weight k <= hi -> lo <= new_weight nrm sq s k <= hi.
  Proof.
    intros H. unfold new_weight. set (p := distance nrm (k_xa k) _). set (d := distance nrm (k_ya k) _). destruct (Qlt_le_dec EPS p) as [A|]; [|assumption]. destruct (Qlt_le_dec EPS d) as [B|]; [|assumption].
    destruct (Qlt_le_dec p (1 / EPS)) as [C|]; [|assumption]. destruct (Qlt_le_dec d (1 / EPS)) as [D|]; [|assumption].
    assert (A' : 1 # 100000 < p) by exact A. assert (B' : 1 # 100000 < d) by exact B. assert (C' : p < 100000) by (setoid_replace (1 / EPS) with 100000 in C by reflexivity; exact C). assert (D' : d < 100000) by (setoid_replace (1 / EPS) with 100000 in D by reflexivity; exact D).
    clear A B C D. set (w := k_weight k) in *. clearbody p d w.
    assert (R1 : 1 # 10000000000 <= d / p). { apply Qle_shift_div_l; lra. } assert (R2 : d / p <= 10000000000). { apply Qle_shift_div_r; lra. }
    set (r := d / p) in *. clearbody r. destruct Hlo as [L0 L1]. destruct H as [H1 H2].
    assert (Q0 : 0 < r * w) by (apply Qmult_lt_0_compat; lra).
    split.
    - destruct (Rt (r * w) (2 * lo) Q0) as [A _]; [lra|]. assert (E : 2 * lo / 2 == lo) by field. rewrite <- E. apply A.
      assert (X1 : (1 # 10000000000) * lo <= r * w). { apply Qle_trans with (r * lo); [apply Qmult_le_compat_r; lra|]. rewrite (Qmult_comm r lo), (Qmult_comm r w). apply Qmult_le_compat_r; lra. }
      apply Qle_trans with ((1 # 10000000000) * lo); [|exact X1]. setoid_replace (2 * lo * (2 * lo)) with ((4 * lo) * lo) by ring. apply Qmult_le_compat_r; lra.
    - destruct (Rt (r * w) (hi / 2) Q0) as [_ A]; [apply Qlt_shift_div_l; lra|]. assert (E : 2 * (hi / 2) == hi) by field. rewrite <- E. apply A.
      assert (X1 : r * w <= 10000000000 * hi). { apply Qle_trans with (10000000000 * w); [apply Qmult_le_compat_r; lra|]. rewrite (Qmult_comm _ w), (Qmult_comm _ hi). apply Qmult_le_compat_r; lra. }
      apply Qle_trans with (10000000000 * hi); [exact X1|]. setoid_replace (hi / 2 * (hi / 2)) with ((hi / 4) * hi) by field. apply Qmult_le_compat_r; [|lra]. apply Qle_shift_div_l; lra.
  Qed.
  Lemma iterate_range o l e s s' : lo <= k_weight (rs_core s) <= hi -> r_iterate nrm red ext sq o l e s = Some s' -> lo <= k_weight (rs_core s') <= hi.
  Proof.
    intros Hw E. unfold r_iterate in E. destruct (update_solution red ext (re_trials e) l (rs_core s)) as [k1|] eqn:E1; [|discriminate].
    pose proof (solution_weight _ _ _ _ _ _ E1) as W1. cbv zeta in E. set (k2 := update_averaged k1) in *. assert (W2 : k_weight k2 = k_weight (rs_core s)) by exact W1.
    set (s2 := mkRs k2 _ _ _ _ _ _) in *. destruct (if Nat.eqb (k_total k2 mod po_restart (ro_base o)) 0 then information nrm sq o l e s2 else (s2, None)) as [s3 again].
    set (k3 := if Nat.eqb (k_total k2 mod po_check (ro_base o)) 0 || Nat.eqb (k_total k2 mod po_log (ro_base o)) 0 then check nrm l k2 else k2) in *.
    assert (W3 : k_weight k3 = k_weight (rs_core s)) by (unfold k3; destruct (_ || _); exact W2).
    destruct again as [c|]; inversion E; subst s'; clear E; cbn [rs_core r_new_inner count new_inner restart k_weight]; [apply weight_range; now rewrite W3|now rewrite W3].
  Qed.
  Theorem weights_stmt o l envs k0 s t : core_start nrm l = Ok k0 -> lo <= k_weight k0 <= hi -> r_run nrm red ext sq o l envs = Ok (Some (s, t)) -> lo <= k_weight (rs_core s) <= hi.
  Proof.
    intros E0 H0 E. unfold r_run in E. destruct (start_fails nrm l) as [[A _]|[s0 Es]]; [rewrite A in E; discriminate|]. rewrite Es in E. cbn [bind] in E. inversion E as [E']. clear E.
    destruct (start_same nrm l s0 Es) as (Ec & _). rewrite E0 in Ec. inversion Ec; subst k0. clear Ec E0 Es. revert s0 H0 E'. induction envs as [|e envs IH]; intros s0 H0 E; [discriminate|]. cbn [r_loop] in E.
    destruct (stops (ro_base o) l (re_time_over e) (rs_core s0)); [inversion E; now subst|]. destruct (r_iterate nrm red ext sq o l e s0) as [s1|] eqn:Ei; [|discriminate]. apply (IH s1); [exact (iterate_range _ _ _ _ _ H0 Ei)|exact E].
  Qed.
End W.

Section N.
  Variable nrm : vec -> Q.
  Variables red ext : nat -> Q.
  Variable sq : Q -> Q.
  Definition frac (n : nat) : Q := inject_Z (Z.of_nat n).
  Lemma frac_S n : frac (S n) == frac n + 1.
  Proof. unfold frac. rewrite Nat2Z.inj_succ. unfold Z.succ. now rewrite inject_Z_plus. Qed.
  Lemma frac_le a b : (a <= b)%nat -> frac a <= frac b.
  Proof. intros H. unfold frac. rewrite <- Zle_Qle. lia. Qed.
  (** Since the last check, at which the inner loop was short, fewer than R iterations
      have been made. *)
  Definition short (o : roption) (k : core) : Prop :=
    exists i t, (k_inner k <= i + (k_total k mod po_restart (ro_base o)) + (if Nat.eqb (k_total k mod po_restart (ro_base o)) 0 then po_restart (ro_base o) else 0))%nat /\ (t <= k_total k)%nat /\
      frac i <= 1 + ro_artificial o * frac t.
  Lemma solution_counts trials l k k' : update_solution red ext trials l k = Some k' -> k_inner k' = k_inner k /\ k_total k' = k_total k.
  Proof.
    unfold update_solution. generalize (m_mul (lp_At l) (k_y k)) (k_attempts k) (k_step k). intros lhs. induction trials as [|trials IH]; intros n t E; [discriminate|]. cbn [step_loop] in E. destruct (trial l k lhs t) as [[x y] limit].
    match type of E with (if ?b then _ else _) = _ => destruct b end; [inversion E; split; reflexivity|]. eapply IH. exact E.
  Qed.
  Lemma mod_next t r : (0 < r)%nat -> (S t mod r = O /\ (t mod r + 1 = r)%nat) \/ (S t mod r = S (t mod r))%nat /\ (t mod r + 1 < r)%nat.
  Proof.
    intros H. pose proof (Nat.mod_upper_bound t r ltac:(lia)) as U. pose proof (Nat.div_mod t r ltac:(lia)) as D. destruct (Nat.eq_dec (t mod r + 1) r) as [E|E].
    - left. split; [|exact E]. symmetry. apply (Nat.mod_unique (S t) r (S (t / r)) O); [lia|]. lia.
    - right. split; [|lia]. symmetry. apply (Nat.mod_unique (S t) r (t / r)); lia.
  Qed.
  Lemma iterate_short o l e s s' : (0 < po_restart (ro_base o))%nat -> 0 <= ro_artificial o -> short o (rs_core s) -> r_iterate nrm red ext sq o l e s = Some s' -> short o (rs_core s').
  Proof.
    intros Hr Ha (i & t & S1 & S2 & S3) E. unfold r_iterate in E. destruct (update_solution red ext (re_trials e) l (rs_core s)) as [k1|] eqn:E1; [|discriminate].
    destruct (solution_counts _ _ _ _ E1) as (N1 & T1). cbv zeta in E. set (k2 := update_averaged k1) in *. assert (N2 : k_inner k2 = k_inner (rs_core s)) by exact N1. assert (T2 : k_total k2 = k_total (rs_core s)) by exact T1.
    set (s2 := mkRs k2 _ _ _ _ _ _) in *. set (R := po_restart (ro_base o)) in *.
    set (r := if Nat.eqb (k_total k2 mod R) 0 then information nrm sq o l e s2 else (s2, None)) in *.
    assert (Hs : snd r = None -> Nat.eqb (k_total k2 mod R) 0 = true -> (k_inner k2 <= 1)%nat \/ frac (k_inner k2) <= ro_artificial o * frac (k_total k2)).
    { intros A B. unfold r in A. rewrite B in A. apply (information_artificial nrm sq o l e s2 A B). }
    clearbody r. destruct r as [s3 again]. cbn [snd] in Hs.
    set (k3 := if Nat.eqb (k_total k2 mod po_check (ro_base o)) 0 || Nat.eqb (k_total k2 mod po_log (ro_base o)) 0 then check nrm l k2 else k2) in *.
    assert (N3 : k_inner k3 = k_inner (rs_core s)) by (unfold k3; destruct (_ || _); exact N2). assert (T3 : k_total k3 = k_total (rs_core s)) by (unfold k3; destruct (_ || _); exact T2).
    destruct again as [c|]; inversion E; subst s'; clear E; unfold short; cbn [rs_core r_new_inner count new_inner restart k_inner k_total].
    - exists O, O. split; [lia|]. split; [lia|]. assert (frac 0 == 0) by reflexivity. rewrite H, Qmult_0_r. lra.
    - specialize (Hs eq_refl). rewrite N3, T3. rewrite N2, T2 in Hs. set (I := k_inner (rs_core s)) in *. set (T := k_total (rs_core s)) in *. clearbody I T. clear - Hr Ha S1 S2 S3 Hs. fold R.
      destruct (Nat.eqb_spec (T mod R) 0) as [Z|Z].
      + destruct (mod_next T R Hr) as [[M1 M2]|[M1 M2]]; rewrite M1; cbn [Nat.eqb].
        * destruct (Hs eq_refl) as [H|H]; [exists 1%nat, O; split; [lia|]; split; [lia|]; assert (E0 : frac 0 == 0) by reflexivity; assert (E1 : frac 1 == 1) by reflexivity; rewrite E0, E1, Qmult_0_r; lra|].
          exists I, T. split; [lia|]. split; [lia|]. lra.
        * destruct (Hs eq_refl) as [H|H]; [exists 1%nat, O; split; [lia|]; split; [lia|]; assert (E0 : frac 0 == 0) by reflexivity; assert (E1 : frac 1 == 1) by reflexivity; rewrite E0, E1, Qmult_0_r; lra|].
          exists I, T. split; [lia|]. split; [lia|]. lra.
      + exists i, t. destruct (mod_next T R Hr) as [[M1 M2]|[M1 M2]]; rewrite M1; cbn [Nat.eqb]; (split; [lia|]; split; [lia|exact S3]).
  Qed.
  Theorem inner_stmt o l envs s t : (0 < po_restart (ro_base o))%nat -> 0 <= ro_artificial o -> r_run nrm red ext sq o l envs = Ok (Some (s, t)) ->
    inject_Z (Z.of_nat (k_inner (rs_core s))) <= 1 + inject_Z (Z.of_nat (po_restart (ro_base o))) + ro_artificial o * inject_Z (Z.of_nat (k_total (rs_core s))).
  Proof.
    intros Hr Ha E. unfold r_run in E. destruct (start_fails nrm l) as [[A _]|[s0 Es]]; [rewrite A in E; discriminate|]. rewrite Es in E. cbn [bind] in E. inversion E as [E']. clear E.
    destruct (start_same nrm l s0 Es) as (_ & _ & T0 & N0). assert (S0 : short o (rs_core s0)). { exists O, O. rewrite N0. split; [lia|]. split; [lia|]. assert (H : frac 0 == 0) by reflexivity. rewrite H, Qmult_0_r. lra. }
    clear T0 N0 Es. assert (F : short o (rs_core s)).
    { revert s0 S0 E'. induction envs as [|e envs IH]; intros s0 S0 E; [discriminate|]. cbn [r_loop] in E.
      destruct (stops (ro_base o) l (re_time_over e) (rs_core s0)); [inversion E; now subst|]. destruct (r_iterate nrm red ext sq o l e s0) as [s1|] eqn:Ei; [|discriminate]. apply (IH s1); [exact (iterate_short _ _ _ _ _ Hr Ha S0 Ei)|exact E]. }
    destruct F as (i & t' & F1 & F2 & F3). fold (frac (k_inner (rs_core s))) (frac (po_restart (ro_base o))) (frac (k_total (rs_core s))).
    assert (G : (k_inner (rs_core s) <= i + po_restart (ro_base o))%nat). { pose proof (Nat.mod_upper_bound (k_total (rs_core s)) (po_restart (ro_base o)) ltac:(lia)). destruct (Nat.eqb_spec (k_total (rs_core s) mod po_restart (ro_base o)) 0); lia. }
    apply frac_le in G. assert (Ad : frac (i + po_restart (ro_base o)) == frac i + frac (po_restart (ro_base o))) by (unfold frac; rewrite Nat2Z.inj_add, inject_Z_plus; reflexivity). rewrite Ad in G.
    apply frac_le in F2. assert (M : ro_artificial o * frac t' <= ro_artificial o * frac (k_total (rs_core s))) by (rewrite (Qmult_comm _ (frac t')), (Qmult_comm _ (frac (k_total _))); now apply Qmult_le_compat_r). lra.
  Qed.
End N.

(** A root: (floor (sqrt (n d)) + 1) / d for n / d. *)
Definition root (q : Q) : Q := Z.sqrt (Qnum q * Zpos (Qden q)) + 1 # Qden q.
Lemma root_is : root_like root.
Proof.
  intros [n d] [an ad] Hq Ha. unfold root, Qlt, Qle, Qmult, Qdiv, Qinv in *. cbn [Qnum Qden] in *. rewrite Z.mul_1_r in *. rewrite Z.mul_0_l in *.
  pose proof (Z.sqrt_spec (n * Zpos d)) as Sp. assert (Hn : (0 <= n * Z.pos d)%Z) by nia. specialize (Sp Hn). cbv zeta in Sp. set (s := Z.sqrt (n * Z.pos d)) in *. assert (Hs : (0 < s)%Z). { unfold s. apply Z.sqrt_pos. nia. } clearbody s.
  change (1 * 1 # 2) with (1 # 2). cbn [Qnum Qden]. split; intros H.
  - (* a <= root *) assert (A : (an * Z.pos d <= (s + 1) * Z.pos ad)%Z).
    { assert (B : ((an * Z.pos d) * (an * Z.pos d) <= ((s + 1) * Z.pos ad) * ((s + 1) * Z.pos ad))%Z).
      { rewrite Pos2Z.inj_mul in H. assert (C : ((an * an * Z.pos d) * Z.pos d <= (n * (Z.pos ad * Z.pos ad)) * Z.pos d)%Z) by (apply Z.mul_le_mono_nonneg_r; lia).
        assert (D : ((n * Z.pos d) * (Z.pos ad * Z.pos ad) <= ((s + 1) * (s + 1)) * (Z.pos ad * Z.pos ad))%Z) by (apply Z.mul_le_mono_nonneg_r; lia). lia. }
      assert (0 < Z.pos ad * (s + 1))%Z by nia. nia. }
    change ((an # ad) * (1 # 2))%Q with (an * 1 # ad * 2). cbn [Qnum Qden]. rewrite Pos2Z.inj_mul. nia.
  - assert (A : (s * Z.pos ad <= an * Z.pos d)%Z).
    { assert (B : ((s * Z.pos ad) * (s * Z.pos ad) <= (an * Z.pos d) * (an * Z.pos d))%Z).
      { rewrite Pos2Z.inj_mul in H. assert (C : ((n * (Z.pos ad * Z.pos ad)) * Z.pos d <= (an * an * Z.pos d) * Z.pos d)%Z) by (apply Z.mul_le_mono_nonneg_r; lia).
        assert (D : ((s * s) * (Z.pos ad * Z.pos ad) <= (n * Z.pos d) * (Z.pos ad * Z.pos ad))%Z) by (apply Z.mul_le_mono_nonneg_r; lia). lia. }
      assert (0 < an * Z.pos d)%Z by nia. nia. }
    change (2 * (an # ad))%Q with (2 * an # 1 * ad). cbn [Qnum Qden]. nia.
Qed.

(** ** Examples: minimize x0 + x1 subject to x0 >= 1 and x1 >= 1 in the unit box *)
Definition top (v : list Q) : Q := Qred (fold_right (fun a m => if Qlt_le_dec m (Qabs a) then Qabs a else m) 0 v).
Lemma top_like : norm_like top.
Proof.
  intros v. unfold top. induction v as [|a v [IH1 IH2]].
  - split; [rewrite Qred_correct; apply Qle_refl|intros q []].
  - rewrite Qred_correct in IH1. split.
    + rewrite Qred_correct. cbn [fold_right]. destruct (Qlt_le_dec _ (Qabs a)); [apply Qabs_nonneg|exact IH1].
    + intros q Hq. rewrite Qred_correct. cbn [fold_right]. destruct Hq as [<-|Hq].
      * destruct (Qlt_le_dec _ (Qabs a)); lra.
      * specialize (IH2 q Hq). rewrite Qred_correct in IH2. destruct (Qlt_le_dec _ (Qabs a)); lra.
Qed.
Definition half (_ : nat) : Q := 1 # 2.
Lemma half_powers : powers half half.
Proof. intros n _. unfold half. repeat split; reflexivity. Qed.
Definition root2 (q : Q) : Q := if Qlt_le_dec 0 q then Qred (root (Qred q)) else 0.
Lemma root2_is : root_like root2.
Proof.
  intros q a Hq Ha. unfold root2. destruct (Qlt_le_dec 0 q); [|lra]. destruct (root_is (Qred q) a) as [A B]; [now rewrite Qred_correct|exact Ha|].
  split; intros H; rewrite (Qred_correct (root (Qred q))); [apply A|apply B]; rewrite (Qred_correct q); exact H.
Qed.
Definition x_box : vars := fun _ => mkVar 0 0 1 true false VInteger true true.
Definition x_one (v : nat) : constr := c_setup (mkExpr [(v, 1)] (-(1))) Greater (fun _ => false).
Definition x_options (n : nat) : roption := mkRo (mkPo n (1 # 100) 2 1 1 0 false) (1 # 10) (9 # 10) (36 # 100).
Definition x_clock : list renv := repeat (mkRe false 20 NaN NaN) 6.
Definition x_objective : expr := mkExpr [(0%nat, 1); (1%nat, 1)] 0.
Lemma x_lists : lists_ok x_objective x_box [0%nat; 1%nat] [] [] [] [] [x_one 0; x_one 1].
Proof.
  constructor; try (intros c Hc; cbn in Hc; intuition (subst; reflexivity)); try (repeat constructor; cbn; intuition congruence).
  intros v. cbn. intuition.
Qed.

Definition x_lp : lp := ltac:(let v := eval vm_compute in (export true x_objective x_box [0%nat; 1%nat] [] [] [] [] [x_one 0; x_one 1]) in match v with Ok ?l => exact l end).
Lemma x_export : export true x_objective x_box [0%nat; 1%nat] [] [] [] [] [x_one 0; x_one 1] = Ok x_lp.
Proof. vm_compute. reflexivity. Qed.
Lemma x_wf : lp_wf x_lp.
Proof. apply (export_spec true x_objective x_box [0%nat; 1%nat] [] [] [] [] [x_one 0; x_one 1] x_lp x_lists); [intros v _ _; cbn; lia|exact x_export]. Qed.
Theorem gap_stmt : exists l x y, lp_wf l /\ LpSpec.within l x /\ signs l y /\ (exists i, (i < lp_rows l)%nat /\ lhs l x i + 1 <= nth i (lp_b l) 0) /\
  (forall x', lp_feasible l x' -> lp_objective l x + 1 <= lp_objective l x') /\ forall radius odd, normalized_gap top root2 l 1 x y radius odd = Fin 0.
Proof.
  exists x_lp, [0; 0], [0; 0]. split; [exact x_wf|]. split; [split; [reflexivity|]; intros [|[|j]] H; vm_compute in H; try lia; vm_compute; split; discriminate|].
  split; [split; [reflexivity|]; intros [|[|i]] H; vm_compute in H; try lia; vm_compute; discriminate|]. split; [exists O; split; [vm_compute; lia|vm_compute; discriminate]|]. split; [|intros radius odd; vm_compute; reflexivity].
  intros x' [[L B] R]. assert (R0 := R O ltac:(vm_compute; lia)). assert (R1 := R 1%nat ltac:(vm_compute; lia)). destruct x' as [|a [|b [|c x']]]; try discriminate L.
  unfold lhs, lp_objective, sum_below in *. cbn in R0, R1 |- *. lra.
Qed.
