(** Proofs for C94, continued: the altered target and the whole of solve(). *)
From Coq Require Import List ZArith QArith Qabs Lia Lqa Bool.
From Verif Require Import ExprModel ExprSpec ConstraintModel EvalModel EvalSpec EvalSpec2 SolutionModel SolutionSpec SolutionProof VariableModel PresolveModel SelectionModel SelectionSpec TabuModel LoopModel LoopSpec LoopProof2
  LocalModel LocalSpec LagrangeModel ControllerModel ControllerSpec SolverModel SolverSpec SolverProof SolverProof2 SolverProof3 TargetModel TargetSpec TargetProof.
Import ListNotations.
Local Open Scope Q_scope.

Lemma default_rate t : t / DEFAULT_TARGET == - (t * (1 # 10 ^ 100)).
Proof. unfold Qdiv. assert (E : / DEFAULT_TARGET == - (1 # 10 ^ 100)) by (vm_compute; reflexivity). rewrite E. ring. Qed.
Lemma chosen_target sign defined t : chosen t -> setup_target sign defined t == t * sign.
Proof.
  intros C. unfold setup_target. cbv zeta.
  assert (R : EPS < Qabs (t / DEFAULT_TARGET - 1)).
  { rewrite default_rate. unfold chosen in C. assert (B : - (99999 # 100000) < t * (1 # 10 ^ 100)).
    { assert (P : 0 < 1 # 10 ^ 100) by (vm_compute; reflexivity). apply (Qmult_lt_compat_r _ _ _ P) in C.
      assert (E : - inject_Z (99999 * 10 ^ 95) * (1 # 10 ^ 100) == - (99999 # 100000)) by (vm_compute; reflexivity). rewrite E in C. exact C. }
    revert B. generalize (t * (1 # 10 ^ 100)) as c. intros c B. rewrite Qabs_neg by lra. unfold EPS. lra. }
  destruct (Qlt_le_dec EPS (Qabs (t / DEFAULT_TARGET - 1))) as [L|L]; [|exfalso; exact (Qle_not_lt _ _ L R)].
  destruct (Qlt_le_dec (Qabs (t / DEFAULT_TARGET - 1)) EPS) as [L'|L']; [exfalso; exact (Qlt_irrefl _ (Qlt_trans _ _ _ L L'))|reflexivity].
Qed.
Lemma default_target sign defined t : left_alone t -> setup_target sign defined t == if defined then t else 0.
Proof.
  intros C. unfold setup_target. cbv zeta.
  assert (R : Qabs (t / DEFAULT_TARGET - 1) == 0). { unfold left_alone in C. rewrite C. vm_compute. reflexivity. }
  assert (P : 0 < EPS) by reflexivity.
  destruct (Qlt_le_dec EPS (Qabs (t / DEFAULT_TARGET - 1))) as [L|L]; [exfalso; rewrite R in L; exact (Qlt_irrefl _ (Qlt_trans _ _ _ L P))|].
  destruct (Qlt_le_dec (Qabs (t / DEFAULT_TARGET - 1)) EPS) as [L'|L']; [destruct defined; reflexivity|exfalso; rewrite R in L'; exact (Qle_not_lt _ _ L' P)].
Qed.

(** Every score in the run is the true one. *)
Lemma solve_honest lg root p a s0 m0 is01 : prepared is01 p s0 m0 -> admissible is01 s0 a ->
  forall y sc, In (y, sc) (offered (rn_events (ending (solve lg root p a s0 m0)))) -> honest (ms_model s0) y sc.
Proof.
  intros PREP (A1 & A2 & A3 & A4). set (o := in_control a) in *. set (good := fun _ : nat -> Z => True).
  assert (GE : forall x y : nat -> Z, (forall v, x v = y v) -> good x -> good y) by (intros; exact Logic.I).
  cut (rinv p s0 (in_naive a) (co_initial o) (well_priced lg root o s0) good (ending (solve lg root p a s0 m0))).
  { intros (_ & _ & _ & _ & H & _) y sc I. exact (proj1 (H y sc I)). }
  unfold solve. fold o.
  pose proof (preprocess_rinv is01 p s0 m0 (in_naive a) (co_initial o) (well_priced lg root o s0) good PREP (fun W => proj2 (proj2 (proj2 (proj2 W)))) Logic.I) as I0.
  apply (pdlp_rinv p s0 (in_naive a) (co_initial o) (well_priced lg root o s0) good (in_pdlp a)) in I0.
  set (r0 := v_pdlp p (in_pdlp a) (v_preprocess (in_naive a) s0 m0)) in *. clearbody r0.
  pose proof (lagrange_ok is01 p s0 m0 (in_naive a) (co_initial o) (well_priced lg root o s0) good PREP GE (in_lagrange a) r0 I0 A1 ltac:(intros; exact Logic.I)) as P1.
  destruct (v_lagrange p (in_lagrange a) r0) as [r1|r1 y|r1]; cbn [bind phase_ok ending] in *; [|apply P1|destruct P1]. destruct P1 as (I1 & _).
  pose proof (local_ok is01 p s0 m0 (in_naive a) (co_initial o) (well_priced lg root o s0) good PREP GE (in_local a) r1 I1 A2 ltac:(intros; exact Logic.I)) as P2.
  destruct (v_local p (in_local a) r1) as [r2|r2 y|r2]; cbn [bind phase_ok ending] in *; [|apply P2|destruct P2]. destruct P2 as (I2 & _). unfold v_tabu.
  pose proof (v_rounds_ok is01 p s0 m0 (in_naive a) o lg root good PREP A3 GE (in_limit a) (in_target a) (in_rounds a) A4 ltac:(intros; exact Logic.I) 0%Z None (k_setup o (rn_mem r2) (rn_current r2)) r2 I2
    (rinv_current p s0 (in_naive a) (co_initial o) (well_priced lg root o s0) good r2 I2) A3) as P3.
  assert (Rt : well_priced lg root o s0 -> co_relax_min o <= k_rate (k_setup o (rn_mem r2) (rn_current r2)) <= co_relax_max o).
  { intros ((_ & _ & _ & _ & S5 & S6 & _) & _). cbn [k_setup k_rate]. split; assumption. }
  specialize (P3 Rt).
  destruct (v_rounds o lg root p (in_limit a) (in_target a) (in_rounds a) 0 None (k_setup o (rn_mem r2) (rn_current r2)) r2) as [r3|r3 y|r3]; cbn [bind rounds_ok ending] in *; [|apply P3|apply P3].
  destruct P3 as (I3 & _). apply current_rinv in I3. pose proof (postprocess_ok is01 p s0 m0 (in_naive a) o lg root good PREP (with_current r3) I3) as P4.
  destruct (v_postprocess p (with_current r3)) as [[an r4]|r4 y|r4]; [| |destruct P4]; destruct P4 as (-> & _); exact I3.
Qed.

Lemma targeted_admissible is01 s0 t a : admissible is01 s0 a -> admissible is01 s0 (targeted t a).
Proof.
  intros (A1 & A2 & A3 & A4). unfold admissible. cbn [targeted in_lagrange in_local in_control in_rounds]. split; [|split; [|split; [exact A3|]]].
  - intros g E. destruct (in_lagrange a) as [g0|]; [|discriminate]. injection E as <-. exact (A1 g0 eq_refl).
  - intros g E. destruct (in_local a) as [g0|]; [|discriminate]. injection E as <-. exact (A2 g0 eq_refl).
  - intros d Hd. apply in_map_iff in Hd as (d0 & <- & Hd). exact (A4 d0 Hd).
Qed.
Lemma most_bound a d : In d (in_rounds a) -> (length (td_mods d) <= most_modifications a)%nat.
Proof.
  unfold most_modifications. induction (in_rounds a) as [|e l IH]; [intros []|]. cbn [map fold_right]. intros [->|H]; [lia|]. specialize (IH H). lia.
Qed.
Lemma targeted_kinv t (hit ok : Q -> Prop) lg root p a s0 m0 : (forall v, hit v -> v <= t) -> (forall v q, hit v -> ok q -> q <= v + EPS -> q <= t) ->
  kinv t hit ok (most_modifications a) (ending (solve lg root p (targeted t a) s0 m0)).
Proof.
  intros H1 H2. apply (solve_kinv t hit ok H1 H2).
  - intros g E. cbn [targeted in_lagrange] in E. destruct (in_lagrange a); [|discriminate]. injection E as <-. reflexivity.
  - intros g E. cbn [targeted in_local] in E. destruct (in_local a); [|discriminate]. injection E as <-. reflexivity.
  - reflexivity.
  - intros d Hd. cbn [targeted in_rounds] in Hd. apply in_map_iff in Hd as (d0 & <- & Hd). split; [reflexivity|]. exact (most_bound a d0 Hd).
Qed.

(** [u], the target of the searches, in terms of the minimization form. *)
Lemma stop_internal lg root p a s0 m0 is01 u pre y sc post : prepared is01 p s0 m0 -> admissible is01 s0 a ->
  let r := ending (solve lg root p (targeted u a) s0 m0) in let md := ms_model s0 in
  rn_events r = pre ++ Offer y sc :: post -> satisfies md y ->
  (value md y + EPS <= u \/ value md y <= u /\ forall z, In z (visited r) -> satisfies md z -> ~ (u < value md z <= u + EPS)) ->
  ~ In ResetLocal post /\ (length (offered post) <= most_modifications a)%nat.
Proof.
  intros P A r md E Sy M. pose proof (solve_honest lg root p (targeted u a) s0 m0 is01 P (targeted_admissible is01 s0 u a A)) as Hn. fold r in Hn. fold md in Hn.
  assert (Iy : In (y, sc) (offered (rn_events r))) by (rewrite E, offered_app; apply in_app_iff; right; now left).
  destruct (Hn y sc Iy) as (Y1 & _ & Y2). pose proof (proj2 Y2 Sy) as Yf.
  destruct M as [M|[M G]].
  - assert (K : kinv u (fun v => v + EPS <= u) (fun _ => True) (most_modifications a) r).
    { apply targeted_kinv; [intros v Hv; assert (0 < EPS) by reflexivity; lra|intros v q Hv _ Hq; lra]. }
    destruct K as (_ & _ & K); [apply Forall_forall; intros q _ _; exact I|]. apply (K pre y sc post E). split; [exact Yf|]. cbn [snd]. rewrite Y1. exact M.
  - assert (K : kinv u (fun v => v <= u) (fun q => ~ (u < q <= u + EPS)) (most_modifications a) r).
    { apply targeted_kinv; [auto|]. intros v q Hv Hk Hq. destruct (Qlt_le_dec u q) as [L|L]; [|exact L]. exfalso. apply Hk. lra. }
    destruct K as (_ & _ & K).
    + apply Forall_forall. intros [z sz] Iz Fz. cbn [snd] in *. destruct (Hn z sz Iz) as (Z1 & _ & Z2). rewrite Z1. apply G; [|now apply Z2]. unfold visited. apply in_map_iff. exists (z, sz). split; [reflexivity|exact Iz].
    + apply (K pre y sc post E). split; [exact Yf|]. cbn [snd]. rewrite Y1. exact M.
Qed.
Lemma value_sense maximize md y : sense_is maximize md -> value md y == if maximize then - objective_at md y else objective_at md y.
Proof. unfold sense_is, value, objective_at. intros S. destruct (md_defined md); [rewrite S|]; destruct maximize; lra. Qed.

Lemma stop_chosen lg root p a s0 m0 is01 maximize t pre y sc post : prepared is01 p s0 m0 -> admissible is01 s0 a -> sense_is maximize (ms_model s0) -> chosen t ->
  let r := ending (solve_target lg root p a s0 m0 t) in
  rn_events r = pre ++ Offer y sc :: post -> meets maximize (ms_model s0) t r y ->
  ~ In ResetLocal post /\ (length (offered post) <= most_modifications a)%nat.
Proof.
  intros P A S C r E [Sy M]. unfold solve_target in r. pose proof (chosen_target (md_sign (ms_model s0)) (md_defined (ms_model s0)) t C) as U.
  set (u := setup_target _ _ _) in *. clearbody u. pose proof S as S'. unfold sense_is in S'. rewrite S' in U.
  apply (stop_internal lg root p a s0 m0 is01 u pre y sc post P A E Sy). fold r. unfold EPS, clearly, as_good, just_missed in *. rewrite (value_sense maximize _ y S).
  destruct M as [M|[M G]]; [left|right; split; [|intros z Hz Sz; rewrite (value_sense maximize _ z S); specialize (G z Hz Sz)]]; destruct maximize; lra.
Qed.
Lemma stop_default lg root p a s0 m0 is01 t pre y sc post : prepared is01 p s0 m0 -> admissible is01 s0 a -> left_alone t -> md_defined (ms_model s0) = false ->
  let r := ending (solve_target lg root p a s0 m0 t) in
  rn_events r = pre ++ Offer y sc :: post -> satisfies (ms_model s0) y ->
  ~ In ResetLocal post /\ (length (offered post) <= most_modifications a)%nat.
Proof.
  intros P A C D r E Sy. unfold solve_target in r. pose proof (default_target (md_sign (ms_model s0)) (md_defined (ms_model s0)) t C) as U.
  set (u := setup_target _ _ _) in *. clearbody u. rewrite D in U.
  apply (stop_internal lg root p a s0 m0 is01 u pre y sc post P A E Sy). right. unfold value. rewrite D. split; [lra|]. intros z _ _. lra.
Qed.
