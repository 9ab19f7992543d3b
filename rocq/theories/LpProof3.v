(** Proofs for C62 and C63: invariants of the core. *)
From Coq Require Import List ZArith QArith Qabs Bool Lia Lqa Sorting.Sorted Permutation.
From Verif Require Import ConstraintModel PresolveModel DuplicateModel DuplicateProof SparseModel SparseSpec SparseProof SparseProof2 SparseProof3 SparseProof4 LpModel LpSpec LpProof LpProof2.
Import ListNotations.
Local Open Scope Q_scope.

Section I.
  Variable nrm : vec -> Q.
  Variables red ext : nat -> Q.
  Hypothesis P : powers red ext.
  Hypothesis Nn : norm_like nrm.

  Definition info (l : lp) (xa ya : vec) (k : core) : Prop :=
    k_pobj k = inner xa (lp_c l) + lp_offset l /\ k_dobj k = dual_value l ya /\
    k_pviol k = nrm (clip_rows l (m_lin2 (-(1)) (lp_A l) xa 1 (lp_b l))) / (1 + nrm (lp_b l)) /\
    k_dviol k = nrm (m_lin3 (-(1)) (lp_At l) ya 1 (lp_c l) (-(1)) (reduced l ya)) / (1 + nrm (lp_c l)) /\
    k_gap k = Qabs (k_pobj k - k_dobj k) / (1 + Qabs (k_dobj k) + Qabs (k_pobj k)).
  Record inv (l : lp) (k : core) : Prop := mkInv {
    iv_shape : shape l k; iv_ya : signs l (k_ya k); iv_lxa : length (k_xa k) = lp_cols l; iv_xa : 0 < k_sum k -> within l (k_xa k);
    iv_step : 0 < k_step k; iv_prev : 0 < k_prev k; iv_sum : 0 <= k_sum k;
    iv_info : exists xa ya, within l xa /\ signs l ya /\ info l xa ya k }.
  Lemma zeros_signs l : signs l (repeat 0 (lp_rows l)).
  Proof. split; [apply repeat_length|]. intros i _. rewrite nth_repeat. destruct (nth i (lp_dlo l) None); [apply Qle_refl|exact Logic.I]. Qed.
  Lemma start_inv l k : lp_wf l -> core_start nrm l = Ok k -> inv l k /\ k_total k = O /\ k_outer k = O.
  Proof.
    intros W E. unfold core_start, core_setup in E. destruct (Qlt_le_dec 0 (mt_infty (lp_A l))) as [Hn|]; [|discriminate]. cbn [bind] in E. inversion E; subst k. clear E. split; [|split; reflexivity].
    destruct (wf_cols l W) as (C1 & C2 & C3 & C4 & C5 & C6). destruct (wf_rows l W) as (R1 & R2 & R3 & R4). destruct (wf_signs l W) as (G1 & G2 & G3).
    assert (X0 : within l (lp_x0 l)) by (split; [exact C4|apply (wf_start l W)]).
    assert (Y0 : signs l (lp_y0 l)). { split; [exact R4|]. intros i Hi. destruct (nth i (lp_dlo l) None); [|exact Logic.I]. rewrite (G3 (nth i (lp_y0 l) 0)); [apply Qle_refl|]. apply nth_In. lia. }
    assert (Sp : 0 < 1 / mt_infty (lp_A l)) by (apply Qlt_shift_div_l; lra).
    constructor; cbn -[Qdiv]; try assumption.
    - constructor; cbn -[Qdiv]; try assumption. destruct (Qlt_le_dec EPS (nrm (lp_c l))) as [H1|]; [|lra]. destruct (Qlt_le_dec EPS (nrm (lp_b l))) as [H2|]; [|lra]. unfold EPS in *. apply Qlt_shift_div_l; lra.
    - apply zeros_signs.
    - apply repeat_length.
    - intros H. now apply Qlt_irrefl in H.
    - apply Qle_refl.
    - exists (lp_x0 l), (lp_y0 l). split; [assumption|]. split; [assumption|]. repeat split.
  Qed.

  Lemma signs_learn l a b r : signs l a -> signs l b -> 0 <= r <= 1 -> signs l (learn a b r).
  Proof.
    intros [La Sa] [Lb Sb] Hr. split; [unfold learn; now apply lin2_length|]. intros i Hi. specialize (Sa i Hi). specialize (Sb i Hi). change (nth i (learn a b r) 0) with (at_ (learn a b r) i). rewrite (learn_at a b r (lp_rows l) i La Lb Hi).
    unfold at_. destruct (nth i (lp_dlo l) None); [|exact Logic.I]. nra.
  Qed.
  Lemma within_learn l a b r : within l a -> within l b -> 0 <= r <= 1 -> within l (learn a b r).
  Proof.
    intros [La Sa] [Lb Sb] Hr. split; [unfold learn; now apply lin2_length|]. intros i Hi. specialize (Sa i Hi). specialize (Sb i Hi). change (nth i (learn a b r) 0) with (at_ (learn a b r) i). rewrite (learn_at a b r (lp_cols l) i La Lb Hi).
    unfold at_. split; nra.
  Qed.
  Lemma within_learn1 l a b r : length a = lp_cols l -> within l b -> r == 1 -> within l (learn a b r).
  Proof.
    intros La [Lb Sb] Hr. split; [unfold learn; now apply lin2_length|]. intros i Hi. specialize (Sb i Hi). change (nth i (learn a b r) 0) with (at_ (learn a b r) i). rewrite (learn_at a b r (lp_cols l) i La Lb Hi).
    unfold at_. rewrite Hr. split; lra.
  Qed.
  Lemma averaged_inv l k : lp_wf l -> inv l k -> inv l (update_averaged k) /\ 0 < k_sum (update_averaged k).
  Proof.
    intros W [Sh Y Lx X S1 S2 S3 Inf]. unfold update_averaged. assert (Sp : 0 < k_sum k + k_prev k) by lra.
    assert (Rt : 0 <= k_prev k / (k_sum k + k_prev k) <= 1). { split; [apply Qle_shift_div_l; lra|apply Qle_shift_div_r; lra]. }
    split; [|exact Sp]. destruct Sh as [A B C]. constructor; cbn -[Qdiv learn]; try assumption; try lra.
    - constructor; assumption.
    - now apply signs_learn.
    - unfold learn. apply lin2_length; [assumption|apply A].
    - intros _. destruct (Qlt_le_dec 0 (k_sum k)) as [H|H]; [apply within_learn; auto|]. apply within_learn1; auto. assert (E : k_sum k == 0) by lra. rewrite E. field. lra.
  Qed.
  Lemma check_inv l k : lp_wf l -> inv l k -> 0 < k_sum k -> inv l (check nrm l k).
  Proof.
    intros W [Sh Y Lx X S1 S2 S3 Inf] Sp. destruct Sh as [A B C]. unfold check. constructor; cbn -[Qdiv inner m_lin2 m_lin3 reduced clip_rows reduced_cost]; try assumption.
    - constructor; assumption.
    - exists (k_xa k), (k_ya k). split; [now apply X|]. split; [assumption|]. repeat split.
  Qed.
  Lemma count_inv l k a b : inv l k -> inv l (count k a b).
  Proof. intros [[A B C] Y Lx X S1 S2 S3 Inf]. constructor; cbn; try assumption. constructor; assumption. Qed.
  Lemma restart_inv l k w c : inv l k -> 0 < k_sum k -> 0 < w -> inv l (new_inner l (restart c w k)).
  Proof.
    intros [[A B C] Y Lx X S1 S2 S3 Inf] Sp Hw. unfold new_inner, restart.
    assert (X' : within l (if c then k_x k else k_xa k)) by (destruct c; auto).
    assert (Y' : signs l (if c then k_y k else k_ya k)) by (destruct c; auto).
    constructor; cbn; try assumption.
    - constructor; assumption.
    - destruct (Nat.eqb (k_outer k) 0); [apply zeros_signs|assumption].
    - destruct (Nat.eqb (k_outer k) 0); [apply repeat_length|apply X'].
    - destruct (Nat.eqb (k_outer k) 0); [intros H; now apply Qlt_irrefl in H|intros _; assumption].
    - destruct (Nat.eqb (k_outer k) 0); lra.
  Qed.
  Lemma solution_inv l k trials k' : lp_wf l -> inv l k -> update_solution red ext trials l k = Some k' -> inv l k' /\ k_total k' = k_total k /\ k_inner k' = k_inner k /\ k_outer k' = k_outer k.
  Proof.
    intros W [Sh Y Lx X S1 S2 S3 Inf] E. unfold update_solution in E.
    destruct (step_loop_spec red ext P l k _ W Sh (mul_At_length l _ W) trials _ _ k' S1 E) as (x & y & st & t & E' & Wx & Wy & P1 & P2 & _).
    rewrite E'. split; [|repeat split]. destruct Sh as [A B C]. constructor; cbn; try assumption. constructor; assumption.
  Qed.
  Lemma iterate_inv o l e k k' : lp_wf l -> 0 < pe_weight e -> inv l k -> iterate nrm red ext o l e k = Some k' -> inv l k' /\ k_total k' = S (k_total k).
  Proof.
    intros W Hw Iv E. unfold iterate in E. destruct (update_solution red ext (pe_trials e) l k) as [k1|] eqn:E1; [|discriminate].
    destruct (solution_inv l k _ k1 W Iv E1) as (I1 & T1 & _). destruct (averaged_inv l k1 W I1) as (I2 & Sp).
    set (k2 := update_averaged k1) in *. assert (T2 : k_total k2 = k_total k) by exact T1. clearbody k2.
    set (b := Nat.eqb (k_total k2 mod po_check o) 0 || Nat.eqb (k_total k2 mod po_log o) 0) in *. clearbody b.
    set (k3 := if b then check nrm l k2 else k2) in *.
    assert (I3 : inv l k3) by (unfold k3; destruct b; [now apply check_inv|assumption]).
    assert (Sp3 : 0 < k_sum k3) by (unfold k3; destruct b; exact Sp).
    assert (T3 : k_total k3 = k_total k) by (unfold k3; destruct b; exact T2). clearbody k3.
    destruct (restarts o e k2) as [c|]; inversion E; subst k'; cbn [count k_total new_inner restart].
    - split; [apply count_inv, restart_inv; assumption|congruence].
    - split; [apply count_inv, count_inv; assumption|congruence].
  Qed.
  Lemma loop_inv o l : lp_wf l -> forall envs k k' s, (forall e, In e envs -> 0 < pe_weight e) -> inv l k -> (k_total k <= po_iteration_max o)%nat -> loop nrm red ext o l envs k = Some (k', s) ->
    inv l k' /\ (k_total k' <= po_iteration_max o)%nat /\ exists late, stops o l late k' = Some s.
  Proof.
    intros W envs. induction envs as [|e envs IH]; intros k k' s Hw Iv Ht E; [discriminate|]. cbn [loop] in E.
    destruct (stops o l (pe_time_over e) k) as [s0|] eqn:St.
    - inversion E; subst. split; [assumption|]. split; [assumption|]. now exists (pe_time_over e).
    - destruct (iterate nrm red ext o l e k) as [k1|] eqn:Ek; [|discriminate]. destruct (iterate_inv o l e k k1 W (Hw e (or_introl eq_refl)) Iv Ek) as (I1 & T1).
      apply (IH k1); auto; [intros e' He'; apply Hw; now right|]. unfold stops in St. destruct (pe_time_over e); [discriminate|]. destruct (Nat.leb_spec (po_iteration_max o) (k_total k)); [discriminate|]. lia.
  Qed.
  Theorem run_inv o l envs k s : lp_wf l -> (forall e, In e envs -> 0 < pe_weight e) -> core_run nrm red ext o l envs = Ok (Some (k, s)) ->
    inv l k /\ (k_total k <= po_iteration_max o)%nat /\ exists late, stops o l late k = Some s.
  Proof.
    intros W Hw E. unfold core_run in E. destruct (core_start nrm l) as [k0| |] eqn:E0; try discriminate. cbn [bind] in E. destruct (start_inv l k0 W E0) as (Iv & T & _).
    apply (loop_inv o l W envs k0); auto; [lia|congruence].
  Qed.

  (** ** Termination *)
  Hypothesis Sm : vanishing red.
  Lemma solution_ends l k : lp_wf l -> inv l k -> exists trials k', update_solution red ext trials l k = Some k'.
  Proof.
    intros W [Sh Y Lx X S1 S2 S3 Inf]. pose proof (weightsum_nonneg l) as Wn. destruct (Sm (k_attempts k) (1 / (1 + k_step k * weightsum l))) as (m & Hm).
    { apply Qlt_shift_div_l; nra. }
    exists (S m). apply (step_loop_ends red ext P l k _ W Sh (mul_At_length l _ W) m (k_attempts k) (k_step k) S1).
    pose proof (shrink_pos red ext P m (k_attempts k)) as Sp. set (s := shrink red (k_attempts k) m) in *. clearbody s.
    assert (D : s * (1 + k_step k * weightsum l) < 1). { assert (Q : 0 < 1 + k_step k * weightsum l) by nra. apply (Qmult_lt_r _ _ _ Q) in Hm. setoid_replace (1 / (1 + k_step k * weightsum l) * (1 + k_step k * weightsum l)) with 1 in Hm by (field; lra). exact Hm. }
    nra.
  Qed.
  Lemma same_env_refl e : same_env e e.
  Proof. repeat split. Qed.
  Lemma same_envs_refl es : Forall2 same_env es es.
  Proof. induction es; constructor; [apply same_env_refl|assumption]. Qed.
  Lemma loop_ends o l : lp_wf l -> forall envs k, (forall e, In e envs -> 0 < pe_weight e) -> inv l k -> (k_total k <= po_iteration_max o)%nat -> (po_iteration_max o < length envs + k_total k)%nat ->
    exists envs' r, Forall2 same_env envs envs' /\ loop nrm red ext o l envs' k = Some r.
  Proof.
    intros W envs. induction envs as [|e envs IH]; intros k Hw Iv Ht Hl.
    - cbn [length] in Hl. lia.
    - destruct (stops o l (pe_time_over e) k) as [s|] eqn:St.
      + exists (e :: envs), (k, s). split; [apply same_envs_refl|]. cbn [loop]. now rewrite St.
      + destruct (solution_ends l k W Iv) as (trials & k1 & E1). set (e' := mkPe (pe_time_over e) trials (pe_restart e) (pe_weight e)).
        assert (Ei : exists k2, iterate nrm red ext o l e' k = Some k2) by (unfold iterate; cbn [pe_trials e']; rewrite E1; eexists; reflexivity). destruct Ei as (k2 & Ei).
        assert (Hw' : 0 < pe_weight e') by (cbn; apply Hw; now left). destruct (iterate_inv o l e' k k2 W Hw' Iv Ei) as (I2 & T2).
        assert (Lt : (k_total k < po_iteration_max o)%nat). { unfold stops in St. destruct (pe_time_over e); [discriminate|]. destruct (Nat.leb_spec (po_iteration_max o) (k_total k)); [discriminate|assumption]. }
        destruct (IH k2) as (envs' & r & F & R); [intros; apply Hw; now right|assumption|lia|cbn [length] in Hl; lia|].
        exists (e' :: envs'), r. split; [constructor; [repeat split|assumption]|]. cbn [loop]. change (pe_time_over e') with (pe_time_over e). now rewrite St, Ei.
  Qed.
  Theorem run_ends o l envs : lp_wf l -> (forall e, In e envs -> 0 < pe_weight e) -> 0 < mt_infty (lp_A l) -> (po_iteration_max o < length envs)%nat ->
    exists envs' k s, Forall2 same_env envs envs' /\ core_run nrm red ext o l envs' = Ok (Some (k, s)).
  Proof.
    intros W Hw Hn Hl. unfold core_run. destruct (core_start nrm l) as [k0| |] eqn:E0; try (unfold core_start, core_setup in E0; destruct (Qlt_le_dec 0 (mt_infty (lp_A l))); [discriminate|lra]).
    destruct (start_inv l k0 W E0) as (Iv & T & _). destruct (loop_ends o l W envs k0) as (envs' & (k & s) & F & R); auto; try lia. exists envs', k, s. split; [exact F|]. cbn [bind]. now rewrite R.
  Qed.

  (** ** What the statuses mean *)
  Lemma lin3_At l y j : lp_wf l -> length y = lp_rows l -> (j < lp_cols l)%nat -> at_ (m_lin3 (-(1)) (lp_At l) y 1 (lp_c l) (-(1)) (reduced l y)) j == slack l y j.
  Proof.
    intros W Ly Hj. destruct (wf_trans l W) as (Gt & T1 & T2 & _). rewrite (lin3_good (-(1)) (lp_At l) y 1 (lp_c l) (-(1)) (reduced l y) j Gt) by congruence. unfold slack, aty. ring.
  Qed.
  Lemma dual_valid l k x : lp_wf l -> inv l k -> lp_feasible l x ->
    k_dobj k <= lp_objective l x + k_dviol k * (1 + nrm (lp_c l)) * sum_below (lp_cols l) (fun j => if nth j (lp_lo_open l) false || nth j (lp_hi_open l) false then Qabs (at_ x j) else 0).
  Proof.
    intros W Iv Fx. destruct (iv_info l k Iv) as (xa & ya & _ & Sy & I1 & I2 & I3 & I4 & I5). rewrite I2, I4. eapply Qle_trans; [apply (weak_duality l ya x W Sy Fx)|].
    destruct (Nn (lp_c l)) as (Nc & _). set (v := m_lin3 _ _ _ _ _ _ _). destruct (Nn v) as (Nv & Bv).
    setoid_replace (nrm v / (1 + nrm (lp_c l)) * (1 + nrm (lp_c l))) with (nrm v) by (field; lra).
    assert (Lv : length v = lp_cols l). { unfold v, m_lin3. rewrite map_length, seq_length. apply (wf_trans l W). }
    assert (S : - sum_below (lp_cols l) (fun j => slack l ya j * at_ x j) <= nrm v * sum_below (lp_cols l) (fun j => if nth j (lp_lo_open l) false || nth j (lp_hi_open l) false then Qabs (at_ x j) else 0)).
    { rewrite <- sum_scale. assert (E : - sum_below (lp_cols l) (fun j => slack l ya j * at_ x j) == sum_below (lp_cols l) (fun j => (-(1)) * (slack l ya j * at_ x j))) by (rewrite sum_scale; ring). rewrite E. apply sum_le. intros j Hj.
      destruct (nth j (lp_lo_open l) false || nth j (lp_hi_open l) false) eqn:F.
      - assert (B : Qabs (slack l ya j) <= nrm v). { rewrite <- (lin3_At l ya j W (proj1 Sy) Hj). apply Bv. apply nth_In. fold v. lia. }
        pose proof (Qabs_nonneg (slack l ya j)). pose proof (Qabs_nonneg (at_ x j)). assert (C : - (slack l ya j * at_ x j) <= Qabs (slack l ya j) * Qabs (at_ x j)). { rewrite <- Qabs_Qmult, <- Qabs_opp. apply Qle_Qabs. }
        nra.
      - apply orb_false_elim in F as [F1 F2]. rewrite (slack_bounded l ya j W Hj F1 F2). lra. }
    lra.
  Qed.
  Lemma dual_valid0 l k x : lp_wf l -> inv l k -> all_bounded l -> lp_feasible l x -> k_dobj k <= lp_objective l x.
  Proof.
    intros W Iv B Fx. pose proof (dual_valid l k x W Iv Fx) as H. rewrite (sum_zero (lp_cols l)) in H; [lra|]. intros j Hj. cbn beta. destruct (B j Hj) as [-> ->]. reflexivity.
  Qed.
  Lemma stops_optimal o l late k : stops o l late k = Some OPTIMAL -> k_pviol k <= po_tolerance o /\ k_dviol k <= po_tolerance o /\ k_gap k <= po_tolerance o.
  Proof.
    unfold stops. destruct late; [discriminate|]. destruct (Nat.leb _ _); [discriminate|]. unfold le. destruct (Qlt_le_dec (po_tolerance o) (k_pviol k)), (Qlt_le_dec (po_tolerance o) (k_dviol k)), (Qlt_le_dec (po_tolerance o) (k_gap k)); cbn [andb];
    repeat match goal with |- context [if ?b then _ else _] => destruct b end; try discriminate; auto.
  Qed.
  Lemma stops_infeasible o l late k : stops o l late k = Some INFEASIBLE -> k_dviol k <= po_tolerance o /\ objective_upper l + 1 <= k_dobj k.
  Proof.
    unfold stops. destruct late; [discriminate|]. destruct (Nat.leb _ _); [discriminate|]. unfold le. destruct (Qlt_le_dec (po_tolerance o) (k_pviol k)), (Qlt_le_dec (po_tolerance o) (k_dviol k)), (Qlt_le_dec (po_tolerance o) (k_gap k)); cbn [andb]; try discriminate;
    (destruct (Qlt_le_dec (k_dobj k) (objective_upper l + qmax 1 (Qabs (objective_upper l) * EPS))) as [H|H]; [discriminate|]); intros _; (split; [assumption|]); unfold qmax in H; destruct (Qlt_le_dec 1 (Qabs (objective_upper l) * EPS)); lra.
  Qed.
  Lemma upper_bound l x : lp_wf l -> within l x -> sum_below (lp_cols l) (fun j => nth j (lp_c l) 0 * nth j x 0) <= objective_upper l.
  Proof.
    intros W [_ B]. destruct (wf_cols l W) as (C1 & C2 & C3 & _). unfold objective_upper.
    rewrite (fold_combine (fun p => fst p * (if Qlt_le_dec 0 (fst p) then snd (snd p) else fst (snd p))) (lp_c l) (combine (lp_lo l) (lp_hi l)) 0 (0, 0) (lp_cols l) C1 (combine_length2 _ _ _ C2 C3)).
    apply sum_le. intros j Hj. cbn [fst snd]. rewrite combine_nth by congruence. cbn [fst snd]. specialize (B j Hj). destruct (Qlt_le_dec 0 (nth j (lp_c l) 0)); nra.
  Qed.
  Lemma clip_at l v i : (i < length v)%nat -> at_ (clip_rows l v) i =
    if (Nat.leb (fst (lp_less l)) i && Nat.ltb i (snd (lp_less l))) || (Nat.leb (fst (lp_greater l)) i && Nat.ltb i (snd (lp_greater l))) then qmax (at_ v i) 0 else at_ v i.
  Proof.
    intros Hi. unfold clip_rows. rewrite (combine_seq (seq 0 (length v)) v O 0 (length v) (seq_length _ _) eq_refl), map_map. unfold at_ at 1. rewrite nth_map_seq by exact Hi. cbn [fst snd]. rewrite seq_nth by exact Hi. reflexivity.
  Qed.
  Lemma rows_violation l k : lp_wf l -> inv l k -> exists xa, within l xa /\ lp_objective l xa == k_pobj k /\
    forall i, (i < lp_rows l)%nat -> nth i (lp_b l) 0 - lhs l xa i <= k_pviol k * (1 + nrm (lp_b l)) /\ (nth i (lp_dlo l) None = None -> lhs l xa i - nth i (lp_b l) 0 <= k_pviol k * (1 + nrm (lp_b l))).
  Proof.
    intros W Iv. destruct (iv_info l k Iv) as (xa & ya & Wx & _ & I1 & _ & I3 & _). exists xa. split; [exact Wx|]. split.
    - rewrite I1, (inner_at xa (lp_c l) (lp_cols l) (proj1 Wx)). unfold lp_objective. rewrite (sum_ext _ (fun i => at_ xa i * at_ (lp_c l) i) (fun j => nth j (lp_c l) 0 * nth j xa 0)); [reflexivity|]. intros; unfold at_; ring.
    - intros i Hi. rewrite I3. set (r := m_lin2 (-(1)) (lp_A l) xa 1 (lp_b l)). destruct (Nn (lp_b l)) as (Nb & _). destruct (wf_dims l W) as (D1 & D2 & _).
      setoid_replace (nrm (clip_rows l r) / (1 + nrm (lp_b l)) * (1 + nrm (lp_b l))) with (nrm (clip_rows l r)) by (field; lra).
      assert (Lr : length r = lp_rows l) by (unfold r, m_lin2; now rewrite map_length, seq_length).
      assert (Er : at_ r i == nth i (lp_b l) 0 - lhs l xa i). { unfold r. rewrite (lin2_good (-(1)) (lp_A l) xa 1 (lp_b l) i (wf_good l W)) by congruence. rewrite (lhs_ax l xa i W). unfold ax, at_ at 2. ring. }
      destruct (Nn (clip_rows l r)) as (_ & Bd). assert (Bi : Qabs (at_ (clip_rows l r) i) <= nrm (clip_rows l r)). { apply Bd, nth_In. unfold clip_rows. rewrite map_length, combine_length, seq_length. lia. }
      rewrite (clip_at l r i ltac:(lia)) in Bi. pose proof (wf_ranges l W i Hi) as Rg. set (n0 := nrm (clip_rows l r)) in *. clearbody n0.
      match type of Bi with context [if ?b then _ else _] => destruct b eqn:Eb end.
      + split.
        * pose proof (Qle_Qabs (qmax (at_ r i) 0)). assert (at_ r i <= qmax (at_ r i) 0) by (unfold qmax; destruct (Qlt_le_dec (at_ r i) 0); lra). lra.
        * intros Hd. exfalso. apply (proj2 Rg); [|exact Hd]. apply orb_prop in Eb as [Eb|Eb]; apply andb_prop in Eb as [E1 E2]; apply Nat.leb_le in E1; apply Nat.ltb_lt in E2; [left|right]; lia.
      + pose proof (Qle_Qabs (at_ r i)). pose proof (Qle_Qabs (- at_ r i)) as H2. rewrite Qabs_opp in H2. split; [lra|]. intros _. lra.
  Qed.
  Lemma optimal_gap o l k x : lp_wf l -> inv l k -> all_bounded l -> k_gap k <= po_tolerance o -> lp_feasible l x -> k_pobj k <= lp_objective l x + po_tolerance o * (1 + Qabs (k_dobj k) + Qabs (k_pobj k)).
  Proof.
    intros W Iv B G Fx. pose proof (dual_valid0 l k x W Iv B Fx) as H. destruct (iv_info l k Iv) as (xa & ya & _ & _ & _ & _ & _ & _ & I5). rewrite I5 in G.
    pose proof (Qabs_nonneg (k_dobj k)). pose proof (Qabs_nonneg (k_pobj k)). set (d := 1 + Qabs (k_dobj k) + Qabs (k_pobj k)) in *. assert (Dp : 0 < d) by (unfold d; lra).
    apply (Qmult_le_r _ _ d Dp) in G. setoid_replace (Qabs (k_pobj k - k_dobj k) / d * d) with (Qabs (k_pobj k - k_dobj k)) in G by (field; lra).
    pose proof (Qle_Qabs (k_pobj k - k_dobj k)). lra.
  Qed.
  Lemma infeasible_none l k x : lp_wf l -> inv l k -> all_bounded l -> lp_offset l <= 0 -> objective_upper l + 1 <= k_dobj k -> ~ lp_feasible l x.
  Proof. intros W Iv B O H Fx. pose proof (dual_valid0 l k x W Iv B Fx). pose proof (upper_bound l x W (proj1 Fx)). unfold lp_objective in *. lra. Qed.
End I.
