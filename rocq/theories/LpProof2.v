(** Proofs for C62 and C63: the trial steps and the search of the step size. *)
From Coq Require Import List ZArith QArith Qabs Bool Lia Lqa Sorting.Sorted Permutation.
From Verif Require Import ConstraintModel PresolveModel DuplicateModel DuplicateProof SparseModel SparseSpec SparseProof SparseProof2 SparseProof3 SparseProof4 LpModel LpSpec LpProof.
Import ListNotations.
Local Open Scope Q_scope.

Definition weightsum (l : lp) : Q := total (map (fun t => Qabs (snd t)) (entries (lp_A l))).
Lemma total_abs {A} (f : A -> Q) l : Qabs (total (map f l)) <= total (map (fun a => Qabs (f a)) l).
Proof. induction l as [|a l IH]; cbn [map total]; [apply Qle_refl|]. eapply Qle_trans; [apply Qabs_triangle|]. lra. Qed.
Lemma sq_nonneg (q : Q) : 0 <= q * q.
Proof. nra. Qed.
Lemma qmin_pos a b : 0 < a -> 0 < b -> 0 < qmin a b.
Proof. intros. unfold qmin. now destruct (Qlt_le_dec b a). Qed.
Lemma qmin_le a b : qmin a b <= a.
Proof. unfold qmin. destruct (Qlt_le_dec b a); lra. Qed.
Lemma mean_bound w a b : 0 < w -> Qabs (b * a) <= (1 # 2) * (w * (a * a) + 1 / w * (b * b)).
Proof.
  intros Hw. assert (V : w * (1 / w) == 1) by (field; lra). assert (Vp : 0 < 1 / w) by (apply Qlt_shift_div_l; lra). set (v := 1 / w) in *. clearbody v.
  assert (P : 0 <= v * ((w * a - b) * (w * a - b))) by (apply Qmult_le_0_compat; [lra|apply sq_nonneg]).
  assert (N : 0 <= v * ((w * a + b) * (w * a + b))) by (apply Qmult_le_0_compat; [lra|apply sq_nonneg]).
  assert (E1 : v * ((w * a - b) * (w * a - b)) == (w * v) * (w * (a * a)) - 2 * (w * v) * (a * b) + v * (b * b)) by ring.
  assert (E2 : v * ((w * a + b) * (w * a + b)) == (w * v) * (w * (a * a)) + 2 * (w * v) * (a * b) + v * (b * b)) by ring.
  rewrite E1, V in P. rewrite E2, V in N. apply Qabs_case; intros _; lra.
Qed.
Lemma square_at v i : (i < length v)%nat -> at_ v i * at_ v i <= square_sum v.
Proof. intros Hi. unfold square_sum. rewrite (inner_at v v (length v) eq_refl). apply (sum_term (length v) (fun i => at_ v i * at_ v i)); [intros j _; nra|exact Hi]. Qed.
Lemma square_nonneg v : 0 <= square_sum v.
Proof. unfold square_sum. rewrite (inner_at v v (length v) eq_refl). apply sum_nonneg. intros i _. nra. Qed.
Lemma weightsum_nonneg l : 0 <= weightsum l.
Proof. unfold weightsum. rewrite <- (total_zero (fun _ : nat * nat * Q => 0) (entries (lp_A l))) by reflexivity. apply total_le. intros. apply Qabs_nonneg. Qed.
Lemma interaction_bound l w dx dy : lp_wf l -> 0 < w -> length dx = lp_cols l -> length dy = lp_rows l ->
  Qabs (inner dy (m_mul (lp_A l) dx)) <= (1 # 2) * (w * square_sum dx + 1 / w * square_sum dy) * weightsum l.
Proof.
  intros W Hw Lx Ly. destruct (wf_dims l W) as (D1 & D2 & _).
  assert (E : inner dy (m_mul (lp_A l) dx) == form (entries (lp_A l)) (at_ dy) (at_ dx)).
  { rewrite (inner_at dy (m_mul (lp_A l) dx) (lp_rows l) Ly), <- (form_rows (entries (lp_A l)) (at_ dy) (at_ dx) (lp_rows l)).
    2: { intros t Ht. rewrite <- D1. apply (entry_range _ t (wf_good l W) Ht). }
    apply sum_ext. intros i Hi. rewrite (mul_A l dx i W Hi). reflexivity. }
  rewrite E. unfold form. eapply Qle_trans; [apply total_abs|]. set (s := (1 # 2) * (w * square_sum dx + 1 / w * square_sum dy)).
  unfold weightsum. rewrite <- (total_scale s (fun t => Qabs (snd t))). apply total_le. intros t Ht. rewrite Qabs_Qmult.
  destruct (entry_range _ t (wf_good l W) Ht) as (R1 & R2).
  assert (B : Qabs (at_ dy (row t) * at_ dx (col t)) <= s).
  { eapply Qle_trans; [apply (mean_bound w); exact Hw|]. unfold s. assert (Vp : 0 < 1 / w) by (apply Qlt_shift_div_l; lra).
    pose proof (square_at dx (col t) ltac:(lia)). pose proof (square_at dy (row t) ltac:(lia)). set (v := 1 / w) in *. clearbody v. nra. }
  pose proof (Qabs_nonneg (snd t)). nra.
Qed.

(** ** A trial *)
Record shape (l : lp) (k : core) : Prop := mkShape {
  sh_x : within l (k_x k); sh_y : signs l (k_y k); sh_w : 0 < k_weight k }.
Lemma nth_map_some v j n : length v = n -> (j < n)%nat -> nth j (map (@Some Q) v) None = Some (nth j v 0).
Proof. intros L Hj. rewrite (nth_indep _ None (Some 0)) by (rewrite map_length; lia). apply map_nth. Qed.
Lemma clamp1_within a b q : a <= b -> a <= clamp1 (Some a) (Some b) q <= b.
Proof. intros H. unfold clamp1. destruct (Qlt_le_dec q a); [lra|]. destruct (Qlt_le_dec b q); lra. Qed.
Lemma trial_spec l k lhs t x y limit : lp_wf l -> shape l k -> length lhs = lp_cols l -> trial l k lhs t = (x, y, limit) ->
  within l x /\ signs l y /\ match limit with Some q => 0 < q /\ 0 < weightsum l /\ 1 <= q * weightsum l | None => True end.
Proof.
  intros W [[Lx Bx] [Ly Sy] Hw] Ll E. unfold trial in E. destruct (wf_cols l W) as (C1 & C2 & C3 & C4 & C5 & C6). destruct (wf_rows l W) as (R1 & R2 & R3 & R4). destruct (wf_signs l W) as (G1 & G2 & G3).
  set (xx := clamp (lin3 1 (k_x k) (- (t / k_weight k)) (lp_c l) (t / k_weight k) lhs) (map Some (lp_lo l)) (map Some (lp_hi l))) in *.
  set (yy := clamp (lin3 1 (k_y k) (t * k_weight k) (lp_b l) (- (t * k_weight k)) (m_mul (lp_A l) (lin2 2 xx (-(1)) (k_x k)))) (lp_dlo l) (lp_dhi l)) in *.
  assert (X : x = xx) by congruence. assert (Y : y = yy) by congruence.
  assert (Lxx : length xx = lp_cols l). { unfold xx. apply clamp_length; rewrite ?map_length; try assumption. now apply lin3_length. }
  assert (Lyy : length yy = lp_rows l). { unfold yy. apply clamp_length; try assumption. apply lin3_length; [assumption|assumption|now apply mul_A_length]. }
  assert (Wx : within l xx).
  { split; [exact Lxx|]. intros j Hj. change (nth j xx 0) with (at_ xx j). unfold xx. rewrite (clamp_at _ _ _ (lp_cols l) j); rewrite ?map_length; try assumption; [|now apply lin3_length].
    rewrite (nth_map_some _ j (lp_cols l) C2 Hj), (nth_map_some _ j (lp_cols l) C3 Hj). apply clamp1_within. now apply (wf_order l W). }
  assert (Wy : signs l yy).
  { split; [exact Lyy|]. intros i Hi. change (nth i yy 0) with (at_ yy i). unfold yy. rewrite (clamp_at _ _ _ (lp_rows l) i); try assumption; [|apply lin3_length; [assumption|assumption|now apply mul_A_length]].
    assert (Z : nth i (lp_dhi l) None = None) by (apply G2, nth_In; lia). rewrite Z. pose proof (G1 (nth i (lp_dlo l) None) ltac:(apply nth_In; lia)) as Z0.
    revert Z0. destruct (nth i (lp_dlo l) None) as [q|]; intros Z0; [|exact Logic.I]. unfold clamp1. cbn [zero_or_free] in Z0. match goal with |- context [Qlt_le_dec ?a q] => destruct (Qlt_le_dec a q) end; lra. }
  rewrite X, Y. split; [exact Wx|]. split; [exact Wy|].
  pose proof (interaction_bound l (k_weight k) (lin2 1 xx (-(1)) (k_x k)) (lin2 1 yy (-(1)) (k_y k)) W Hw (lin2_length _ _ _ _ _ Lxx Lx) (lin2_length _ _ _ _ _ Lyy Ly)) as IB.
  set (inter := Qabs (inner (lin2 1 yy (-(1)) (k_y k)) (m_mul (lp_A l) (lin2 1 xx (-(1)) (k_x k))))) in *.
  set (mv := (1 # 2) * (k_weight k * square_sum (lin2 1 xx (-(1)) (k_x k)) + 1 / k_weight k * square_sum (lin2 1 yy (-(1)) (k_y k)))) in *.
  assert (El : limit = if Qlt_le_dec EPS inter then Some (mv / inter) else None) by congruence. rewrite El. destruct (Qlt_le_dec EPS inter) as [Hi|_]; [|exact Logic.I].
  assert (Ip : 0 < inter) by (unfold EPS in Hi; lra). pose proof (weightsum_nonneg l) as Wn.
  assert (Wp : 0 < weightsum l). { destruct (Qlt_le_dec 0 (weightsum l)); [assumption|]. assert (weightsum l == 0) by lra. nra. }
  assert (Mp : 0 < mv). { destruct (Qlt_le_dec 0 mv); [assumption|]. nra. }
  split; [apply Qlt_shift_div_l; lra|]. split; [exact Wp|]. apply (Qmult_le_r _ _ inter Ip). setoid_replace (mv / inter * weightsum l * inter) with (mv * weightsum l) by (field; lra). lra.
Qed.

(** ** The search of the step size *)
Section S.
  Variables red ext : nat -> Q.
  Hypothesis P : powers red ext.
  Lemma step_loop_spec l k lhs : lp_wf l -> shape l k -> length lhs = lp_cols l -> forall trials n t k', 0 < t -> step_loop red ext trials l k lhs n t = Some k' ->
    exists x y step t', k' = mkCore x y (k_xa k) (k_ya k) step t' (k_sum k) (k_weight k) (k_attempts k') (k_inner k) (k_outer k) (k_total k) (k_rc k) (k_pobj k) (k_dobj k) (k_pviol k) (k_dviol k) (k_gap k) /\
      within l x /\ signs l y /\ 0 < step /\ 0 < t' /\ (n < k_attempts k')%nat.
  Proof.
    intros W Sh Ll trials. induction trials as [|trials IH]; intros n t k' Ht E; [discriminate|].
    cbn [step_loop] in E. destruct (trial l k lhs t) as [[x y] limit] eqn:T. destruct (trial_spec l k lhs t x y limit W Sh Ll T) as (Wx & Wy & Q).
    destruct (P (S n) ltac:(lia)) as ((P1 & P2) & P3).
    set (cand := match limit with Some q => qmin ((1 - red (S n)) * q) ((1 + ext (S n)) * t) | None => (1 + ext (S n)) * t end) in *.
    assert (Cp : 0 < cand). { unfold cand. destruct limit as [q|]; [|apply Qmult_lt_0_compat; lra]. destruct Q as (Q & _). apply qmin_pos; apply Qmult_lt_0_compat; lra. }
    match type of E with (if ?b then _ else _) = _ => destruct b end.
    - inversion E; subst k'. exists x, y, cand, t. cbn [k_attempts]. repeat (split; [assumption || reflexivity|]). lia.
    - destruct (IH (S n) cand k' Cp E) as (x' & y' & s' & t' & E' & A & B & C & D & F). exists x', y', s', t'. repeat (split; [assumption|]). lia.
  Qed.
  (** ** It ends *)
  Local Notation shrink := (shrink red).
  Lemma shrink_pos m : forall n, 0 < shrink n m.
  Proof. induction m as [|m IH]; intros n; cbn [LpSpec.shrink]; [lra|]. destruct (P (S n) ltac:(lia)) as ((P1 & P2) & P3). specialize (IH (S n)). apply Qmult_lt_0_compat; lra. Qed.
  Lemma step_loop_ends l k lhs : lp_wf l -> shape l k -> length lhs = lp_cols l -> forall trials n t, 0 < t -> shrink n trials * t * weightsum l < 1 ->
    exists k', step_loop red ext (S trials) l k lhs n t = Some k'.
  Proof.
    intros W Sh Ll trials. induction trials as [|trials IH]; intros n t Ht Hs; remember (S trials) as st eqn:Est || idtac.
    - cbn [step_loop]. destruct (trial l k lhs t) as [[x y] limit] eqn:T. destruct (trial_spec l k lhs t x y limit W Sh Ll T) as (_ & _ & Q).
      destruct limit as [q|]; [|eexists; reflexivity]. destruct Q as (Q1 & Q2 & Q3). cbn [LpSpec.shrink] in Hs. destruct (Qlt_le_dec t q); [eexists; reflexivity|]. exfalso. nra.
    - subst st. set (st := S trials) in *. cbn [step_loop]. destruct (trial l k lhs t) as [[x y] limit] eqn:T. destruct (trial_spec l k lhs t x y limit W Sh Ll T) as (_ & _ & Q).
      destruct (P (S n) ltac:(lia)) as ((P1 & P2) & P3). destruct limit as [q|]; [|eexists; reflexivity]. destruct Q as (Q1 & Q2 & Q3). destruct (Qlt_le_dec t q); [eexists; reflexivity|].
      unfold st. apply IH.
      + apply qmin_pos; apply Qmult_lt_0_compat; lra.
      + unfold st in Hs. cbn [LpSpec.shrink] in Hs. pose proof (shrink_pos trials (S n)) as Sp. assert (C : qmin ((1 - red (S n)) * q) ((1 + ext (S n)) * t) <= (1 - red (S n)) * t). { eapply Qle_trans; [apply qmin_le|]. nra. }
        eapply Qle_lt_trans; [|exact Hs]. set (cc := qmin _ _) in *. clearbody cc. set (s := shrink (S n) trials) in *. clearbody s.
        assert (s * cc <= s * ((1 - red (S n)) * t)) by nra. assert ((1 - red (S n)) * s * t == s * ((1 - red (S n)) * t)) by ring. nra.
  Qed.
End S.
