(** Proofs for C62 and C63: scaling. *)
From Coq Require Import List ZArith QArith Qabs Bool Lia Lqa Sorting.Sorted Permutation.
From Verif Require Import ConstraintModel PresolveModel DuplicateModel DuplicateProof SparseModel SparseSpec SparseProof SparseProof2 SparseProof3 SparseProof4 LpModel LpSpec LpProof.
Import ListNotations.
Local Open Scope Q_scope.

Lemma scaling_run_good sq k (pc : bool) m : (forall q, 0 < q -> 0 < sq q) -> good m -> (0 < mt_ncols m)%nat -> positive (mt_row_scaler m) -> positive (mt_col_scaler m) ->
  exists m1 m', ruiz sq k m = Ok m1 /\ (if pc then pock_chambolle sq m1 else Ok m1) = Ok m' /\ scaled m m'.
Proof.
  intros Hs Gd P P1 P2. destruct (ruiz_spec sq k Hs (repeat 1 (mt_nrows m)) (repeat 1 (mt_ncols m)) m) as (m1 & E1 & Sc1); try apply repeat_length; try assumption.
  pose proof Sc1 as (Sh & Q1 & Q2 & _). exists m1. destruct pc.
  - destruct (pock_spec sq m1 Hs) as (m2 & E2 & Sc2); auto.
    + now apply (same_good m).
    + destruct Sh as (_ & _ & _ & _ & S5 & _). now rewrite S5.
    + exists m2. split; [exact E1|]. split; [exact E2|]. now apply (scaled_trans m m1 m2).
  - exists m1. auto.
Qed.
Lemma inverse_at d i : (i < length d)%nat -> at_ (inverse d) i = 1 / at_ d i.
Proof. intros Hi. unfold inverse, at_. rewrite (nth_indep _ 0 (1 / 0)) by (now rewrite map_length). apply (map_nth (fun q => 1 / q)). Qed.
Lemma inverse_length d : length (inverse d) = length d.
Proof. apply map_length. Qed.
Lemma scale_opt_at d v i n : length v = n -> length d = n -> (i < n)%nat -> nth i (scale_opt d v) None = option_map (fun q => q * at_ d i) (nth i v None).
Proof. intros L1 L2 Hi. unfold scale_opt. rewrite (combine_seq v d None 0 n L1 L2), map_map. rewrite nth_map_seq by exact Hi. reflexivity. Qed.
Lemma scale_opt_length d v n : length v = n -> length d = n -> length (scale_opt d v) = n.
Proof. intros. unfold scale_opt. rewrite map_length. now apply combine_length2. Qed.

Theorem scaling_spec sq k pc l l' : (forall q, 0 < q -> 0 < sq q) -> lp_wf l -> mt_row_scaler (lp_A l) = repeat 1 (lp_rows l) -> mt_col_scaler (lp_A l) = repeat 1 (lp_cols l) ->
  lp_scaling sq k pc l = Ok l' ->
  lp_wf l' /\ lp_rows l' = lp_rows l /\ lp_cols l' = lp_cols l /\ lp_offset l' = lp_offset l /\ lp_lo_open l' = lp_lo_open l /\ lp_hi_open l' = lp_hi_open l /\
  length (mt_col_scaler (lp_A l')) = lp_cols l /\ positive (mt_col_scaler (lp_A l')) /\
  forall x, lp_feasible l x -> lp_feasible l' (scale (mt_col_scaler (lp_A l')) x) /\ lp_objective l' (scale (mt_col_scaler (lp_A l')) x) == lp_objective l x.
Proof.
  intros Hs W O1 O2 E. pose proof (wf_good l W) as Gd. destruct (wf_pos l W) as (Pc & Pr). destruct (wf_dims l W) as (D1 & D2 & D3 & D4).
  destruct (scaling_run_good sq k pc (lp_A l) Hs Gd) as (m1 & m & E1 & E2 & Sc); [lia|rewrite O1; apply ones_pos|rewrite O2; apply ones_pos|].
  unfold lp_scaling in E. rewrite E1 in E. cbn [bind] in E. rewrite E2 in E. cbn [bind] in E. destruct (m_transpose m) as [mt| |] eqn:E3; try discriminate. cbn [bind] in E. inversion E; subst l'. clear E. cbn [lp_A lp_rows lp_cols lp_offset lp_lo_open lp_hi_open].
  pose proof Sc as ((S1 & S2 & S3 & S4 & S5 & S6 & S7 & S8) & P1 & P2 & Rep).
  set (r := mt_row_scaler m) in *. set (c := mt_col_scaler m) in *.
  assert (Lr : length r = lp_rows l) by congruence. assert (Lc : length c = lp_cols l) by congruence.
  destruct (wf_cols l W) as (C1 & C2 & C3 & C4 & C5 & C6). destruct (wf_rows l W) as (R1 & R2 & R3 & R4). destruct (wf_signs l W) as (G1 & G2 & G3).
  assert (Ac : forall j, (j < lp_cols l)%nat -> 0 < at_ c j) by (intros j Hj; apply at_pos; [exact P2|lia]).
  assert (Ar : forall j, (j < lp_rows l)%nat -> 0 < at_ r j) by (intros j Hj; apply at_pos; [exact P1|lia]).
  assert (Ent : forall i j, (i < lp_rows l)%nat -> (j < lp_cols l)%nat -> coefficient m i j * at_ c j == coefficient (lp_A l) i j * (1 / at_ r i)).
  { intros i j Hi Hj. specialize (Rep i j ltac:(lia) ltac:(lia)). unfold rep in Rep. rewrite O1, O2 in Rep. fold r c in Rep. rewrite !coef_ent.
    assert (U1 : at_ (repeat 1 (lp_rows l)) i = 1) by (unfold at_; rewrite (nth_indep _ 0 1) by (now rewrite repeat_length); apply nth_repeat).
    assert (U2 : at_ (repeat 1 (lp_cols l)) j = 1) by (unfold at_; rewrite (nth_indep _ 0 1) by (now rewrite repeat_length); apply nth_repeat).
    rewrite U1, U2 in Rep. specialize (Ar i Hi). specialize (Ac j Hj).
    assert (X : ent (entries m) i j * at_ c j * at_ r i == ent (entries (lp_A l)) i j) by (rewrite <- (Qmult_1_r (ent (entries (lp_A l)) i j)); setoid_replace 1 with (1 * 1) by reflexivity; rewrite <- Rep; ring).
    rewrite <- X. field. lra. }
  assert (Wm : exists m0, Ok m0 = m_setup [] (mt_values m) (mt_rows m) (mt_cols m) (lp_rows l) (lp_cols l) /\ mt_ptrs m0 = mt_ptrs m).
  { destruct (wf_A l W) as (m0 & F & Fp). rewrite S1, S2, S3. destruct (setup_spec _ _ _ _ _ _ _ (eq_sym F)) as (L1 & L2 & A & B & _ & _ & _ & Fp' & _).
    destruct (setup_ok [] (mt_values m) (mt_rows (lp_A l)) (mt_cols (lp_A l)) (lp_rows l) (lp_cols l)) as (m2 & F2); try congruence; try assumption.
    exists m2. split; [now symmetry|]. destruct (setup_spec _ _ _ _ _ _ _ F2) as (_ & _ & _ & _ & _ & _ & _ & Fp2 & _). congruence. }
  assert (W' : lp_wf (mkLp (lp_rows l) (lp_cols l) (lp_offset l) (scale (inverse c) (lp_c l)) (scale c (lp_lo l)) (scale c (lp_hi l)) (scale c (lp_x0 l)) m
        (lp_lo_open l) (lp_hi_open l) (scale (inverse r) (lp_b l)) (scale_opt r (lp_dlo l)) (scale_opt r (lp_dhi l)) (scale r (lp_y0 l)) mt (lp_less l) (lp_greater l))).
  { constructor; cbn [lp_rows lp_cols lp_A lp_At lp_c lp_lo lp_hi lp_x0 lp_lo_open lp_hi_open lp_b lp_dlo lp_dhi lp_y0 lp_less lp_greater].
    - exact Wm.
    - rewrite S1. apply (wf_sorted l W).
    - split; [congruence|]. split; [congruence|]. split; [exact Lr|exact Lc].
    - exact E3.
    - rewrite !scale_length by (rewrite ?inverse_length; congruence). repeat split; assumption.
    - rewrite !scale_length by (rewrite ?inverse_length; congruence). rewrite !(scale_opt_length r _ (lp_rows l)) by congruence. repeat split; assumption.
    - intros j Hj. pose proof (wf_order l W j Hj) as H. change (at_ (scale c (lp_lo l)) j <= at_ (scale c (lp_hi l)) j). rewrite !scale_at by congruence. specialize (Ac j Hj). unfold at_ in *. nra.
    - intros j Hj. pose proof (wf_start l W j Hj) as H. change (at_ (scale c (lp_lo l)) j <= at_ (scale c (lp_x0 l)) j <= at_ (scale c (lp_hi l)) j). rewrite !scale_at by congruence. specialize (Ac j Hj). unfold at_ in *. split; nra.
    - intros i Hi. rewrite (scale_opt_at r (lp_dlo l) i (lp_rows l)) by assumption. rewrite <- (wf_ranges l W i Hi). destruct (nth i (lp_dlo l) None); cbn; split; congruence.
    - split; [|split].
      + intros q Hq. unfold scale_opt in Hq. apply in_map_iff in Hq as ((a & b) & <- & Hq). cbn [fst snd]. apply in_combine_l in Hq. specialize (G1 a Hq). destruct a as [a|]; cbn in *; [rewrite G1; ring|exact Logic.I].
      + intros q Hq. unfold scale_opt in Hq. apply in_map_iff in Hq as ((a & b) & <- & Hq). cbn [fst snd]. apply in_combine_l in Hq. now rewrite (G2 a Hq).
      + intros q Hq. unfold scale in Hq. apply in_map_iff in Hq as ((a & b) & <- & Hq). cbn [fst snd]. apply in_combine_l in Hq. rewrite (G3 a Hq). ring. }
  repeat (split; [assumption || reflexivity|]). intros x [[Lx Bx] Rx]. split; [split|].
  - split; cbn [lp_cols lp_lo lp_hi]; [rewrite scale_length; congruence|]. intros j Hj. specialize (Bx j Hj). change (at_ (scale c (lp_lo l)) j <= at_ (scale c x) j <= at_ (scale c (lp_hi l)) j). rewrite !scale_at by congruence. specialize (Ac j Hj). unfold at_ in *. split; nra.
  - intros i Hi. cbn [lp_rows lp_b lp_dlo] in *. specialize (Rx i Hi). rewrite (scale_opt_at r (lp_dlo l) i (lp_rows l)) by assumption.
    assert (EL : lhs (mkLp (lp_rows l) (lp_cols l) (lp_offset l) (scale (inverse c) (lp_c l)) (scale c (lp_lo l)) (scale c (lp_hi l)) (scale c (lp_x0 l)) m
        (lp_lo_open l) (lp_hi_open l) (scale (inverse r) (lp_b l)) (scale_opt r (lp_dlo l)) (scale_opt r (lp_dhi l)) (scale r (lp_y0 l)) mt (lp_less l) (lp_greater l)) (scale c x) i == (1 / at_ r i) * lhs l x i).
    { unfold lhs. cbn [lp_cols lp_A]. rewrite <- sum_scale. apply sum_ext. intros j Hj. change (nth j (scale c x) 0) with (at_ (scale c x) j). rewrite scale_at by congruence. rewrite (Qmult_comm (at_ x j)), Qmult_assoc, (Ent i j Hi Hj). unfold at_ at 2. ring. }
    assert (EB : nth i (scale (inverse r) (lp_b l)) 0 == (1 / at_ r i) * nth i (lp_b l) 0).
    { change (at_ (scale (inverse r) (lp_b l)) i == (1 / at_ r i) * nth i (lp_b l) 0). rewrite scale_at by (rewrite inverse_length; congruence). rewrite inverse_at by lia. unfold at_ at 1. ring. }
    assert (Ip : 0 < 1 / at_ r i) by (specialize (Ar i Hi); apply Qlt_shift_div_l; lra).
    destruct (nth i (lp_dlo l) None); cbn [option_map]; rewrite EL, EB; [nra|]. rewrite Rx. reflexivity.
  - unfold lp_objective. cbn [lp_cols lp_c lp_offset]. apply Qplus_inj_r. apply sum_ext. intros j Hj. change (at_ (scale (inverse c) (lp_c l)) j * at_ (scale c x) j == at_ (lp_c l) j * at_ x j).
    rewrite !scale_at by (rewrite ?inverse_length; congruence). rewrite inverse_at by lia. specialize (Ac j Hj). field. lra.
Qed.
