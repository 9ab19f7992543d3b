(** Proofs for C62: vectors by components, weak duality. *)
From Coq Require Import List ZArith QArith Qabs Bool Lia Lqa Sorting.Sorted Permutation.
From Verif Require Import ConstraintModel PresolveModel DuplicateModel DuplicateProof SparseModel SparseSpec SparseProof SparseProof2 SparseProof3 SparseProof4 LpModel LpSpec.
Import ListNotations.
Local Open Scope Q_scope.

(** ** Vectors by components *)
Lemma combine_seq {A B} (a : list A) (b : list B) da db n : length a = n -> length b = n -> combine a b = map (fun i => (nth i a da, nth i b db)) (seq 0 n).
Proof.
  intros La Lb. rewrite <- (map_nth_seq a da) at 1. rewrite <- (map_nth_seq b db) at 1. rewrite La, Lb. clear. generalize (seq 0 n) as l. intros l.
  induction l as [|i l IH]; cbn; [reflexivity|]. now rewrite IH.
Qed.
Lemma nth_map_seq {A} (f : nat -> A) n i d : (i < n)%nat -> nth i (map f (seq 0 n)) d = f i.
Proof. intros Hi. rewrite (nth_indep _ d (f O)) by (now rewrite map_length, seq_length). rewrite map_nth, seq_nth by exact Hi. reflexivity. Qed.
Lemma combine_length2 {A B} (a : list A) (b : list B) n : length a = n -> length b = n -> length (combine a b) = n.
Proof. intros. rewrite combine_length. lia. Qed.
Lemma lin2_at a x b y n i : length x = n -> length y = n -> (i < n)%nat -> at_ (lin2 a x b y) i = a * at_ x i + b * at_ y i.
Proof. intros Lx Ly Hi. unfold lin2. rewrite (combine_seq x y 0 0 n Lx Ly), map_map. unfold at_ at 1. now rewrite nth_map_seq. Qed.
Lemma lin2_length a x b y n : length x = n -> length y = n -> length (lin2 a x b y) = n.
Proof. intros. unfold lin2. rewrite map_length. now apply combine_length2. Qed.
Lemma lin3_at a x b y c z n i : length x = n -> length y = n -> length z = n -> (i < n)%nat -> at_ (lin3 a x b y c z) i = a * at_ x i + b * at_ y i + c * at_ z i.
Proof.
  intros Lx Ly Lz Hi. unfold lin3. rewrite (combine_seq (combine x y) z (0, 0) 0 n (combine_length2 _ _ _ Lx Ly) Lz), map_map. unfold at_ at 1. rewrite nth_map_seq by exact Hi. cbn [fst snd].
  rewrite combine_nth by congruence. reflexivity.
Qed.
Lemma lin3_length a x b y c z n : length x = n -> length y = n -> length z = n -> length (lin3 a x b y c z) = n.
Proof. intros. unfold lin3. rewrite map_length. apply combine_length2; [now apply combine_length2|assumption]. Qed.
Lemma clamp_at v lo hi n i : length v = n -> length lo = n -> length hi = n -> (i < n)%nat -> at_ (clamp v lo hi) i = clamp1 (nth i lo None) (nth i hi None) (at_ v i).
Proof.
  intros Lx Ly Lz Hi. unfold clamp. rewrite (combine_seq (combine v lo) hi (0, None) None n (combine_length2 _ _ _ Lx Ly) Lz), map_map. unfold at_ at 1. rewrite nth_map_seq by exact Hi. cbn [fst snd].
  rewrite combine_nth by congruence. reflexivity.
Qed.
Lemma clamp_length v lo hi n : length v = n -> length lo = n -> length hi = n -> length (clamp v lo hi) = n.
Proof. intros. unfold clamp. rewrite map_length. apply combine_length2; [now apply combine_length2|assumption]. Qed.
Lemma learn_at v w r n i : length v = n -> length w = n -> (i < n)%nat -> at_ (learn v w r) i = (1 - r) * at_ v i + r * at_ w i.
Proof. intros. unfold learn. now apply (lin2_at _ _ _ _ n). Qed.
Lemma inner_at a b n : length a = n -> inner a b == sum_below n (fun i => at_ a i * at_ b i).
Proof. intros L. rewrite inner_sum, L. reflexivity. Qed.
Lemma fold_combine {A B} (g : A * B -> Q) a b da db n : length a = n -> length b = n -> fold_left (fun q p => q + g p) (combine a b) 0 == sum_below n (fun i => g (nth i a da, nth i b db)).
Proof. intros La Lb. rewrite fold_total, (combine_seq a b da db n La Lb), map_map. unfold sum_below. ring. Qed.
Lemma sum_le n f g : (forall i, (i < n)%nat -> f i <= g i) -> sum_below n f <= sum_below n g.
Proof. intros H. apply total_le. intros i Hi. apply in_seq in Hi. apply H. lia. Qed.
Lemma sum_plus n f g : sum_below n (fun i => f i + g i) == sum_below n f + sum_below n g.
Proof. apply total_plus. Qed.
Lemma sum_scale n k f : sum_below n (fun i => k * f i) == k * sum_below n f.
Proof. apply total_scale. Qed.
Lemma sum_minus n f g : sum_below n (fun i => f i - g i) == sum_below n f - sum_below n g.
Proof. unfold Qminus. rewrite sum_plus. assert (E : sum_below n (fun i => - g i) == - sum_below n g). { rewrite (sum_ext n (fun i => - g i) (fun i => (-(1)) * g i)) by (intros; ring). rewrite sum_scale. ring. } now rewrite E. Qed.
Lemma sum_zero n f : (forall i, (i < n)%nat -> f i == 0) -> sum_below n f == 0.
Proof. intros H. apply total_zero. intros i Hi. apply in_seq in Hi. apply H. lia. Qed.
Lemma sum_nonneg n f : (forall i, (i < n)%nat -> 0 <= f i) -> 0 <= sum_below n f.
Proof. intros H. rewrite <- (sum_zero n (fun _ => 0)) by reflexivity. apply sum_le. exact H. Qed.
Lemma sum_term n f i : (forall i, (i < n)%nat -> 0 <= f i) -> (i < n)%nat -> f i <= sum_below n f.
Proof.
  intros H Hi. rewrite <- (Qmult_1_r (f i)) at 1. rewrite <- (sum_delta n i (f i) (fun _ => 1) Hi). apply sum_le. intros j Hj. destruct (Nat.eqb_spec i j) as [->|]; [lra|]. specialize (H j Hj). lra.
Qed.
Lemma at_In v i : (i < length v)%nat -> In (at_ v i) v.
Proof. apply nth_In. Qed.

(** ** Linear programs *)
Lemma wf_good l : lp_wf l -> good (lp_A l).
Proof.
  intros W. destruct (wf_A l W) as (m & E & P). pose proof (setup_good _ _ _ _ _ _ (eq_sym E) (wf_sorted l W)) as Gm. destruct (setup_spec _ _ _ _ _ _ _ (eq_sym E)) as (L1 & L2 & R & C & E1 & E2 & E3 & E4 & E5 & E6 & _).
  destruct (wf_dims l W) as (D1 & D2 & D3 & D4). destruct Gm as (_ & _ & _ & _ & _ & G & _). rewrite E5, E2, P in G.
  unfold good. rewrite D1, D2. repeat (split; [assumption|]). split; [exact (wf_sorted l W)|]. split; [exact G|]. split; assumption.
Qed.
Lemma wf_pos l : lp_wf l -> (0 < lp_cols l)%nat /\ (0 < lp_rows l)%nat.
Proof.
  intros W. destruct (wf_A l W) as (m & E & P). split; [eapply setup_columns; symmetry; exact E|]. pose proof (wf_At l W) as T. unfold m_transpose in T. apply setup_columns in T. destruct (wf_dims l W) as (D1 & _). lia.
Qed.
Lemma wf_trans l : lp_wf l -> good (lp_At l) /\ mt_nrows (lp_At l) = lp_cols l /\ mt_ncols (lp_At l) = lp_rows l /\ Permutation (entries (lp_At l)) (map (fun t => (col t, row t, snd t)) (entries (lp_A l))).
Proof.
  intros W. pose proof (wf_good l W) as Gd. destruct (wf_dims l W) as (D1 & D2 & _). destruct (transpose_spec (lp_A l) (good_sane _ Gd)) as (mt & E & Gt & E1 & E2 & Pm); [rewrite D1; apply (wf_pos l W)|].
  assert (mt = lp_At l) by (pose proof (wf_At l W); congruence). subst mt. split; [exact Gt|]. split; [congruence|]. split; [congruence|exact Pm].
Qed.
Definition ax (l : lp) (x : vec) (i : nat) : Q := row_sum (entries (lp_A l)) (at_ x) i.
Definition aty (l : lp) (y : vec) (j : nat) : Q := row_sum (entries (lp_At l)) (at_ y) j.
Lemma lhs_ax l x i : lp_wf l -> lhs l x i == ax l x i.
Proof.
  intros W. unfold lhs, ax. rewrite (row_sum_dense _ _ _ (lp_cols l)). 2: { intros t Ht. destruct (wf_dims l W) as (_ & D2 & _). rewrite <- D2. apply (entry_range _ t (wf_good l W) Ht). }
  apply sum_ext. intros j _. rewrite coef_ent. reflexivity.
Qed.
Lemma adjoint l x y : lp_wf l -> sum_below (lp_rows l) (fun i => at_ y i * ax l x i) == sum_below (lp_cols l) (fun j => at_ x j * aty l y j).
Proof.
  intros W. unfold ax, aty. destruct (wf_trans l W) as (Gt & T1 & T2 & Pm). destruct (wf_dims l W) as (D1 & D2 & _).
  rewrite (form_rows (entries (lp_A l)) (at_ y) (at_ x)). 2: { intros t Ht. rewrite <- D1. apply (entry_range _ t (wf_good l W) Ht). }
  rewrite (form_rows (entries (lp_At l)) (at_ x) (at_ y)). 2: { intros t Ht. rewrite <- T1. apply (entry_range _ t Gt Ht). }
  rewrite (form_perm _ _ _ _ Pm). symmetry. apply form_swap.
Qed.
Lemma mul_A l x i : lp_wf l -> (i < lp_rows l)%nat -> at_ (m_mul (lp_A l) x) i == ax l x i.
Proof.
  intros W Hi. destruct (wf_dims l W) as (D1 & _). unfold m_mul. unfold at_ at 1. rewrite nth_seq_map by congruence.
  rewrite (row_loop (lp_A l) i (fun c v => v * at_ x c) 0 (wf_good l W)) by congruence. unfold ax, row_sum. ring.
Qed.
Lemma mul_A_length l x : lp_wf l -> length (m_mul (lp_A l) x) = lp_rows l.
Proof. intros W. destruct (wf_dims l W) as (D1 & _). unfold m_mul. now rewrite map_length, seq_length. Qed.
Lemma mul_At_length l x : lp_wf l -> length (m_mul (lp_At l) x) = lp_cols l.
Proof. intros W. destruct (wf_trans l W) as (_ & D1 & _). unfold m_mul. now rewrite map_length, seq_length. Qed.

Lemma reduced_at l ya j : lp_wf l -> (j < lp_cols l)%nat ->
  exists q, at_ (reduced l ya) j = clip (nth j (lp_hi_open l) false) (nth j (lp_lo_open l) false) q /\ q == at_ (lp_c l) j - aty l ya j.
Proof.
  intros W Hj. destruct (wf_cols l W) as (C1 & C2 & C3 & C4 & C5 & C6). destruct (wf_trans l W) as (Gt & T1 & T2 & _).
  exists (at_ (m_lin2 (-(1)) (lp_At l) ya 1 (lp_c l)) j). split.
  - unfold reduced. assert (Lm : length (m_lin2 (-(1)) (lp_At l) ya 1 (lp_c l)) = lp_cols l) by (unfold m_lin2; now rewrite map_length, seq_length).
    rewrite (combine_seq _ (combine (lp_lo_open l) (lp_hi_open l)) 0 (false, false) (lp_cols l) Lm (combine_length2 _ _ _ C5 C6)), map_map. unfold at_ at 1. rewrite nth_map_seq by exact Hj. cbn [fst snd].
    rewrite combine_nth by congruence. reflexivity.
  - rewrite (lin2_good _ (lp_At l) ya 1 (lp_c l) j Gt) by congruence. unfold aty. ring.
Qed.
Lemma reduced_length l ya : lp_wf l -> length (reduced l ya) = lp_cols l.
Proof.
  intros W. destruct (wf_cols l W) as (C1 & C2 & C3 & C4 & C5 & C6). destruct (wf_trans l W) as (Gt & T1 & T2 & _). unfold reduced. rewrite map_length. apply combine_length2; [unfold m_lin2; now rewrite map_length, seq_length|now apply combine_length2].
Qed.
Lemma reduced_cost_le l rc x : lp_wf l -> length rc = lp_cols l -> within l x -> reduced_cost l rc <= sum_below (lp_cols l) (fun j => at_ rc j * at_ x j).
Proof.
  intros W L [_ B]. destruct (wf_cols l W) as (C1 & C2 & C3 & _). unfold reduced_cost.
  rewrite (fold_combine (fun p => fst p * (if Qlt_le_dec 0 (fst p) then fst (snd p) else snd (snd p))) rc (combine (lp_lo l) (lp_hi l)) 0 (0, 0) (lp_cols l) L (combine_length2 _ _ _ C2 C3)).
  apply sum_le. intros j Hj. cbn [fst snd]. rewrite combine_nth by congruence. cbn [fst snd]. specialize (B j Hj). change (nth j rc 0) with (at_ rc j). change (nth j x 0) with (at_ x j) in B. destruct (Qlt_le_dec 0 (at_ rc j)); nra.
Qed.
(** The excess of the reduced costs over the clipped ones. *)
Definition slack (l : lp) (ya : vec) (j : nat) : Q := at_ (lp_c l) j - aty l ya j - at_ (reduced l ya) j.
Lemma clip_closed q : clip false false q = q.
Proof. reflexivity. Qed.
Lemma slack_bounded l ya j : lp_wf l -> (j < lp_cols l)%nat -> nth j (lp_lo_open l) false = false -> nth j (lp_hi_open l) false = false -> slack l ya j == 0.
Proof. intros W Hj A B. unfold slack. destruct (reduced_at l ya j W Hj) as (q & E & Q). rewrite E, A, B, clip_closed, Q. ring. Qed.
Definition dual_value (l : lp) (ya : vec) : Q := inner ya (lp_b l) + reduced_cost l (reduced l ya) + lp_offset l.
Theorem weak_duality l ya x : lp_wf l -> signs l ya -> lp_feasible l x -> dual_value l ya <= lp_objective l x - sum_below (lp_cols l) (fun j => slack l ya j * at_ x j).
Proof.
  intros W [Ly S] [B R]. unfold dual_value, lp_objective. destruct (wf_rows l W) as (R1 & R2 & _).
  rewrite (inner_at ya (lp_b l) (lp_rows l) Ly).
  pose proof (reduced_cost_le l (reduced l ya) x W (reduced_length l ya W) B) as RC.
  assert (Y : sum_below (lp_rows l) (fun i => at_ ya i * at_ (lp_b l) i) <= sum_below (lp_rows l) (fun i => at_ ya i * ax l x i)).
  { apply sum_le. intros i Hi. specialize (S i Hi). specialize (R i Hi). pose proof (lhs_ax l x i W) as EL. change (nth i (lp_b l) 0) with (at_ (lp_b l) i) in R. change (nth i ya 0) with (at_ ya i) in S.
    revert S R. destruct (nth i (lp_dlo l) None); intros S R; [rewrite EL in R; nra|]. rewrite EL in R. rewrite R. apply Qle_refl. }
  rewrite (adjoint l x ya W) in Y.
  assert (E : sum_below (lp_cols l) (fun j => slack l ya j * at_ x j) == sum_below (lp_cols l) (fun j => nth j (lp_c l) 0 * nth j x 0) - sum_below (lp_cols l) (fun j => at_ x j * aty l ya j) - sum_below (lp_cols l) (fun j => at_ (reduced l ya) j * at_ x j)).
  { rewrite <- !sum_minus. apply sum_ext. intros j _. unfold slack, at_. ring. }
  rewrite E. lra.
Qed.
