(** The statements of C61. *)
From Coq Require Import List ZArith QArith Qabs Bool Lia Lqa Sorting.Sorted Permutation.
From Verif Require Import ConstraintModel PresolveModel DuplicateModel DuplicateProof SparseModel SparseSpec SparseProof SparseProof2 SparseProof3.
Import ListNotations.
Local Open Scope Q_scope.

Lemma coef_ent m i j : coefficient m i j = ent (entries m) i j.
Proof. apply value_ent. Qed.
Lemma product_good m x : good m -> length x = mt_ncols m -> exists y, m_dot m x = Ok y /\ is_product y (mt_nrows m) (mt_ncols m) (coefficient m) x.
Proof.
  intros Gd L. destruct (dot_good m x Gd L) as (y & E & Ly & V). exists y. split; [exact E|]. split; [exact Ly|]. intros i Hi. change (nth i y 0) with (at_ y i). rewrite (V i Hi), (row_sum_dense _ _ _ (mt_ncols m)).
  - apply sum_ext. intros j _. rewrite coef_ent. reflexivity.
  - intros t Ht. apply (entry_range m t Gd Ht).
Qed.
Lemma setup_fields old values rows cols nr nc m : m_setup old values rows cols nr nc = Ok m -> (forall i j, coefficient m i j = value_at rows cols values i j) /\ mt_nrows m = nr /\ mt_ncols m = nc.
Proof. intros H. destruct (setup_spec _ _ _ _ _ _ _ H) as (_ & _ & _ & _ & E1 & E2 & E3 & _ & E5 & E6 & _). unfold coefficient. rewrite E1, E2, E3. auto. Qed.
Lemma is_product_ext v nr nc a b x : (forall i j, (i < nr)%nat -> (j < nc)%nat -> a i j == b i j) -> is_product v nr nc a x -> is_product v nr nc b x.
Proof. intros H [L V]. split; [exact L|]. intros i Hi. rewrite (V i Hi). apply sum_ext. intros j Hj. rewrite (H i j Hi Hj). reflexivity. Qed.

Lemma built_iff values rows cols nr nc :
  (exists m, m_setup [] values rows cols nr nc = Ok m) <->
  length rows = length values /\ length cols = length values /\ (forall r, In r rows -> (r < nr)%nat) /\ (forall c, In c cols -> (c < nc)%nat) /\ (0 < nc)%nat.
Proof.
  split.
  - intros [m E]. pose proof (setup_columns _ _ _ _ _ _ _ E). destruct (setup_spec _ _ _ _ _ _ _ E) as (A & B & C & D & _). auto.
  - intros (A & B & C & D & P). now apply setup_ok.
Qed.

Lemma product_stmt values rows cols nr nc m x : m_setup [] values rows cols nr nc = Ok m -> by_rows rows ->
  (length x = nc -> exists y, m_dot m x = Ok y /\ is_product y nr nc (value_at rows cols values) x) /\
  (length x <> nc -> m_dot m x = Throw) /\
  forall y, is_product y nr nc (value_at rows cols values) x -> forall a b v c w i, (i < nr)%nat ->
    nth i (m_lin2 a m x b v) 0 == a * nth i y 0 + b * nth i v 0 /\
    nth i (m_lin3 a m x b v c w) 0 == a * nth i y 0 + b * nth i v 0 + c * nth i w 0.
Proof.
  intros H S. pose proof (setup_good _ _ _ _ _ _ H S) as Gd. destruct (setup_fields _ _ _ _ _ _ _ H) as (C & R & N). split; [|split].
  - intros L. destruct (product_good m x Gd) as (y & E & P); [congruence|]. exists y. split; [exact E|]. rewrite R, N in P. eapply is_product_ext; [|exact P]. intros i j _ _. rewrite C. reflexivity.
  - intros L. unfold m_dot. rewrite N. destruct (Nat.eqb_spec nc (length x)); [congruence|reflexivity].
  - intros y [_ P] a b v c w i Hi.
    assert (E : nth i y 0 == row_sum (entries m) (at_ x) i).
    { rewrite (P i Hi), (row_sum_dense _ _ _ nc). 2: { intros t Ht. rewrite <- N. apply (entry_range m t Gd Ht). } apply sum_ext. intros j _. rewrite <- C, coef_ent. reflexivity. }
    change (nth i (m_lin2 a m x b v) 0) with (at_ (m_lin2 a m x b v) i). change (nth i (m_lin3 a m x b v c w) 0) with (at_ (m_lin3 a m x b v c w) i).
    rewrite (lin2_good a m x b v i Gd), (lin3_good a m x b v c w i Gd) by congruence. rewrite E. unfold at_. split; ring.
Qed.

Lemma setup_sane old values rows cols nr nc m : m_setup old values rows cols nr nc = Ok m -> sane m.
Proof. intros H. destruct (setup_spec _ _ _ _ _ _ _ H) as (L1 & L2 & R & C & E1 & E2 & E3 & _ & E5 & E6 & _). unfold sane. rewrite E1, E2, E3, E5, E6. auto. Qed.
Lemma transpose_stmt old values rows cols nr nc m : m_setup old values rows cols nr nc = Ok m -> (0 < nr)%nat ->
  exists mt, m_transpose m = Ok mt /\ mt_nrows mt = nc /\ mt_ncols mt = nr /\
    (forall i j, coefficient mt j i == value_at rows cols values i j) /\
    forall y, length y = nr -> exists z, m_dot mt y = Ok z /\ is_product z nc nr (fun j i => value_at rows cols values i j) y.
Proof.
  intros H P. destruct (setup_fields _ _ _ _ _ _ _ H) as (C & R & N). rewrite <- R in P.
  destruct (transpose_spec m (setup_sane _ _ _ _ _ _ _ H) P) as (mt & E & Gd & E1 & E2 & Pm). exists mt. split; [exact E|]. split; [congruence|]. split; [congruence|].
  assert (Co : forall i j, coefficient mt j i == value_at rows cols values i j). { intros i j. rewrite <- C, !coef_ent. rewrite (ent_perm _ _ _ _ Pm). apply ent_swap. }
  split; [exact Co|]. intros y Ly. destruct (product_good mt y Gd) as (z & Ez & Pz); [congruence|]. exists z. split; [exact Ez|]. rewrite E1, E2, R, N in Pz. eapply is_product_ext; [|exact Pz]. intros j i _ _. apply Co.
Qed.
Lemma inner_from a : forall b s, fold_left (fun s p => s + fst p * snd p) (combine a b) s == s + total (map (fun i => nth i a 0 * nth i b 0) (seq 0 (length a))).
Proof.
  induction a as [|x a IH]; intros b s.
  - cbn. ring.
  - destruct b as [|y b].
    + cbn [combine fold_left]. rewrite total_zero; [ring|]. intros i _. destruct i; cbn [nth]; ring.
    + cbn [combine fold_left length seq map total fst snd]. rewrite IH, <- seq_shift, map_map. cbn [nth]. rewrite Qplus_assoc. reflexivity.
Qed.
Lemma inner_sum a b : inner a b == sum_below (length a) (fun i => nth i a 0 * nth i b 0).
Proof. unfold inner. rewrite inner_from. unfold sum_below. ring. Qed.
Lemma adjoint_stmt values rows cols nr nc m mt x y : m_setup [] values rows cols nr nc = Ok m -> by_rows rows -> m_transpose m = Ok mt -> length x = nc -> length y = nr ->
  exists ax aty p q, m_dot m x = Ok ax /\ m_dot mt y = Ok aty /\ v_dot y ax = Ok p /\ v_dot aty x = Ok q /\ p == q.
Proof.
  intros H S Tr Lx Ly. pose proof (setup_good _ _ _ _ _ _ H S) as Gd. destruct (setup_fields _ _ _ _ _ _ _ H) as (C & R & N).
  assert (P : (0 < mt_nrows m)%nat). { unfold m_transpose in Tr. apply setup_columns in Tr. exact Tr. }
  destruct (transpose_spec m (good_sane _ Gd) P) as (mt' & E & Gt & E1 & E2 & Pm). assert (mt' = mt) by congruence. subst mt'.
  destruct (dot_good m x Gd) as (ax & Ea & La & Va); [congruence|]. destruct (dot_good mt y Gt) as (aty & Et & Lt & Vt); [congruence|].
  exists ax, aty, (inner y ax), (inner aty x). split; [exact Ea|]. split; [exact Et|]. unfold v_dot.
  replace (length y) with (length ax) by congruence. rewrite Nat.eqb_refl. split; [reflexivity|]. replace (length aty) with (length x) by congruence. rewrite Nat.eqb_refl. split; [reflexivity|].
  rewrite !inner_sum. rewrite Ly, Lt.
  assert (A : sum_below nr (fun i => nth i y 0 * nth i ax 0) == form (entries m) (at_ y) (at_ x)).
  { rewrite <- (form_rows _ _ _ nr). 2: { intros t Ht. rewrite <- R. apply (entry_range m t Gd Ht). } apply sum_ext. intros i Hi. change (nth i ax 0) with (at_ ax i). rewrite Va by congruence. reflexivity. }
  assert (B : sum_below (mt_nrows mt) (fun i => nth i aty 0 * nth i x 0) == form (entries mt) (at_ x) (at_ y)).
  { rewrite <- (form_rows _ _ _ (mt_nrows mt)). 2: { intros t Ht. apply (entry_range mt t Gt Ht). } apply sum_ext. intros i Hi. change (nth i aty 0) with (at_ aty i). rewrite (Vt i Hi). unfold at_. ring. }
  rewrite A, B, (form_perm _ _ _ _ Pm). symmetry. apply form_swap.
Qed.

Lemma scaled_stmt m m' : good m -> scaled m m' -> mt_row_scaler m = repeat 1 (mt_nrows m) -> mt_col_scaler m = repeat 1 (mt_ncols m) ->
  (forall i, (i < mt_nrows m)%nat -> 0 < nth i (mt_row_scaler m') 0) /\ (forall j, (j < mt_ncols m)%nat -> 0 < nth j (mt_col_scaler m') 0) /\
  (forall i j, (i < mt_nrows m)%nat -> (j < mt_ncols m)%nat -> coefficient m' i j * nth i (mt_row_scaler m') 0 * nth j (mt_col_scaler m') 0 == coefficient m i j) /\
  forall x, length x = mt_ncols m -> exists y', m_dot m' (scale (mt_col_scaler m') x) = Ok y' /\
    is_product (scale (mt_row_scaler m') y') (mt_nrows m) (mt_ncols m) (coefficient m) x.
Proof.
  intros Gd Sc E1 E2. pose proof Sc as (Sh & P1 & P2 & Rep). pose proof Sh as (_ & _ & _ & S4 & S5 & _ & S7 & S8). pose proof Gd as (_ & _ & _ & _ & _ & _ & G7 & G8).
  assert (R : forall i, (i < mt_nrows m)%nat -> 0 < nth i (mt_row_scaler m') 0) by (intros i Hi; apply (at_pos _ i P1); congruence).
  assert (C : forall i, (i < mt_ncols m)%nat -> 0 < nth i (mt_col_scaler m') 0) by (intros i Hi; apply (at_pos _ i P2); congruence).
  assert (One : forall n i, (i < n)%nat -> at_ (repeat 1 n) i = 1). { induction n as [|n IH]; intros [|i] Hi; cbn; try lia; [reflexivity|]. apply IH. lia. }
  assert (Co : forall i j, (i < mt_nrows m)%nat -> (j < mt_ncols m)%nat -> coefficient m' i j * nth i (mt_row_scaler m') 0 * nth j (mt_col_scaler m') 0 == coefficient m i j).
  { intros i j Hi Hj. specialize (Rep i j Hi Hj). unfold rep in Rep. rewrite E1, E2, !One in Rep by assumption. rewrite !coef_ent. unfold at_ in Rep. rewrite Qmult_assoc in Rep. rewrite Rep. ring. }
  split; [exact R|]. split; [exact C|]. split; [exact Co|]. intros x Lx.
  assert (Lc : length (mt_col_scaler m') = length x) by congruence.
  destruct (product_good m' (scale (mt_col_scaler m') x)) as (y' & E & Ly & V); [eapply same_good; eassumption|rewrite scale_length by exact Lc; congruence|].
  exists y'. split; [exact E|]. assert (Lr : length (mt_row_scaler m') = length y') by congruence. split; [rewrite scale_length by exact Lr; congruence|].
  intros i Hi. change (nth i (scale (mt_row_scaler m') y') 0) with (at_ (scale (mt_row_scaler m') y') i). rewrite (scale_at _ _ i Lr). unfold at_. rewrite V by congruence. rewrite Qmult_comm. rewrite S5.
  unfold sum_below. rewrite <- total_scale. apply total_ext. intros j Hj. apply in_seq in Hj. change (nth j (scale (mt_col_scaler m') x) 0) with (at_ (scale (mt_col_scaler m') x) j). rewrite (scale_at _ _ j Lc). unfold at_.
  rewrite <- (Co i j Hi) by lia. ring.
Qed.
Lemma setup_ones old values rows cols nr nc m : m_setup old values rows cols nr nc = Ok m -> mt_row_scaler m = repeat 1 (mt_nrows m) /\ mt_col_scaler m = repeat 1 (mt_ncols m).
Proof. intros H. destruct (setup_spec _ _ _ _ _ _ _ H) as (_ & _ & _ & _ & _ & _ & _ & _ & E5 & E6 & E7 & E8). rewrite E5, E6. auto. Qed.
Lemma scaling_run sq k (pc : bool) values rows cols nr nc m : (forall q, 0 < q -> 0 < sq q) -> m_setup [] values rows cols nr nc = Ok m -> by_rows rows ->
  exists m1 m', ruiz sq k m = Ok m1 /\ (if pc then pock_chambolle sq m1 else Ok m1) = Ok m' /\ scaled m m'.
Proof.
  intros Hs H S. pose proof (setup_good _ _ _ _ _ _ H S) as Gd. pose proof (setup_columns _ _ _ _ _ _ _ H) as P. destruct (setup_fields _ _ _ _ _ _ _ H) as (_ & R & N). destruct (setup_ones _ _ _ _ _ _ _ H) as [O1 O2].
  destruct (ruiz_spec sq k Hs (repeat 1 (mt_nrows m)) (repeat 1 (mt_ncols m)) m) as (m1 & E1 & Sc1); try (rewrite ?O1, ?O2; apply ones_pos); try apply repeat_length; [exact Gd|lia|].
  pose proof Sc1 as (Sh & Q1 & Q2 & _). exists m1. destruct pc.
  - destruct (pock_spec sq m1 Hs) as (m2 & E2 & Sc2); auto.
    + eapply same_good; eassumption.
    + destruct Sh as (_ & _ & _ & _ & S5 & _). rewrite S5. lia.
    + exists m2. split; [exact E1|]. split; [exact E2|]. eapply scaled_trans; eassumption.
  - exists m1. split; [exact E1|]. split; [reflexivity|exact Sc1].
Qed.
Lemma scaling_stmt sq k (pc : bool) values rows cols nr nc m : (forall q, 0 < q -> 0 < sq q) -> m_setup [] values rows cols nr nc = Ok m -> by_rows rows ->
  exists m1 m', ruiz sq k m = Ok m1 /\ (if pc then pock_chambolle sq m1 else Ok m1) = Ok m' /\
  (forall i, (i < nr)%nat -> 0 < nth i (mt_row_scaler m') 0) /\ (forall j, (j < nc)%nat -> 0 < nth j (mt_col_scaler m') 0) /\
  (forall i j, (i < nr)%nat -> (j < nc)%nat -> coefficient m' i j * nth i (mt_row_scaler m') 0 * nth j (mt_col_scaler m') 0 == value_at rows cols values i j) /\
  forall x, length x = nc -> exists y', m_dot m' (scale (mt_col_scaler m') x) = Ok y' /\ is_product (scale (mt_row_scaler m') y') nr nc (value_at rows cols values) x.
Proof.
  intros Hs H S. destruct (scaling_run sq k pc _ _ _ _ _ m Hs H S) as (m1 & m' & E1 & E2 & Sc). exists m1, m'. split; [exact E1|]. split; [exact E2|].
  destruct (setup_fields _ _ _ _ _ _ _ H) as (C & R & N). destruct (setup_ones _ _ _ _ _ _ _ H) as [O1 O2].
  destruct (scaled_stmt m m' (setup_good _ _ _ _ _ _ H S) Sc O1 O2) as (A & B & D & F). rewrite R, N in *. split; [exact A|]. split; [exact B|]. split; [intros i j Hi Hj; now rewrite D, C|].
  intros x Lx. destruct (F x Lx) as (y' & Ey & Py). exists y'. split; [exact Ey|]. eapply is_product_ext; [|exact Py]. intros i j _ _. rewrite C. reflexivity.
Qed.
Lemma entries_values m : good m -> map snd (entries m) = mt_values m.
Proof. intros Gd. rewrite (triples_seq m (good_sane _ Gd)), map_map. cbn [snd]. apply map_nth_seq. Qed.
Lemma ruiz_small sq k : (forall q, 0 < q -> 0 < sq q /\ q <= sq q * sq q) -> forall rs cs m m', good m -> (0 < mt_ncols m)%nat -> length rs = mt_nrows m -> length cs = mt_ncols m ->
  positive (mt_row_scaler m) -> positive (mt_col_scaler m) -> ruiz_rounds sq (S k) rs cs m = Ok m' -> forall t, In t (entries m') -> Qabs (snd t) <= 1.
Proof.
  intros Hs. assert (Hp : forall q, 0 < q -> 0 < sq q) by (intros q Hq; apply Hs, Hq). induction k as [|k IH]; intros rs cs m m' Gd P L1 L2 P1 P2 E.
  - cbn [ruiz_rounds] in E. destruct (divide _ _ m) as [m1| |] eqn:D; cbn [bind] in E; try discriminate. assert (m1 = m') by congruence. subst m1. eapply (round_small rs cs m sq m'); eassumption.
  - cbn [ruiz_rounds] in E. destruct (divide _ _ m) as [m1| |] eqn:D; cbn [bind] in E; try discriminate.
    destruct (divide_spec (root_all sq (gather qmax (fun t => fst (fst t)) (entries m) rs)) (root_all sq (gather qmax (fun t => snd (fst t)) (entries m) cs)) m) as (m2 & D' & S & Q1 & Q2 & _ & R); auto using root_pos.
    + now rewrite root_length, gather_length.
    + now rewrite root_length, gather_length.
    + assert (m2 = m1) by congruence. subst m2. pose proof S as (_ & _ & _ & E4 & E5 & _). eapply (IH (root_all sq (gather qmax (fun t => fst (fst t)) (entries m) rs)) (root_all sq (gather qmax (fun t => snd (fst t)) (entries m) cs)) m1 m').
      * eapply same_good; eassumption.
      * congruence.
      * rewrite root_length, gather_length. congruence.
      * rewrite root_length, gather_length. congruence.
      * exact Q1.
      * exact Q2.
      * exact E.
Qed.
Lemma normalised_stmt sq k values rows cols nr nc m m' : (forall q, 0 < q -> 0 < sq q /\ q <= sq q * sq q) -> m_setup [] values rows cols nr nc = Ok m -> by_rows rows -> (0 < k)%nat ->
  ruiz sq k m = Ok m' -> forall v, In v (mt_values m') -> Qabs v <= 1.
Proof.
  intros Hs H S K E v Hv. pose proof (setup_good _ _ _ _ _ _ H S) as Gd. pose proof (setup_columns _ _ _ _ _ _ _ H) as P. destruct (setup_fields _ _ _ _ _ _ _ H) as (_ & R & N). destruct (setup_ones _ _ _ _ _ _ _ H) as [O1 O2].
  destruct (scaling_run sq k false _ _ _ _ _ m ltac:(intros q Hq; apply Hs, Hq) H S) as (m1 & m2 & E1 & E2 & Sc). assert (m2 = m') by congruence. subst m2.
  destruct k as [|k]; [lia|]. assert (G' : good m') by (eapply same_good; [apply Sc|exact Gd]). rewrite <- (entries_values m' G') in Hv. apply in_map_iff in Hv as (t & <- & Ht).
  eapply (ruiz_small sq k Hs (repeat 1 (mt_nrows m)) (repeat 1 (mt_ncols m)) m m'); try eassumption; try apply repeat_length; try (rewrite ?O1, ?O2; apply ones_pos). lia.
Qed.
Lemma diagonal_stmt values rows cols nr nc m : m_setup [] values rows cols nr nc = Ok m -> by_rows rows ->
  (forall d, length d = nr -> exists m', scale_row m d = Ok m' /\ (forall i j, coefficient m' i j == nth i d 0 * value_at rows cols values i j) /\
     forall x, length x = nc -> exists y, m_dot m' x = Ok y /\ is_product y nr nc (fun i j => nth i d 0 * value_at rows cols values i j) x) /\
  (forall d, length d = nc -> exists m', scale_column m d = Ok m' /\ (forall i j, coefficient m' i j == value_at rows cols values i j * nth j d 0) /\
     forall x, length x = nc -> exists y, m_dot m' x = Ok y /\ is_product y nr nc (fun i j => value_at rows cols values i j * nth j d 0) x).
Proof.
  intros H S. pose proof (setup_good _ _ _ _ _ _ H S) as Gd. destruct (setup_fields _ _ _ _ _ _ _ H) as (C & R & N). split; intros d L.
  - destruct (scale_row_spec m d Gd) as (m' & E & G' & R' & N' & V); [congruence|]. exists m'. split; [exact E|].
    assert (Co : forall i j, coefficient m' i j == nth i d 0 * value_at rows cols values i j) by (intros i j; rewrite <- C, !coef_ent; apply V). split; [exact Co|].
    intros x Lx. destruct (product_good m' x G') as (y & Ey & Py); [congruence|]. exists y. split; [exact Ey|]. rewrite R', N', R, N in Py. eapply is_product_ext; [|exact Py]. intros i j _ _. apply Co.
  - destruct (scale_column_spec m d Gd) as (m' & E & G' & R' & N' & V); [congruence|]. exists m'. split; [exact E|].
    assert (Co : forall i j, coefficient m' i j == value_at rows cols values i j * nth j d 0) by (intros i j; rewrite <- C, !coef_ent; apply V). split; [exact Co|].
    intros x Lx. destruct (product_good m' x G') as (y & Ey & Py); [congruence|]. exists y. split; [exact Ey|]. rewrite R', N', R, N in Py. eapply is_product_ext; [|exact Py]. intros i j _ _. apply Co.
Qed.
