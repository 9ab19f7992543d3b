(** Proofs for C61: transposition and scaling. *)
From Coq Require Import List ZArith QArith Qabs Bool Lia Lqa Sorting.Sorted Permutation.
From Verif Require Import ConstraintModel PresolveModel DuplicateModel DuplicateProof SparseModel SparseSpec SparseProof.
Import ListNotations.
Local Open Scope Q_scope.

(** ** Transposition *)
Definition sane (m : matrix) : Prop :=
  length (mt_rows m) = length (mt_values m) /\ length (mt_cols m) = length (mt_values m) /\
  (forall r, In r (mt_rows m) -> (r < mt_nrows m)%nat) /\ (forall c, In c (mt_cols m) -> (c < mt_ncols m)%nat).
Lemma good_sane m : good m -> sane m.
Proof. intros (A & B & C & D & _). repeat split; assumption. Qed.
Lemma put_length v : forall i q, length (put v i q) = length v.
Proof. induction v as [|a v IH]; intros [|i] q; cbn; congruence. Qed.
Lemma fold_put_length {A} (p : A -> nat) (g : vec -> A -> Q) l : forall v, length (fold_left (fun v a => put v (p a) (g v a)) l v) = length v.
Proof. induction l as [|a l IH]; intros v; cbn [fold_left]; [reflexivity|]. now rewrite IH, put_length. Qed.
Lemma sums_length ts n : length (column_sums ts n) = n.
Proof. unfold column_sums. rewrite (fold_put_length (fun t : nat * nat * Q => snd (fst t)) (fun c t => at_ c (snd (fst t)) + Qabs (snd t))). apply repeat_length. Qed.
Lemma largest_ok v : (0 < length v)%nat -> exists q, largest v = Ok q.
Proof. destruct v; cbn; [lia|]. intros _. eexists. reflexivity. Qed.
Lemma setup_ok old values rows cols nr nc : length rows = length values -> length cols = length values ->
  (forall r, In r rows -> (r < nr)%nat) -> (forall c, In c cols -> (c < nc)%nat) -> (0 < nc)%nat -> exists m, m_setup old values rows cols nr nc = Ok m.
Proof.
  intros L1 L2 R C P. unfold m_setup. rewrite L1, L2, Nat.eqb_refl. cbn [andb].
  replace (forallb (fun r => Nat.ltb r nr) rows) with true by (symmetry; apply forallb_forall; intros r Hr; apply Nat.ltb_lt; auto).
  replace (forallb (fun c => Nat.ltb c nc) cols) with true by (symmetry; apply forallb_forall; intros r Hr; apply Nat.ltb_lt; auto). cbn [andb].
  destruct (largest_ok (column_sums (triples rows cols values) nc)) as [q ->]; [rewrite sums_length; exact P|]. cbn [bind]. eexists. reflexivity.
Qed.
Lemma setup_columns old values rows cols nr nc m : m_setup old values rows cols nr nc = Ok m -> (0 < nc)%nat.
Proof.
  unfold m_setup. destruct (_ && _); [|discriminate]. destruct (column_sums _ nc) as [|a l] eqn:E; [discriminate|]. intros _.
  pose proof (sums_length (triples rows cols values) nc) as L. rewrite E in L. cbn in L. lia.
Qed.
Definition order_of (m : matrix) : list nat :=
  stable_sort (fun i j => Nat.ltb (nth i (mt_cols m) O) (nth j (mt_cols m) O)) (stable_sort (fun i j => Nat.ltb (nth i (mt_rows m) O) (nth j (mt_rows m) O)) (seq 0 (length (mt_values m)))).
Lemma order_perm m : Permutation (order_of m) (seq 0 (length (mt_values m))).
Proof. unfold order_of. etransitivity; apply sort_perm. Qed.
Lemma sorted_map {A} (f : A -> nat) l : StronglySorted (fun a b => (f a <= f b)%nat) l -> StronglySorted le (map f l).
Proof. induction 1 as [|a l S IH F]; cbn; constructor; [exact IH|]. now apply Forall_map. Qed.
Lemma order_sorted m : by_rows (map (fun i => nth i (mt_cols m) O) (order_of m)).
Proof.
  unfold by_rows. apply sorted_map. unfold order_of. apply sort_ordered.
  - intros a b H. apply Nat.ltb_lt in H. lia.
  - intros a b H. apply Nat.ltb_ge in H. lia.
  - intros a b c H1 H2. lia.
Qed.
Lemma map_nth_seq {A} (l : list A) d : map (fun i => nth i l d) (seq 0 (length l)) = l.
Proof.
  assert (G : forall (l a : list A), map (fun i => nth i (a ++ l) d) (seq (length a) (length l)) = l).
  { clear l. induction l as [|x l IH]; intros a; [reflexivity|]. cbn [length seq map]. f_equal; [rewrite app_nth2, Nat.sub_diag by lia; reflexivity|].
    specialize (IH (a ++ [x])). rewrite app_length, Nat.add_1_r, <- app_assoc in IH. exact IH. }
  exact (G l []).
Qed.
Lemma triples_map (f g : nat -> nat) (h : nat -> Q) l : triples (map f l) (map g l) (map h l) = map (fun i => (f i, g i, h i)) l.
Proof. unfold triples. induction l as [|i l IH]; cbn; [reflexivity|]. now rewrite IH. Qed.
Lemma triples_seq m : sane m -> entries m = map (fun i => (nth i (mt_rows m) O, nth i (mt_cols m) O, at_ (mt_values m) i)) (seq 0 (length (mt_values m))).
Proof.
  intros (L1 & L2 & _). rewrite <- triples_map. unfold entries.
  assert (E1 : map (fun i => nth i (mt_rows m) O) (seq 0 (length (mt_values m))) = mt_rows m) by (rewrite <- L1; apply map_nth_seq).
  assert (E2 : map (fun i => nth i (mt_cols m) O) (seq 0 (length (mt_values m))) = mt_cols m) by (rewrite <- L2; apply map_nth_seq).
  assert (E3 : map (at_ (mt_values m)) (seq 0 (length (mt_values m))) = mt_values m) by apply map_nth_seq.
  now rewrite E1, E2, E3.
Qed.
Lemma transpose_spec m : sane m -> (0 < mt_nrows m)%nat -> exists mt, m_transpose m = Ok mt /\ good mt /\ mt_nrows mt = mt_ncols m /\ mt_ncols mt = mt_nrows m /\
  Permutation (entries mt) (map (fun t => (col t, row t, snd t)) (entries m)).
Proof.
  intros Sn P. pose proof Sn as (L1 & L2 & R & C).
  assert (In_ : forall i, In i (order_of m) -> (i < length (mt_values m))%nat).
  { intros i Hi. apply (Permutation_in _ (order_perm m)) in Hi. apply in_seq in Hi. lia. }
  destruct (setup_ok [] (map (fun i => at_ (mt_values m) i) (order_of m)) (map (fun i => nth i (mt_cols m) O) (order_of m)) (map (fun i => nth i (mt_rows m) O) (order_of m)) (mt_ncols m) (mt_nrows m)) as [mt E].
  - now rewrite !map_length.
  - now rewrite !map_length.
  - intros r Hr. apply in_map_iff in Hr as (i & <- & Hi). apply C, nth_In. rewrite L2. auto.
  - intros r Hr. apply in_map_iff in Hr as (i & <- & Hi). apply R, nth_In. rewrite L1. auto.
  - exact P.
  - exists mt. split; [exact E|]. split; [eapply setup_good; [exact E|apply order_sorted]|].
    destruct (setup_spec _ _ _ _ _ _ _ E) as (_ & _ & _ & _ & E1 & E2 & E3 & _ & E5 & E6 & _). split; [exact E5|]. split; [exact E6|].
    unfold entries at 1. rewrite E1, E2, E3, triples_map, (triples_seq m Sn), map_map. cbn [row col fst snd]. apply Permutation_map, order_perm.
Qed.
Lemma ent_perm a b i j : Permutation a b -> ent a i j == ent b i j.
Proof. intros H. unfold ent. now apply total_perm, Permutation_map. Qed.
Lemma ent_swap ts i j : ent (map (fun t => (col t, row t, snd t)) ts) j i == ent ts i j.
Proof. unfold ent. rewrite map_map. apply total_ext. intros t _. unfold row, col. cbn [fst snd]. rewrite andb_comm. reflexivity. Qed.
Lemma form_perm a b y x : Permutation a b -> form a y x == form b y x.
Proof. intros H. unfold form. now apply total_perm, Permutation_map. Qed.
Lemma form_swap ts y x : form (map (fun t => (col t, row t, snd t)) ts) x y == form ts y x.
Proof. unfold form. rewrite map_map. apply total_ext. intros t _. unfold row, col. cbn [fst snd]. ring. Qed.

(** ** Scaling *)
Definition rep (m : matrix) (i j : nat) : Q := ent (entries m) i j * (at_ (mt_row_scaler m) i * at_ (mt_col_scaler m) j).
Definition positive (v : vec) : Prop := forall q, In q v -> 0 < q.
Definition same_shape (m m' : matrix) : Prop :=
  mt_rows m' = mt_rows m /\ mt_cols m' = mt_cols m /\ mt_ptrs m' = mt_ptrs m /\ mt_nrows m' = mt_nrows m /\ mt_ncols m' = mt_ncols m /\
  length (mt_values m') = length (mt_values m) /\ length (mt_row_scaler m') = length (mt_row_scaler m) /\ length (mt_col_scaler m') = length (mt_col_scaler m).
Lemma same_good m m' : same_shape m m' -> good m -> good m'.
Proof.
  intros (E1 & E2 & E3 & E4 & E5 & E6 & E7 & E8) (A & B & C & D & E & F & G & H). unfold good. rewrite E1, E2, E3, E4, E5, E6, E7, E8. repeat (split; [assumption|]). assumption.
Qed.
Lemma triples_values rows : forall cols values g, length rows = length values -> length cols = length values ->
  triples rows cols (map g (triples rows cols values)) = map (fun t => (fst t, g t)) (triples rows cols values).
Proof.
  unfold triples. induction rows as [|r rows IH]; intros [|c cols] [|v values] g A B; try discriminate; [reflexivity|]. cbn [combine map]. f_equal. cbn [length] in A, B. apply (IH cols values g); lia.
Qed.
Lemma at_pos v i : positive v -> (i < length v)%nat -> 0 < at_ v i.
Proof. intros H L. apply H, nth_In, L. Qed.
Lemma scale_at d v i : length d = length v -> at_ (scale d v) i == at_ v i * at_ d i.
Proof.
  unfold at_, scale. revert d i. induction v as [|a v IH]; intros [|b d] [|i] L; try discriminate; cbn; try ring. apply IH. now injection L.
Qed.
Lemma scale_length d v : length d = length v -> length (scale d v) = length v.
Proof. intros L. unfold scale. rewrite map_length, combine_length. lia. Qed.
Lemma scale_pos d v : positive d -> positive v -> positive (scale d v).
Proof.
  intros P1 P2 q Hq. unfold scale in Hq. apply in_map_iff in Hq as ([a b] & <- & Hi). cbn [fst snd]. pose proof (P2 _ (in_combine_l _ _ _ _ Hi)). pose proof (P1 _ (in_combine_r _ _ _ _ Hi)). nra.
Qed.
Lemma divide_spec rs cs m : good m -> (0 < mt_ncols m)%nat -> length rs = mt_nrows m -> length cs = mt_ncols m -> positive rs -> positive cs ->
  positive (mt_row_scaler m) -> positive (mt_col_scaler m) ->
  exists m', divide rs cs m = Ok m' /\ same_shape m m' /\ positive (mt_row_scaler m') /\ positive (mt_col_scaler m') /\
    entries m' = map (fun t => (fst t, snd t / (at_ rs (row t) * at_ cs (col t)))) (entries m) /\
    (forall i j, (i < mt_nrows m)%nat -> (j < mt_ncols m)%nat -> rep m' i j == rep m i j).
Proof.
  intros Gd P L1 L2 P1 P2 P3 P4. pose proof Gd as (G1 & G2 & G3 & G4 & G5 & G6 & G7 & G8). unfold divide.
  match goal with |- context [largest ?v] => destruct (largest_ok v) as [one ->]; [rewrite sums_length; exact P|] end. cbn [bind]. eexists. split; [reflexivity|].
  split. { unfold same_shape. cbn. split; [reflexivity|]. split; [reflexivity|]. split; [reflexivity|]. split; [reflexivity|]. split; [reflexivity|]. split; [|split; apply scale_length; congruence].
    rewrite map_length. unfold entries, triples. rewrite !combine_length. lia. }
  split; [cbn; now apply scale_pos|]. split; [cbn; now apply scale_pos|].
  split. { unfold entries at 1. cbn [mt_rows mt_cols mt_values]. unfold entries. rewrite triples_values by assumption. reflexivity. }
  intros i j Hi Hj. unfold rep. unfold entries at 1. cbn [mt_rows mt_cols mt_values mt_row_scaler mt_col_scaler]. unfold entries. rewrite triples_values by assumption.
  rewrite (scale_at rs) by congruence. rewrite (scale_at cs) by congruence.
  assert (Ri : 0 < at_ rs i) by (apply at_pos; [exact P1|congruence]). assert (Cj : 0 < at_ cs j) by (apply at_pos; [exact P2|congruence]).
  assert (E : ent (map (fun t => (fst t, snd t / (at_ rs (fst (fst t)) * at_ cs (snd (fst t))))) (triples (mt_rows m) (mt_cols m) (mt_values m))) i j ==
    / (at_ rs i * at_ cs j) * ent (triples (mt_rows m) (mt_cols m) (mt_values m)) i j).
  { unfold ent. rewrite map_map, <- total_scale. apply total_ext. intros t _. unfold row, col. cbn [fst snd].
    destruct (Nat.eqb_spec (fst (fst t)) i) as [->|]; cbn [andb]; [|ring]. destruct (Nat.eqb_spec (snd (fst t)) j) as [->|]; [|ring]. unfold Qdiv. ring. }
  rewrite E. field. split; lra.
Qed.
Lemma gather_length f pos ts v : length (gather f pos ts v) = length v.
Proof. unfold gather. apply (fold_put_length pos (fun s t => f (at_ s (pos t)) (Qabs (snd t)))). Qed.
Lemma root_length sq v : length (root_all sq v) = length v.
Proof. unfold root_all. apply map_length. Qed.
Lemma root_pos sq v : (forall q, 0 < q -> 0 < sq q) -> positive (root_all sq v).
Proof.
  intros H q Hq. apply in_map_iff in Hq as (a & <- & _). destruct (Qlt_le_dec a EPS10) as [L|L]; [reflexivity|]. apply H. assert (0 < EPS10) by reflexivity. lra.
Qed.
Lemma ones_pos n : positive (repeat 1 n).
Proof. intros q H. apply repeat_spec in H. subst. reflexivity. Qed.
Lemma same_trans a b c : same_shape a b -> same_shape b c -> same_shape a c.
Proof. intros (A1 & A2 & A3 & A4 & A5 & A6 & A7 & A8) (B1 & B2 & B3 & B4 & B5 & B6 & B7 & B8). unfold same_shape. repeat split; congruence. Qed.
Lemma same_self a : same_shape a a.
Proof. repeat split. Qed.
Definition scaled (m m' : matrix) : Prop :=
  same_shape m m' /\ positive (mt_row_scaler m') /\ positive (mt_col_scaler m') /\
  (forall i j, (i < mt_nrows m)%nat -> (j < mt_ncols m)%nat -> rep m' i j == rep m i j).
Lemma scaled_self m : positive (mt_row_scaler m) -> positive (mt_col_scaler m) -> scaled m m.
Proof. intros A B. split; [apply same_self|]. split; [exact A|]. split; [exact B|]. reflexivity. Qed.
Lemma scaled_trans a b c : scaled a b -> scaled b c -> scaled a c.
Proof.
  intros (S1 & _ & _ & R1) (S2 & P & P' & R2). split; [eapply same_trans; eassumption|]. split; [exact P|]. split; [exact P'|]. intros i j Hi Hj.
  destruct S1 as (_ & _ & _ & E4 & E5 & _). rewrite R2 by congruence. now apply R1.
Qed.
Lemma ruiz_spec sq k : (forall q, 0 < q -> 0 < sq q) -> forall rs cs m, good m -> (0 < mt_ncols m)%nat -> length rs = mt_nrows m -> length cs = mt_ncols m ->
  positive (mt_row_scaler m) -> positive (mt_col_scaler m) -> exists m', ruiz_rounds sq k rs cs m = Ok m' /\ scaled m m'.
Proof.
  intros Hs. induction k as [|k IH]; intros rs cs m Gd P L1 L2 P1 P2; cbn [ruiz_rounds].
  - exists m. split; [reflexivity|now apply scaled_self].
  - destruct (divide_spec (root_all sq (gather qmax (fun t => fst (fst t)) (entries m) rs)) (root_all sq (gather qmax (fun t => snd (fst t)) (entries m) cs)) m) as (m1 & -> & S & Q1 & Q2 & _ & R); auto using root_pos.
    + now rewrite root_length, gather_length.
    + now rewrite root_length, gather_length.
    + cbn [bind]. pose proof S as (_ & _ & _ & E4 & E5 & _). destruct (IH (root_all sq (gather qmax (fun t => fst (fst t)) (entries m) rs)) (root_all sq (gather qmax (fun t => snd (fst t)) (entries m) cs)) m1) as (m2 & E & Sc).
      * eapply same_good; eassumption.
      * congruence.
      * rewrite root_length, gather_length. congruence.
      * rewrite root_length, gather_length. congruence.
      * exact Q1.
      * exact Q2.
      * exists m2. split; [exact E|]. eapply scaled_trans; [|exact Sc]. split; [exact S|]. split; [exact Q1|]. split; [exact Q2|exact R].
Qed.
Lemma pock_spec sq m : (forall q, 0 < q -> 0 < sq q) -> good m -> (0 < mt_ncols m)%nat -> positive (mt_row_scaler m) -> positive (mt_col_scaler m) ->
  exists m', pock_chambolle sq m = Ok m' /\ scaled m m'.
Proof.
  intros Hs Gd P P1 P2. unfold pock_chambolle.
  destruct (divide_spec (root_all sq (gather Qplus (fun t => fst (fst t)) (entries m) (repeat 1 (mt_nrows m)))) (root_all sq (gather Qplus (fun t => snd (fst t)) (entries m) (repeat 1 (mt_ncols m)))) m) as (m1 & E & S & Q1 & Q2 & _ & R); auto using root_pos.
  - now rewrite root_length, gather_length, repeat_length.
  - now rewrite root_length, gather_length, repeat_length.
  - exists m1. split; [exact E|]. split; [exact S|]. split; [exact Q1|]. split; [exact Q2|exact R].
Qed.

(** Ruiz scaling with a square root that is not rounded down leaves no entry above 1. *)
Lemma put_at v : forall i q k, (i < length v)%nat -> at_ (put v i q) k = if Nat.eqb k i then q else at_ v k.
Proof. unfold at_. induction v as [|a v IH]; intros i q k H; cbn [length] in H; [lia|]. destruct i as [|i], k as [|k]; cbn; try reflexivity. apply IH. lia. Qed.
Lemma qmax_l a b : a <= qmax a b.
Proof. unfold qmax. destruct (Qlt_le_dec a b); lra. Qed.
Lemma qmax_r a b : b <= qmax a b.
Proof. unfold qmax. destruct (Qlt_le_dec a b); lra. Qed.
Lemma gather_ge pos ts : forall v, (forall t, In t ts -> (pos t < length v)%nat) -> (forall k, at_ v k <= at_ (gather qmax pos ts v) k) /\ (forall t, In t ts -> Qabs (snd t) <= at_ (gather qmax pos ts v) (pos t)).
Proof.
  unfold gather. induction ts as [|t ts IH]; intros v H; cbn [fold_left].
  - split; [intros; lra|intros t []].
  - destruct (IH (put v (pos t) (qmax (at_ v (pos t)) (Qabs (snd t))))) as [A B].
    + intros u Hu. rewrite put_length. apply H. now right.
    + split.
      * intros k. specialize (A k). rewrite put_at in A by (apply H; now left). destruct (Nat.eqb_spec k (pos t)) as [Ek|]; [|exact A]. rewrite Ek at 1. eapply Qle_trans; [apply qmax_l|exact A].
      * intros u [<-|Hu]; [|now apply B]. specialize (A (pos t)). rewrite put_at, Nat.eqb_refl in A by (apply H; now left). eapply Qle_trans; [apply qmax_r|exact A].
Qed.
Lemma root_at sq v i : (i < length v)%nat -> at_ (root_all sq v) i = if Qlt_le_dec (at_ v i) EPS10 then 1 else sq (at_ v i).
Proof.
  intros H. unfold at_, root_all. set (f := fun q => if Qlt_le_dec q EPS10 then 1 else sq q). rewrite (nth_indep _ 0 (f 0)) by (now rewrite map_length). rewrite map_nth. reflexivity.
Qed.
Lemma root_square sq v i : (i < length v)%nat -> (forall q, 0 < q -> 0 < sq q /\ q <= sq q * sq q) -> 0 < at_ (root_all sq v) i /\ at_ v i <= at_ (root_all sq v) i * at_ (root_all sq v) i.
Proof.
  intros H S. rewrite (root_at sq v i H). destruct (Qlt_le_dec (at_ v i) EPS10) as [L|L].
  - split; [reflexivity|]. unfold EPS10 in L. lra.
  - apply S. unfold EPS10 in L. lra.
Qed.
Lemma square_le a b : 0 <= a -> 0 <= b -> a * a <= b * b -> a <= b.
Proof. intros. nra. Qed.
Lemma round_small rs cs m sq m' : good m -> length rs = mt_nrows m -> length cs = mt_ncols m -> (forall q, 0 < q -> 0 < sq q /\ q <= sq q * sq q) ->
  (0 < mt_ncols m)%nat -> positive (mt_row_scaler m) -> positive (mt_col_scaler m) ->
  divide (root_all sq (gather qmax (fun t => fst (fst t)) (entries m) rs)) (root_all sq (gather qmax (fun t => snd (fst t)) (entries m) cs)) m = Ok m' ->
  forall t, In t (entries m') -> Qabs (snd t) <= 1.
Proof.
  intros Gd L1 L2 S P P1 P2 E t Ht.
  destruct (divide_spec (root_all sq (gather qmax (fun t => fst (fst t)) (entries m) rs)) (root_all sq (gather qmax (fun t => snd (fst t)) (entries m) cs)) m) as (m1 & E1 & _ & _ & _ & En & _); auto.
  - now rewrite root_length, gather_length.
  - now rewrite root_length, gather_length.
  - apply root_pos. intros q Hq. apply S, Hq.
  - apply root_pos. intros q Hq. apply S, Hq.
  - assert (m1 = m') by congruence. subst m1. rewrite En in Ht. apply in_map_iff in Ht as (u & <- & Hu). cbn [snd].
    destruct (gather_ge (fun t => fst (fst t)) (entries m) rs) as [_ A]. { intros w Hw. rewrite L1. apply (entry_range m w Gd Hw). }
    destruct (gather_ge (fun t => snd (fst t)) (entries m) cs) as [_ B]. { intros w Hw. rewrite L2. apply (entry_range m w Gd Hw). }
    specialize (A u Hu). specialize (B u Hu). change (fst (fst u)) with (row u) in A. change (snd (fst u)) with (col u) in B.
    destruct (entry_range m u Gd Hu) as [Ru Cu].
    destruct (root_square sq (gather qmax (fun t => fst (fst t)) (entries m) rs) (row u)) as [X1 X2]; [rewrite gather_length; congruence|exact S|].
    destruct (root_square sq (gather qmax (fun t => snd (fst t)) (entries m) cs) (col u)) as [Y1 Y2]; [rewrite gather_length; congruence|exact S|].
    set (x := at_ (root_all sq (gather qmax (fun t => fst (fst t)) (entries m) rs)) (row u)) in *. set (y := at_ (root_all sq (gather qmax (fun t => snd (fst t)) (entries m) cs)) (col u)) in *.
    set (x2 := at_ (gather qmax (fun t => fst (fst t)) (entries m) rs) (row u)) in *. set (y2 := at_ (gather qmax (fun t => snd (fst t)) (entries m) cs) (col u)) in *.
    pose proof (Qabs_nonneg (snd u)) as N. set (v := Qabs (snd u)) in *.
    assert (XY : 0 < x * y) by nra.
    assert (V : v <= x * y).
    { apply square_le; [exact N|lra|]. assert (v * v <= x2 * y2) by nra. assert (x2 * y2 <= (x * x) * (y * y)) by nra. nra. }
    unfold Qdiv. rewrite Qabs_Qmult. fold v. rewrite (Qabs_pos (/ (x * y))) by (apply Qlt_le_weak, Qinv_lt_0_compat, XY).
    apply (Qmult_le_r _ _ (x * y) XY). rewrite Qmult_1_l, <- Qmult_assoc, (Qmult_comm (/ (x * y))), Qmult_inv_r by lra. lra.
Qed.
