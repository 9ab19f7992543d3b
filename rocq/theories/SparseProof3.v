(** Proofs for C61: scale_row and scale_column. *)
From Coq Require Import List ZArith QArith Qabs Bool Lia Lqa Sorting.Sorted Permutation.
From Verif Require Import ConstraintModel PresolveModel DuplicateModel DuplicateProof SparseModel SparseSpec SparseProof SparseProof2.
Import ListNotations.
Local Open Scope Q_scope.

Lemma filter_all_nth {A} (p : A -> bool) l k d : (k < length (filter p l))%nat -> p (nth k (filter p l) d) = true.
Proof. intros H. apply (nth_In _ d) in H. apply filter_In in H. apply H. Qed.
Lemma pos_row m i p : good m -> (i < mt_nrows m)%nat -> (p < length (mt_values m))%nat -> (In p (row_range m i) <-> nth p (mt_rows m) O = i).
Proof.
  intros Gd Hi Hp. rewrite (row_range_ok m i Gd Hi), in_seq. pose proof Gd as (L1 & _ & _ & _ & S & _). rewrite <- (entries_rows m Gd) in S.
  pose proof (sorted_split (entries m) i S) as E.
  assert (R : nth p (mt_rows m) O = row (nth p (entries m) (O, O, 0))) by (rewrite (entries_nth m p Gd); reflexivity). rewrite R. clear R.
  assert (Len : length (entries m) = length (mt_values m)). { rewrite <- L1, <- (entries_rows m Gd), map_length. reflexivity. }
  assert (LE : length (entries m) = (length (filter (fun t => Nat.ltb (row t) i) (entries m)) + (length (filter (fun t => Nat.eqb (row t) i) (entries m)) + length (filter (fun t => Nat.ltb i (row t)) (entries m))))%nat).
  { rewrite E at 1. now rewrite !app_length. }
  set (A := filter (fun t => Nat.ltb (row t) i) (entries m)) in *. set (B := filter (fun t => Nat.eqb (row t) i) (entries m)) in *. set (C := filter (fun t => Nat.ltb i (row t)) (entries m)) in *.
  rewrite E. clear E.
  destruct (Nat.lt_ge_cases p (length A)) as [H|H].
  - rewrite app_nth1 by exact H. assert (X := filter_all_nth (fun t => Nat.ltb (row t) i) (entries m) p (O, O, 0) H). apply Nat.ltb_lt in X. fold A in X. lia.
  - rewrite app_nth2 by exact H. destruct (Nat.lt_ge_cases (p - length A) (length B)) as [H'|H'].
    + rewrite app_nth1 by exact H'. assert (X := filter_all_nth (fun t => Nat.eqb (row t) i) (entries m) (p - length A) (O, O, 0) H'). apply Nat.eqb_eq in X. fold B in X. lia.
    + rewrite app_nth2 by exact H'. assert (H'' : (p - length A - length B < length C)%nat) by lia.
      assert (X := filter_all_nth (fun t => Nat.ltb i (row t)) (entries m) (p - length A - length B) (O, O, 0) H''). apply Nat.ltb_lt in X. fold C in X. lia.
Qed.
Lemma range_bound m i p : good m -> (i < mt_nrows m)%nat -> In p (row_range m i) -> (p < length (mt_values m))%nat.
Proof.
  intros Gd Hi. rewrite (row_range_ok m i Gd Hi), in_seq. pose proof Gd as (L1 & _ & _ & _ & S & _). rewrite <- (entries_rows m Gd) in S.
  pose proof (f_equal (@length _) (sorted_split (entries m) i S)) as E. rewrite !app_length in E.
  assert (Len : length (entries m) = length (mt_values m)) by (rewrite <- L1, <- (entries_rows m Gd), map_length; reflexivity). lia.
Qed.
Lemma scale_range d l : NoDup l -> forall vs p, (forall j, In j l -> (j < length vs)%nat) ->
  at_ (fold_left (fun vs j => put vs j (at_ vs j * d)) l vs) p = if in_dec Nat.eq_dec p l then at_ vs p * d else at_ vs p.
Proof.
  induction 1 as [|j l N D IH]; intros vs p H; [reflexivity|]. cbn [fold_left]. rewrite IH by (intros k Hk; rewrite put_length; apply H; now right). rewrite put_at by (apply H; now left).
  destruct (in_dec Nat.eq_dec p l) as [I|I], (in_dec Nat.eq_dec p (j :: l)) as [I'|I'].
  - destruct (Nat.eqb_spec p j); [subst; contradiction|reflexivity].
  - exfalso. apply I'. now right.
  - destruct (Nat.eqb_spec p j) as [->|]; [reflexivity|]. destruct I'; [congruence|contradiction].
  - destruct (Nat.eqb_spec p j); [subst; exfalso; apply I'; now left|reflexivity].
Qed.
Lemma scale_range_length d l : forall vs, length (fold_left (fun vs j => put vs j (at_ vs j * d)) l vs) = length vs.
Proof. intros vs. apply (fold_put_length (fun j : nat => j) (fun vs j => at_ vs j * d)). Qed.
Lemma scale_rows_from m (d : vec) (vs0 : list Q) k : good m -> length vs0 = length (mt_values m) -> (k <= mt_nrows m)%nat ->
  let vs := fold_left (fun vs i => fold_left (fun vs j => put vs j (at_ vs j * at_ d i)) (row_range m i) vs) (seq 0 k) vs0 in
  length vs = length (mt_values m) /\
  forall p, (p < length (mt_values m))%nat -> at_ vs p = if Nat.ltb (nth p (mt_rows m) O) k then at_ vs0 p * at_ d (nth p (mt_rows m) O) else at_ vs0 p.
Proof.
  intros Gd L. induction k as [|k IH]; intros Hk vs.
  - subst vs. split; [exact L|]. intros p Hp. reflexivity.
  - subst vs. rewrite seq_S, fold_left_app. cbn [Nat.add fold_left]. destruct (IH ltac:(lia)) as [L' V]. clear IH. match type of L' with length ?v = _ => set (v1 := v) in * end.
    split; [now rewrite scale_range_length|]. intros p Hp. rewrite scale_range.
    2: { unfold row_range. apply seq_NoDup. }
    2: { intros j Hj. rewrite L'. apply (range_bound m k); auto; lia. }
    rewrite V by exact Hp. pose proof (pos_row m k p Gd ltac:(lia) Hp) as PR.
    destruct (in_dec Nat.eq_dec p (row_range m k)) as [I|I].
    + apply PR in I. rewrite I. destruct (Nat.ltb_spec k k); [lia|]. destruct (Nat.ltb_spec k (S k)); [reflexivity|lia].
    + assert (nth p (mt_rows m) O <> k) by (intros E; apply I, PR, E). destruct (Nat.ltb_spec (nth p (mt_rows m) O) k), (Nat.ltb_spec (nth p (mt_rows m) O) (S k)); try lia; reflexivity.
Qed.
Lemma scale_row_spec m d : good m -> length d = mt_nrows m -> exists m', scale_row m d = Ok m' /\ good m' /\ mt_nrows m' = mt_nrows m /\ mt_ncols m' = mt_ncols m /\
  forall i j, ent (entries m') i j == at_ d i * ent (entries m) i j.
Proof.
  intros Gd L. unfold scale_row. rewrite L, Nat.eqb_refl. eexists. split; [reflexivity|].
  pose proof Gd as (L1 & L2 & R & C & _). destruct (scale_rows_from m d (mt_values m) (mt_nrows m) Gd eq_refl (le_n _)) as [Lv V]. match type of Lv with length ?v = _ => set (vs := v) in * end.
  assert (G' : good (with_values m vs)). { eapply same_good; [|exact Gd]. unfold same_shape, with_values. cbn. auto 10. }
  split; [exact G'|]. split; [reflexivity|]. split; [reflexivity|]. intros i j.
  rewrite (triples_seq _ (good_sane _ G')), (triples_seq m (good_sane _ Gd)). cbn [with_values mt_values mt_rows mt_cols]. rewrite Lv. unfold ent. rewrite !map_map, <- total_scale.
  apply total_ext. intros p Hp. apply in_seq in Hp. unfold row, col. cbn [fst snd]. rewrite V by lia.
  assert (In_ : (nth p (mt_rows m) O < mt_nrows m)%nat) by (apply R, nth_In; lia). destruct (Nat.ltb_spec (nth p (mt_rows m) O) (mt_nrows m)); [|lia].
  destruct (Nat.eqb_spec (nth p (mt_rows m) O) i) as [->|]; cbn [andb]; [|ring]. destruct (Nat.eqb (nth p (mt_cols m) O) j); ring.
Qed.
Lemma combine_map_nth (cols : list nat) (d : vec) : forall (values : list Q) p, length cols = length values ->
  nth p (map (fun q => snd q * at_ d (fst q)) (combine cols values)) 0 == nth p values 0 * at_ d (nth p cols O).
Proof. induction cols as [|c cols IH]; intros [|v values] p L; try discriminate; destruct p; cbn; try ring. apply IH. now injection L. Qed.
Lemma scale_column_spec m d : good m -> length d = mt_ncols m -> exists m', scale_column m d = Ok m' /\ good m' /\ mt_nrows m' = mt_nrows m /\ mt_ncols m' = mt_ncols m /\
  forall i j, ent (entries m') i j == ent (entries m) i j * at_ d j.
Proof.
  intros Gd L. unfold scale_column. rewrite L, Nat.eqb_refl. eexists. split; [reflexivity|].
  pose proof Gd as (L1 & L2 & R & C & _). set (vs := map _ (combine (mt_cols m) (mt_values m))).
  assert (Lv : length vs = length (mt_values m)) by (unfold vs; rewrite map_length, combine_length; lia).
  assert (G' : good (with_values m vs)). { eapply same_good; [|exact Gd]. unfold same_shape, with_values. cbn. auto 10. }
  split; [exact G'|]. split; [reflexivity|]. split; [reflexivity|]. intros i j.
  rewrite (triples_seq _ (good_sane _ G')), (triples_seq m (good_sane _ Gd)). cbn [with_values mt_values mt_rows mt_cols]. rewrite Lv. unfold ent. rewrite !map_map, Qmult_comm, <- total_scale.
  apply total_ext. intros p Hp. unfold row, col. cbn [fst snd]. pose proof (combine_map_nth (mt_cols m) d (mt_values m) p L2) as E. fold vs in E. change (nth p vs 0) with (at_ vs p) in E. change (nth p (mt_values m) 0) with (at_ (mt_values m) p) in E.
  destruct (Nat.eqb_spec (nth p (mt_cols m) O) j) as [J|]; [|rewrite andb_false_r; ring]. rewrite J in E. destruct (Nat.eqb (nth p (mt_rows m) O) i); cbn [andb]; [rewrite E|]; ring.
Qed.
