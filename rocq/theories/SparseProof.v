(** Proofs for C61: products and row pointers. *)
From Coq Require Import List ZArith QArith Qabs Bool Lia Lqa Sorting.Sorted Permutation.
From Verif Require Import ConstraintModel PresolveModel DuplicateModel DuplicateProof SparseModel SparseSpec.
Import ListNotations.
Local Open Scope Q_scope.

(** ** Sums *)
Lemma total_app a b : total (a ++ b) == total a + total b.
Proof. induction a as [|x a IH]; cbn [app total]; [ring|]. rewrite IH. ring. Qed.
Lemma total_perm a b : Permutation a b -> total a == total b.
Proof. induction 1; cbn [total]; [reflexivity|now rewrite IHPermutation|ring|now rewrite IHPermutation1]. Qed.
Lemma total_ext {A} (f g : A -> Q) l : (forall a, In a l -> f a == g a) -> total (map f l) == total (map g l).
Proof. induction l as [|a l IH]; intros H; cbn [map total]; [reflexivity|]. rewrite (H a (or_introl eq_refl)), IH; [reflexivity|]. intros b Hb. apply H. now right. Qed.
Lemma total_plus {A} (f g : A -> Q) l : total (map (fun a => f a + g a) l) == total (map f l) + total (map g l).
Proof. induction l as [|a l IH]; cbn [map total]; [ring|]. rewrite IH. ring. Qed.
Lemma total_scale {A} (k : Q) (f : A -> Q) l : total (map (fun a => k * f a) l) == k * total (map f l).
Proof. induction l as [|a l IH]; cbn [map total]; [ring|]. rewrite IH. ring. Qed.
Lemma total_zero {A} (f : A -> Q) l : (forall a, In a l -> f a == 0) -> total (map f l) == 0.
Proof. induction l as [|a l IH]; intros H; cbn [map total]; [reflexivity|]. rewrite (H a (or_introl eq_refl)), IH; [ring|]. intros b Hb. apply H. now right. Qed.
Lemma total_le {A} (f g : A -> Q) l : (forall a, In a l -> f a <= g a) -> total (map f l) <= total (map g l).
Proof. induction l as [|a l IH]; intros H; cbn [map total]; [lra|]. specialize (IH (fun b Hb => H b (or_intror Hb))). specialize (H a (or_introl eq_refl)). lra. Qed.
Lemma total_swap {A B} (f : A -> B -> Q) l l' : total (map (fun a => total (map (f a) l')) l) == total (map (fun b => total (map (fun a => f a b) l)) l').
Proof.
  induction l as [|a l IH]; cbn [map total]; [symmetry; apply total_zero; reflexivity|]. rewrite IH, <- total_plus. apply total_ext. intros b _. reflexivity.
Qed.
Lemma sum_ext n f g : (forall i, (i < n)%nat -> f i == g i) -> sum_below n f == sum_below n g.
Proof. intros H. apply total_ext. intros i Hi. apply in_seq in Hi. apply H. lia. Qed.
Lemma sum_delta_from k n j v (x : nat -> Q) : (k <= j < k + n)%nat -> total (map (fun i => (if Nat.eqb j i then v else 0) * x i) (seq k n)) == v * x j.
Proof.
  revert k. induction n as [|n IH]; intros k H; [lia|]. cbn [seq map total]. destruct (Nat.eqb_spec j k) as [->|D].
  - rewrite total_zero; [ring|]. intros i Hi. apply in_seq in Hi. destruct (Nat.eqb_spec k i); [lia|ring].
  - rewrite IH by lia. ring.
Qed.
Lemma sum_delta n j v (x : nat -> Q) : (j < n)%nat -> sum_below n (fun i => (if Nat.eqb j i then v else 0) * x i) == v * x j.
Proof. intros H. apply sum_delta_from. lia. Qed.

(** ** Entries *)
Definition row (t : nat * nat * Q) := fst (fst t).
Definition col (t : nat * nat * Q) := snd (fst t).
Definition ent (ts : list (nat * nat * Q)) (i j : nat) : Q := total (map (fun t => if Nat.eqb (row t) i && Nat.eqb (col t) j then snd t else 0) ts).
Definition row_sum (ts : list (nat * nat * Q)) (x : nat -> Q) (i : nat) : Q := total (map (fun t => if Nat.eqb (row t) i then snd t * x (col t) else 0) ts).
Lemma value_ent rows : forall cols values i j, value_at rows cols values i j = ent (triples rows cols values) i j.
Proof.
  induction rows as [|r rows IH]; intros [|c cols] [|v values] i j; try reflexivity. cbn [value_at]. rewrite IH. reflexivity.
Qed.
Lemma row_sum_dense ts x i nc : (forall t, In t ts -> (col t < nc)%nat) -> row_sum ts x i == sum_below nc (fun j => ent ts i j * x j).
Proof.
  induction ts as [|t ts IH]; intros H.
  - unfold row_sum, ent. cbn [map total]. symmetry. apply total_zero. intros a _. ring.
  - unfold row_sum in *. cbn [map total]. rewrite IH by (intros u Hu; apply H; now right).
    assert (E : sum_below nc (fun j => ent (t :: ts) i j * x j) == sum_below nc (fun j => (if Nat.eqb (col t) j then (if Nat.eqb (row t) i then snd t else 0) else 0) * x j) + sum_below nc (fun j => ent ts i j * x j)).
    { unfold sum_below. rewrite <- total_plus. apply total_ext. intros j _. unfold ent. cbn [map total]. destruct (Nat.eqb (row t) i), (Nat.eqb (col t) j); cbn [andb]; ring. }
    rewrite E, sum_delta by (apply H; now left). destruct (Nat.eqb (row t) i); ring.
Qed.
(** The bilinear form. *)
Definition form (ts : list (nat * nat * Q)) (y x : nat -> Q) : Q := total (map (fun t => snd t * (y (row t) * x (col t))) ts).
Lemma form_rows ts y x nr : (forall t, In t ts -> (row t < nr)%nat) -> sum_below nr (fun i => y i * row_sum ts x i) == form ts y x.
Proof.
  induction ts as [|t ts IH]; intros H.
  - unfold form, row_sum. cbn [map total]. apply total_zero. intros a _. ring.
  - unfold form in *. cbn [map total]. rewrite <- IH by (intros u Hu; apply H; now right).
    assert (E : sum_below nr (fun i => y i * row_sum (t :: ts) x i) == sum_below nr (fun i => (if Nat.eqb (row t) i then snd t * x (col t) else 0) * y i) + sum_below nr (fun i => y i * row_sum ts x i)).
    { unfold sum_below. rewrite <- total_plus. apply total_ext. intros i _. unfold row_sum. cbn [map total]. destruct (Nat.eqb (row t) i); ring. }
    rewrite E, sum_delta by (apply H; now left). ring.
Qed.

(** ** Row pointers *)
Definition count_below (rows : list nat) (i : nat) : nat := length (filter (fun r => Nat.ltb r i) rows).
Lemma bump_length l i : length (bump l i) = length l.
Proof. revert i. induction l as [|a l IH]; intros [|i]; cbn; congruence. Qed.
Lemma bump_nth l : forall i k, (i < length l)%nat -> nth k (bump l i) O = (nth k l O + if Nat.eqb k i then 1 else 0)%nat.
Proof.
  induction l as [|a l IH]; intros i k H; cbn [length] in H; [lia|]. destruct i as [|i], k as [|k]; cbn [bump nth Nat.eqb]; try lia. now rewrite IH by lia.
Qed.
Lemma bumps_length rows : forall l, length (fold_left (fun l r => bump l (S r)) rows l) = length l.
Proof. induction rows as [|r rows IH]; intros l; cbn [fold_left]; [reflexivity|]. now rewrite IH, bump_length. Qed.
Definition count_at (rows : list nat) (i : nat) : nat := length (filter (fun r => Nat.eqb r i) rows).
Lemma bumps_nth rows : forall l k, (forall r, In r rows -> (S r < length l)%nat) -> nth k (fold_left (fun l r => bump l (S r)) rows l) O = (nth k l O + match k with O => O | S k => count_at rows k end)%nat.
Proof.
  induction rows as [|r rows IH]; intros l k H; cbn [fold_left].
  - unfold count_at. cbn. destruct k; lia.
  - rewrite IH by (intros u Hu; rewrite bump_length; apply H; now right). rewrite bump_nth by (apply H; now left). destruct k as [|k]; cbn [Nat.eqb]; [lia|].
    unfold count_at. cbn [filter]. rewrite (Nat.eqb_sym k r). destruct (Nat.eqb r k); cbn [length]; lia.
Qed.
Fixpoint nsum (l : list nat) : nat := match l with [] => O | a :: tl => (a + nsum tl)%nat end.
Lemma prefix_nth l : forall acc k, (k < length l)%nat -> nth k (prefix acc l) O = (acc + nsum (firstn (S k) l))%nat.
Proof.
  induction l as [|a l IH]; intros acc k H; cbn [length] in H; [lia|]. destruct k as [|k]; cbn [prefix nth].
  - cbn [firstn nsum]. lia.
  - rewrite IH by lia. rewrite firstn_cons. cbn [nsum]. lia.
Qed.
Lemma prefix_length l : forall acc, length (prefix acc l) = length l.
Proof. induction l; intros; cbn; auto. Qed.
Lemma count_below_S rows i : count_below rows (S i) = (count_below rows i + count_at rows i)%nat.
Proof.
  unfold count_below, count_at. induction rows as [|r rows IH]; [reflexivity|]. cbn [filter]. destruct (Nat.ltb_spec r (S i)), (Nat.ltb_spec r i), (Nat.eqb_spec r i); cbn [length]; lia.
Qed.
Lemma count_below_0 rows : count_below rows 0 = O.
Proof. unfold count_below. induction rows as [|r rows IH]; [reflexivity|]. cbn [filter]. exact IH. Qed.
Lemma nsum_firstn_S l k : (k < length l)%nat -> nsum (firstn (S k) l) = (nsum (firstn k l) + nth k l O)%nat.
Proof. revert k. induction l as [|a l IH]; intros k H; cbn [length] in H; [lia|]. destruct k as [|k]; [cbn; lia|]. rewrite firstn_cons. cbn [nsum]. rewrite IH by lia. cbn [firstn nsum nth]. lia. Qed.
Lemma repeat_nth n k : nth k (repeat O n) O = O.
Proof. revert k. induction n; intros [|k]; cbn; auto. Qed.
Lemma pointers_ok rows nr i : (forall r, In r rows -> (r < nr)%nat) -> (i <= nr)%nat -> nth i (row_pointers [] rows nr) O = count_below rows i.
Proof.
  intros H Hi. unfold row_pointers, resize. cbn [length]. rewrite Nat.sub_0_r, firstn_nil. cbn [app].
  pose proof (bumps_length rows (repeat O (S nr))) as L. rewrite repeat_length in L.
  assert (N : forall k, nth k (fold_left (fun l r => bump l (S r)) rows (repeat O (S nr))) O = match k with O => O | S k => count_at rows k end).
  { intros k. rewrite bumps_nth, repeat_nth; [reflexivity|]. intros r Hr. rewrite repeat_length. specialize (H r Hr). lia. }
  destruct (fold_left _ rows (repeat O (S nr))) as [|a l]; [discriminate|]. cbn [length] in L.
  assert (A : a = O) by exact (N O). destruct i as [|i]; [cbn [nth]; now rewrite count_below_0|]. cbn [nth]. rewrite prefix_nth by lia. subst a. cbn [Nat.add].
  assert (G : forall k, (k <= nr)%nat -> nsum (firstn k l) = count_below rows k).
  { induction k as [|k IH]; intros Hk; [cbn; now rewrite count_below_0|]. rewrite nsum_firstn_S by lia. rewrite IH by lia. rewrite count_below_S. f_equal. exact (N (S k)). }
  apply G. lia.
Qed.

(** ** Good matrices: what the constructor makes of entries listed by rows *)
Definition good (m : matrix) : Prop :=
  length (mt_rows m) = length (mt_values m) /\ length (mt_cols m) = length (mt_values m) /\
  (forall r, In r (mt_rows m) -> (r < mt_nrows m)%nat) /\ (forall c, In c (mt_cols m) -> (c < mt_ncols m)%nat) /\
  by_rows (mt_rows m) /\ (forall i, (i <= mt_nrows m)%nat -> nth i (mt_ptrs m) O = count_below (mt_rows m) i) /\
  length (mt_row_scaler m) = mt_nrows m /\ length (mt_col_scaler m) = mt_ncols m.
Lemma setup_spec old values rows cols nr nc m : m_setup old values rows cols nr nc = Ok m ->
  length rows = length values /\ length cols = length values /\ (forall r, In r rows -> (r < nr)%nat) /\ (forall c, In c cols -> (c < nc)%nat) /\
  mt_values m = values /\ mt_rows m = rows /\ mt_cols m = cols /\ mt_ptrs m = row_pointers old rows nr /\ mt_nrows m = nr /\ mt_ncols m = nc /\
  mt_row_scaler m = repeat 1 nr /\ mt_col_scaler m = repeat 1 nc.
Proof.
  unfold m_setup. destruct (_ && _) eqn:E; [|discriminate]. apply andb_prop in E. destruct E as [E E4]. apply andb_prop in E. destruct E as [E E3]. apply andb_prop in E. destruct E as [E1 E2].
  apply Nat.eqb_eq in E1, E2. rewrite forallb_forall in E3, E4. destruct (largest _); cbn [bind]; try discriminate. intros H. inversion H. cbn.
  split; [exact E1|]. split; [exact E2|]. split; [intros r Hr; apply Nat.ltb_lt; auto|]. split; [intros c Hc; apply Nat.ltb_lt; auto|]. repeat split.
Qed.
Lemma setup_good values rows cols nr nc m : m_setup [] values rows cols nr nc = Ok m -> by_rows rows -> good m.
Proof.
  intros H S. destruct (setup_spec _ _ _ _ _ _ _ H) as (L1 & L2 & R & C & E1 & E2 & E3 & E4 & E5 & E6 & E7 & E8).
  unfold good. rewrite E1, E2, E3, E4, E5, E6, E7, E8, !repeat_length. repeat (split; [assumption|]). split; [|auto]. intros i Hi. now apply pointers_ok.
Qed.

Lemma combine_seq_nth {A B} (l : list A) (l' : list B) a b k : length l = length l' -> nth k (combine l l') (a, b) = (nth k l a, nth k l' b).
Proof. intros H. now apply combine_nth. Qed.
Lemma entries_nth m k : good m -> nth k (entries m) (O, O, 0) = (nth k (mt_rows m) O, nth k (mt_cols m) O, at_ (mt_values m) k).
Proof. intros (L1 & L2 & _). unfold entries, triples, at_. rewrite !combine_nth; [reflexivity|congruence|]. rewrite combine_length. lia. Qed.
Lemma entries_rows m : good m -> map row (entries m) = mt_rows m.
Proof.
  intros (L1 & L2 & _). unfold entries, triples, row. rewrite <- (map_map fst fst).
  assert (G : forall {A B} (l : list A) (l' : list B), length l = length l' -> map fst (combine l l') = l).
  { induction l as [|a l IH]; intros [|b l'] H; cbn in *; try discriminate; [reflexivity|]. f_equal. apply IH. now injection H. }
  rewrite G by (rewrite combine_length; lia). apply G. congruence.
Qed.
Lemma entries_cols m : good m -> map col (entries m) = mt_cols m.
Proof.
  intros (L1 & L2 & _). unfold entries, triples, col. rewrite <- (map_map fst snd).
  assert (G : forall {A B} (l : list A) (l' : list B), length l = length l' -> map fst (combine l l') = l).
  { induction l as [|a l IH]; intros [|b l'] H; cbn in *; try discriminate; [reflexivity|]. f_equal. apply IH. now injection H. }
  assert (G' : forall {A B} (l : list A) (l' : list B), length l = length l' -> map snd (combine l l') = l').
  { induction l as [|a l IH]; intros [|b l'] H; cbn in *; try discriminate; [reflexivity|]. f_equal. apply IH. now injection H. }
  rewrite G by (rewrite combine_length; lia). apply G'. congruence.
Qed.
Lemma entry_range m t : good m -> In t (entries m) -> (row t < mt_nrows m)%nat /\ (col t < mt_ncols m)%nat.
Proof.
  intros Gd H. pose proof Gd as (_ & _ & R & C & _). split; [apply R|apply C]; [rewrite <- (entries_rows m Gd)|rewrite <- (entries_cols m Gd)]; now apply in_map.
Qed.
Lemma filter_map_length {A B} (f : A -> B) p l : length (filter p (map f l)) = length (filter (fun a => p (f a)) l).
Proof. induction l as [|a l IH]; [reflexivity|]. cbn [map filter]. destruct (p (f a)); cbn [length]; auto. Qed.
Lemma sorted_split (ts : list (nat * nat * Q)) i : StronglySorted le (map row ts) ->
  ts = filter (fun t => Nat.ltb (row t) i) ts ++ filter (fun t => Nat.eqb (row t) i) ts ++ filter (fun t => Nat.ltb i (row t)) ts.
Proof.
  induction ts as [|t ts IH]; intros H; [reflexivity|]. cbn [map] in H. inversion H as [|? ? S F]; subst. specialize (IH S). cbn [filter].
  destruct (Nat.ltb_spec (row t) i) as [L|L].
  - destruct (Nat.eqb_spec (row t) i); [lia|]. destruct (Nat.ltb_spec i (row t)); [lia|]. cbn [app]. now rewrite IH at 1.
  - assert (E : filter (fun t => Nat.ltb (row t) i) ts = []).
    { clear IH S H. induction ts as [|u ts IH]; [reflexivity|]. cbn [map] in F. inversion F; subst. cbn [filter]. destruct (Nat.ltb_spec (row u) i); [lia|]. auto. }
    rewrite E in *. cbn [app] in *. destruct (Nat.eqb_spec (row t) i) as [D|D].
    + destruct (Nat.ltb_spec i (row t)); [lia|]. cbn [app]. now rewrite IH at 1.
    + destruct (Nat.ltb_spec i (row t)); [|lia]. assert (E' : filter (fun t => Nat.eqb (row t) i) ts = []).
      { clear IH E S H. induction ts as [|u ts IH]; [reflexivity|]. cbn [map] in F. inversion F; subst. cbn [filter]. destruct (Nat.eqb_spec (row u) i); [lia|]. auto. }
      rewrite E' in *. cbn [app] in *. now rewrite IH at 1.
Qed.
Lemma fold_range {A} (f : Q -> A -> Q) (d : A) (b : list A) : forall a c s,
  fold_left (fun s j => f s (nth j (a ++ b ++ c) d)) (seq (length a) (length b)) s = fold_left f b s.
Proof.
  induction b as [|x b IH]; intros a c s; [reflexivity|]. cbn [length seq fold_left]. replace (nth (length a) (a ++ (x :: b) ++ c) d) with x by (rewrite app_nth2, Nat.sub_diag by lia; reflexivity).
  specialize (IH (a ++ [x]) c (f s x)). rewrite app_length, Nat.add_1_r, <- app_assoc in IH. exact IH.
Qed.
Lemma fold_ext {A} (f g : Q -> A -> Q) l : (forall s a, f s a = g s a) -> forall s, fold_left f l s = fold_left g l s.
Proof. intros H. induction l as [|a l IH]; intros s; cbn [fold_left]; [reflexivity|]. now rewrite H, IH. Qed.
Lemma fold_total {A} (g : A -> Q) l : forall s, fold_left (fun s a => s + g a) l s == s + total (map g l).
Proof. induction l as [|a l IH]; intros s; cbn [fold_left map total]; [ring|]. rewrite IH. ring. Qed.
Lemma filter_total {A} (g : A -> Q) p l : total (map g (filter p l)) == total (map (fun a => if p a then g a else 0) l).
Proof. induction l as [|a l IH]; [reflexivity|]. cbn [filter map total]. destruct (p a); cbn [map total]; rewrite IH; ring. Qed.
Lemma row_range_ok m i : good m -> (i < mt_nrows m)%nat ->
  row_range m i = seq (length (filter (fun t => Nat.ltb (row t) i) (entries m))) (length (filter (fun t => Nat.eqb (row t) i) (entries m))).
Proof.
  intros Gd Hi. pose proof Gd as (_ & _ & _ & _ & _ & P & _). unfold row_range. rewrite !P by lia. rewrite count_below_S. unfold count_below, count_at.
  rewrite <- (entries_rows m Gd), !(filter_map_length row). f_equal. lia.
Qed.
(** A loop over the positions of a row is a sum over its entries. *)
Lemma row_loop m i (g : nat -> Q -> Q) s : good m -> (i < mt_nrows m)%nat ->
  fold_left (fun s j => s + g (nth j (mt_cols m) O) (at_ (mt_values m) j)) (row_range m i) s == s + total (map (fun t => if Nat.eqb (row t) i then g (col t) (snd t) else 0) (entries m)).
Proof.
  intros Gd Hi. rewrite (row_range_ok m i Gd Hi).
  rewrite (fold_ext _ (fun s j => (fun s (t : nat * nat * Q) => s + g (col t) (snd t)) s (nth j (entries m) (O, O, 0)))).
  2: { intros s0 j. rewrite (entries_nth m j Gd). reflexivity. }
  pose proof Gd as (_ & _ & _ & _ & S & _). rewrite <- (entries_rows m Gd) in S.
  pose proof (sorted_split (entries m) i S) as E.
  set (A := filter (fun t => Nat.ltb (row t) i) (entries m)) in *. set (B := filter (fun t => Nat.eqb (row t) i) (entries m)) in *. set (C := filter (fun t => Nat.ltb i (row t)) (entries m)) in *.
  transitivity (s + total (map (fun t => g (col t) (snd t)) B)).
  - rewrite <- (fold_total (fun t => g (col t) (snd t)) B s), <- (fold_range (fun s (t : nat * nat * Q) => s + g (col t) (snd t)) (O, O, 0) B A C s), <- E. reflexivity.
  - unfold B. rewrite filter_total. reflexivity.
Qed.

Lemma dot_good m x : good m -> length x = mt_ncols m -> exists y, m_dot m x = Ok y /\ length y = mt_nrows m /\
  forall i, (i < mt_nrows m)%nat -> at_ y i == row_sum (entries m) (at_ x) i.
Proof.
  intros Gd L. unfold m_dot. rewrite L, Nat.eqb_refl. exists (m_mul m x). split; [reflexivity|]. unfold m_mul. split; [now rewrite map_length, seq_length|]. intros i Hi. unfold at_ at 1.
  assert (E : forall f : nat -> Q, nth i (map f (seq 0 (mt_nrows m))) 0 = f i).
  { intros f. rewrite (nth_indep _ 0 (f O)) by (now rewrite map_length, seq_length). rewrite map_nth, seq_nth by exact Hi. reflexivity. }
  rewrite E, (row_loop m i (fun c v => v * at_ x c) 0 Gd Hi). unfold row_sum. ring.
Qed.
Lemma nth_seq_map (f : nat -> Q) n i : (i < n)%nat -> nth i (map f (seq 0 n)) 0 = f i.
Proof. intros Hi. rewrite (nth_indep _ 0 (f O)) by (now rewrite map_length, seq_length). rewrite map_nth, seq_nth by exact Hi. reflexivity. Qed.
Lemma row_sum_scale a ts x i : total (map (fun t => if Nat.eqb (row t) i then a * snd t * x (col t) else 0) ts) == a * row_sum ts x i.
Proof. unfold row_sum. rewrite <- total_scale. apply total_ext. intros t _. destruct (Nat.eqb (row t) i); ring. Qed.
Lemma lin2_good a m x b y i : good m -> (i < mt_nrows m)%nat -> at_ (m_lin2 a m x b y) i == a * row_sum (entries m) (at_ x) i + b * at_ y i.
Proof.
  intros Gd Hi. unfold m_lin2. unfold at_ at 1. rewrite nth_seq_map by exact Hi. rewrite (row_loop m i (fun c v => a * v * at_ x c) _ Gd Hi), row_sum_scale. ring.
Qed.
Lemma lin3_good a m x b y c z i : good m -> (i < mt_nrows m)%nat -> at_ (m_lin3 a m x b y c z) i == a * row_sum (entries m) (at_ x) i + b * at_ y i + c * at_ z i.
Proof.
  intros Gd Hi. unfold m_lin3. unfold at_ at 1. rewrite nth_seq_map by exact Hi. rewrite (row_loop m i (fun c v => a * v * at_ x c) _ Gd Hi), row_sum_scale. ring.
Qed.
