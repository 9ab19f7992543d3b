From Coq Require Import List ZArith QArith Bool Sorted Permutation Lia Lqa.
From Verif Require Import PresolveModel UnionFindModel UnionFindSpec MstProof SearchTreeModel SearchTreeSpec SearchTreeProof.
Import ListNotations.

(** * Adding the new solutions *)
Lemma nodup_flat {B} (f : nat -> list (nat * B)) l : NoDup l -> (forall i, NoDup (f i)) -> (forall i x, In x (f i) -> fst x = i) ->
  NoDup (flat_map f l).
Proof.
  intros N F G. induction N as [|a l A N IH]; cbn [flat_map]; [constructor|].
  apply nodup_app; [apply F|exact IH|]. intros x Hx Hy. apply in_flat_map in Hy. destruct Hy as (b & Hb & Hy).
  apply G in Hx. apply G in Hy. congruence.
Qed.

Lemma nodup_pair_map (i : nat) (l : list nat) : NoDup l -> NoDup (map (fun j => (i, j)) l).
Proof. intros N. apply FinFun.Injective_map_NoDup; [|exact N]. intros x y E. congruence. Qed.

Lemma new_pairs_in old new i j : (old <= new)%nat -> In (i, j) (new_pairs old new) <-> (i < j < new)%nat /\ (old <= j)%nat.
Proof.
  intros L. unfold new_pairs. rewrite in_app_iff, !in_flat_map. split.
  - intros [(x & Hx & Hy)|(x & Hx & Hy)]; apply in_map_iff in Hy; destruct Hy as (y & E & Hy); apply in_seq in Hx; apply in_seq in Hy;
      injection E as -> ->; lia.
  - intros H. destruct (Nat.lt_ge_cases i old) as [X|X].
    + left. exists i. split; [apply in_seq; lia|]. apply in_map_iff. exists j. split; [reflexivity|]. apply in_seq. lia.
    + right. exists i. split; [apply in_seq; lia|]. apply in_map_iff. exists j. split; [reflexivity|]. apply in_seq. lia.
Qed.

Lemma new_pairs_nodup old new : NoDup (new_pairs old new).
Proof.
  unfold new_pairs. apply nodup_app.
  - apply nodup_flat; [apply seq_NoDup|intros i; apply nodup_pair_map, seq_NoDup|].
    intros i x H. apply in_map_iff in H. destruct H as (y & <- & _). reflexivity.
  - apply nodup_flat; [apply seq_NoDup|intros i; apply nodup_pair_map, seq_NoDup|].
    intros i x H. apply in_map_iff in H. destruct H as (y & <- & _). reflexivity.
  - intros (i, j) H1 H2. apply in_flat_map in H1. apply in_flat_map in H2.
    destruct H1 as (x & Hx & Hx'). destruct H2 as (y & Hy & Hy').
    apply in_map_iff in Hx'. apply in_map_iff in Hy'. destruct Hx' as (? & E & _). destruct Hy' as (? & E' & _).
    apply in_seq in Hx. apply in_seq in Hy. assert (x = i) by congruence. assert (y = i) by congruence. lia.
Qed.

Definition mk (sols : list tsol) (ij : nat * nat) : edge :=
  mkEdge (fst ij) (snd ij)
    (match nth_error sols (fst ij), nth_error sols (snd ij) with
     | Some a, Some b => inject_Z (distance_l0 (ts_vars a) (ts_vars b)) | _, _ => 0%Q end).

Lemma add_links_ok sols n ijs : (n <= length sols)%nat -> forall g, well n g -> (forall i j, In (i, j) ijs -> (i < n)%nat /\ (j < n)%nat) ->
  exists g', add_links sols g ijs = Ok g' /\ well n g' /\ g_edges g' = g_edges g ++ map (mk sols) ijs.
Proof.
  intros L. induction ijs as [|(i, j) ijs IH]; intros g W H.
  - exists g. cbn. rewrite app_nil_r. split; [reflexivity|]. split; [exact W|reflexivity].
  - destruct (H i j (or_introl eq_refl)) as (Hi & Hj). cbn [add_links]. unfold link.
    destruct (nth_error sols i) as [a|] eqn:A; [|apply nth_error_None in A; lia].
    destruct (nth_error sols j) as [b|] eqn:B; [|apply nth_error_None in B; lia]. cbn [bind].
    destruct (IH (add_edge g (mkEdge i j (inject_Z (distance_l0 (ts_vars a) (ts_vars b)))))) as (g' & R1 & R2 & R3).
    + apply well_add_edge; [exact W|exact Hi|exact Hj].
    + intros x y I. apply H. right. exact I.
    + exists g'. split; [exact R1|]. split; [exact R2|]. rewrite R3. cbn [add_edge g_edges map]. rewrite <- app_assoc. cbn [app].
      do 2 f_equal. unfold mk. cbn [fst snd]. rewrite A, B. reflexivity.
Qed.

Definition all_sparse (sols : list tsol) := forall s, In s sols -> sparse (ts_vars s).

Lemma complete_extend l r es : complete l es -> all_sparse (l ++ r) ->
  complete (l ++ r) (es ++ map (mk (l ++ r)) (new_pairs (length l) (length (l ++ r)))).
Proof.
  intros (N & C1 & C2) SP.
  assert (LL : (length l <= length (l ++ r))%nat) by (rewrite app_length; lia).
  set (sols := l ++ r) in *.
  split; [|split].
  - apply nodup_app.
    + exact N.
    + apply (NoDup_map_inv (fun e => (e_fst e, e_snd e))). rewrite map_map.
      rewrite (map_ext _ (fun x => x)) by (intros (i, j); reflexivity). rewrite map_id. apply new_pairs_nodup.
    + intros e He Hf. apply in_map_iff in Hf. destruct Hf as ((i, j) & <- & Hf). apply new_pairs_in in Hf; [|exact LL].
      destruct (C1 _ He) as (_ & a & b & n & _ & B & _). cbn [mk e_snd snd] in B.
      assert (j < length l)%nat by (apply nth_error_Some; rewrite B; discriminate). lia.
  - intros e He. apply in_app_iff in He. destruct He as [He|He].
    + destruct (C1 _ He) as (X & a & b & n & A & B & Y). split; [exact X|]. exists a, b, n. unfold sols.
      rewrite !nth_error_app1; [split; [exact A|split; [exact B|exact Y]]| |]; apply nth_error_Some; congruence.
    + apply in_map_iff in He. destruct He as ((i, j) & <- & He). apply new_pairs_in in He; [|exact LL].
      unfold mk. cbn [e_fst e_snd e_weight fst snd]. split; [lia|].
      destruct (nth_error sols i) as [a|] eqn:A; [|apply nth_error_None in A; lia].
      destruct (nth_error sols j) as [b|] eqn:B; [|apply nth_error_None in B; lia].
      exists a, b, (distance_l0 (ts_vars a) (ts_vars b)). split; [reflexivity|]. split; [reflexivity|]. split; [|reflexivity].
      apply distance_hamming; apply SP; eapply nth_error_In; eassumption.
  - intros i j H. destruct (Nat.lt_ge_cases j (length l)) as [X|X].
    + destruct (C2 i j ltac:(lia)) as (e & E & F). exists e. split; [apply in_or_app; left; exact E|exact F].
    + exists (mk sols (i, j)). split; [|split; reflexivity]. apply in_or_app. right. apply in_map_iff. exists (i, j).
      split; [reflexivity|]. apply new_pairs_in; [exact LL|]. lia.
Qed.

Lemma complete_range sols es e : complete sols es -> In e es -> (e_fst e < length sols)%nat /\ (e_snd e < length sols)%nat.
Proof.
  intros (_ & C & _) H. destruct (C e H) as (_ & a & b & n & A & B & _). split; apply nth_error_Some; congruence.
Qed.

(** * The spanning tree *)
Lemma spanning_tree_ok n g : well n g -> (forall e, In e (g_edges g) -> (e_fst e < n)%nat /\ (e_snd e < n)%nat) ->
  exists m T, spanning_tree g = Some m /\ g_edges m = T /\ well n m /\ minimum_tree T (g_edges g) /\ incl T (g_edges g).
Proof.
  intros (K & G) H. unfold spanning_tree. rewrite K.
  destruct (mst_correct (seq 0 n) (seq_NoDup n 0) (g_edges g)) as (T & E & S & M).
  { intros e He. rewrite !in_seq. specialize (H e He). lia. }
  rewrite E.
  assert (IN : incl T (g_edges g)).
  { intros e He. destruct S as ((rest & P) & _). eapply Permutation_in; [exact P|]. apply in_or_app. left. exact He. }
  destruct (well_nodes n 0 graph_init well_init (fun e (I : In e []) => match I with end)) as (W1 & E1).
  destruct (well_edges n T (fold_left add_node (seq 0 n) graph_init) W1) as (W2 & E2).
  { intros e He. apply H. apply IN. exact He. }
  exists (fold_left add_edge T (fold_left add_node (seq 0 n) graph_init)), T.
  split; [reflexivity|]. split; [rewrite E2, E1; reflexivity|]. split; [exact W2|]. split; [split; assumption|exact IN].
Qed.

(** * The classification *)
Definition lower (sols : list tsol) (i k : nat) : bool :=
  match nth_error sols i, nth_error sols k with
  | Some a, Some b => if Qlt_le_dec (ts_aug b) (ts_aug a) then true else false
  | _, _ => false
  end.

Lemma worse_ok sols i k : (i < length sols)%nat -> (k < length sols)%nat -> worse_than sols i k = Ok (lower sols i k).
Proof.
  intros Hi Hk. unfold worse_than, lower. destruct (nth_error sols i) as [a|] eqn:A; [|apply nth_error_None in A; lia].
  destruct (Nat.eqb_spec k i) as [->|N].
  - rewrite A. destruct (Qlt_le_dec (ts_aug a) (ts_aug a)) as [L|L]; [exfalso; lra|reflexivity].
  - destruct (nth_error sols k) as [b|] eqn:B; [|apply nth_error_None in B; lia]. reflexivity.
Qed.

Definition beats (sols : list tsol) (es : list edge) (i x : nat) : bool :=
  match nth_error es x with Some e => lower sols i (e_fst e) || lower sols i (e_snd e) | None => false end.

Lemma better_ok sols es i xs : (i < length sols)%nat ->
  (forall e, In e es -> (e_fst e < length sols)%nat /\ (e_snd e < length sols)%nat) -> (forall x, In x xs -> (x < length es)%nat) ->
  better_neighbour sols es i xs = Ok (existsb (beats sols es i) xs).
Proof.
  intros Hi HE. induction xs as [|x xs IH]; intros H; [reflexivity|]. cbn [better_neighbour existsb].
  unfold beats at 1. destruct (nth_error es x) as [e|] eqn:E; [|apply nth_error_None in E; specialize (H x (or_introl eq_refl)); lia].
  destruct (HE e (nth_error_In _ _ E)) as (F & G). rewrite (worse_ok _ _ _ Hi F). cbn [bind].
  destruct (lower sols i (e_fst e)); [reflexivity|]. rewrite (worse_ok _ _ _ Hi G). cbn [bind orb].
  destruct (lower sols i (e_snd e)); [reflexivity|]. cbn [orb]. apply IH. intros y Hy. apply H. right. exact Hy.
Qed.

Definition row (sols : list tsol) (inc : tsol) (i : nat) (sd : tsol * Z) : Prop :=
  nth_error sols i = Some (fst sd) /\ hamming (ts_vars (fst sd)) (ts_vars inc) (snd sd).

Lemma classify_ok sols t inc n : well n t -> n = length sols -> all_sparse sols -> sparse (ts_vars inc) ->
  (forall e, In e (g_edges t) -> (e_fst e < n)%nat /\ (e_snd e < n)%nat) ->
  forall is_, (forall i, In i is_ -> (i < n)%nat) ->
  exists fr lo, classify sols t inc is_ = Ok (fr, lo) /\
    Forall2 (row sols inc) (filter (fun i => Nat.eqb (degree (g_edges t) i) 1) is_) fr /\
    Forall2 (row sols inc) (filter (fun i => negb (existsb (beats sols (g_edges t) i) (incident i (g_edges t)))) is_) lo.
Proof.
  intros (K & G) -> SP SI HE. induction is_ as [|i is_ IH]; intros H.
  - exists [], []. split; [reflexivity|]. split; constructor.
  - assert (Hi : (i < length sols)%nat) by (apply H; left; reflexivity).
    destruct (IH (fun j J => H j (or_intror J))) as (fr & lo & A & B & C). cbn [classify].
    destruct (nth_error sols i) as [s|] eqn:E; [|apply nth_error_None in E; lia].
    rewrite (G i Hi). rewrite better_ok; [|exact Hi|exact HE|].
    2: { intros x Hx. apply incident_in in Hx. destruct Hx as (e & X & _). apply nth_error_Some. congruence. }
    cbn [bind]. rewrite A. cbn [bind fst snd]. eexists _, _. split; [reflexivity|].
    assert (R : row sols inc i (s, distance_l0 (ts_vars s) (ts_vars inc))).
    { split; [exact E|]. cbn [fst snd]. apply distance_hamming; [apply SP; eapply nth_error_In; exact E|exact SI]. }
    rewrite incident_degree. cbn [filter]. split.
    + destruct (degree (g_edges t) i =? 1)%nat; cbn [app]; [constructor; assumption|exact B].
    + destruct (existsb _ (incident i (g_edges t))); cbn [negb app]; [exact C|constructor; assumption].
Qed.

Lemma sorted_filter f l : StronglySorted lt l -> StronglySorted lt (filter f l).
Proof.
  induction 1 as [|a l A IH B]; cbn [filter]; [constructor|]. destruct (f a); [|exact IH]. constructor; [exact IH|].
  rewrite Forall_forall in *. intros x Hx. apply filter_In in Hx. apply B. apply Hx.
Qed.
Lemma sorted_seq m : forall n, StronglySorted lt (seq n m).
Proof.
  induction m as [|m IH]; intros n; cbn [seq]; constructor; [apply IH|].
  apply Forall_forall. intros x Hx. apply in_seq in Hx. lia.
Qed.

Lemma beats_spec sols es i : (i < length sols)%nat ->
  (forall e, In e es -> (e_fst e < length sols)%nat /\ (e_snd e < length sols)%nat) ->
  negb (existsb (beats sols es i) (incident i es)) = true <-> no_better sols es i.
Proof.
  intros Hi HE. rewrite negb_true_iff. split.
  - intros H k a b (e & I & J) A B. destruct (In_nth_error _ _ I) as (x & X).
    assert (IX : In x (incident i es)).
    { apply incident_in. exists e. split; [exact X|]. unfold at_node. apply orb_true_iff. rewrite !Nat.eqb_eq. tauto. }
    assert (F : beats sols es i x = false).
    { destruct (beats sols es i x) eqn:E; [|reflexivity]. assert (existsb (beats sols es i) (incident i es) = true) by (apply existsb_exists; exists x; auto). congruence. }
    unfold beats in F. rewrite X in F. apply orb_false_iff in F. unfold lower in F. rewrite A in F.
    destruct J as [(J1 & J2)|(J1 & J2)]; subst.
    + destruct F as (_ & F). rewrite B in F. destruct (Qlt_le_dec (ts_aug b) (ts_aug a)); [discriminate|assumption].
    + destruct F as (F & _). rewrite B in F. destruct (Qlt_le_dec (ts_aug b) (ts_aug a)); [discriminate|assumption].
  - intros H. destruct (existsb (beats sols es i) (incident i es)) eqn:E; [|reflexivity]. exfalso.
    apply existsb_exists in E. destruct E as (x & I & F). apply incident_in in I. destruct I as (e & X & A).
    unfold beats in F. rewrite X in F. unfold at_node in A. apply orb_true_iff in A. rewrite !Nat.eqb_eq in A.
    pose proof (nth_error_In _ _ X) as IE.
    assert (LW : forall k, lower sols i k = true -> exists a b, nth_error sols i = Some a /\ nth_error sols k = Some b /\ (ts_aug b < ts_aug a)%Q).
    { intros k. unfold lower. destruct (nth_error sols i) as [a|]; [|discriminate]. destruct (nth_error sols k) as [b|]; [|discriminate].
      destruct (Qlt_le_dec (ts_aug b) (ts_aug a)); [|discriminate]. intros _. exists a, b. auto. }
    apply orb_true_iff in F.
    assert (Q : exists k, adjacent es i k /\ lower sols i k = true).
    { destruct A as [A|A]; destruct F as [F|F].
      - rewrite A in F. apply LW in F. destruct F as (a & b & F1 & F2 & F3). rewrite F1 in F2. injection F2 as <-. exfalso. lra.
      - exists (e_snd e). split; [|exact F]. exists e. split; [exact IE|]. left. split; [exact A|reflexivity].
      - exists (e_fst e). split; [|exact F]. exists e. split; [exact IE|]. right. split; [reflexivity|exact A].
      - rewrite A in F. apply LW in F. destruct F as (a & b & F1 & F2 & F3). rewrite F1 in F2. injection F2 as <-. exfalso. lra. }
    destruct Q as (k & Q1 & Q2). apply LW in Q2. destruct Q2 as (a & b & Q2 & Q3 & Q4). specialize (H k a b Q1 Q2 Q3). lra.
Qed.

Definition shown (sols : list tsol) (inc : tsol) (t : tree) : Prop :=
  exists es T, complete sols es /\ minimum_tree T es /\
    listed sols inc (leaf T) (tr_frontier t) /\ listed sols inc (no_better sols T) (tr_local t).

Lemma tree_update_ok l r inc t : well (length l) (tr_graph t) -> complete l (g_edges (tr_graph t)) -> all_sparse (l ++ r) -> sparse (ts_vars inc) ->
  exists t', tree_update t (l ++ r) inc = Ok t' /\ well (length (l ++ r)) (tr_graph t') /\
    complete (l ++ r) (g_edges (tr_graph t')) /\ shown (l ++ r) inc t'.
Proof.
  intros W C SP SI. unfold tree_update.
  assert (LN : length (g_nodes (tr_graph t)) = length l).
  { rewrite <- (map_length fst). destruct W as (K & _). rewrite K. apply seq_length. }
  rewrite LN.
  destruct (well_nodes (length (l ++ r) - length l) (length l) (tr_graph t) W) as (W1 & E1).
  { intros e He. apply (complete_range l _ e C He). }
  set (g1 := fold_left add_node (seq (length l) (length (l ++ r) - length l)) (tr_graph t)) in *.
  assert (LE : (length l <= length (l ++ r))%nat) by (rewrite app_length; lia).
  replace (length l + (length (l ++ r) - length l))%nat with (length (l ++ r)) in W1 by lia.
  destruct (add_links_ok (l ++ r) (length (l ++ r)) (new_pairs (length l) (length (l ++ r))) (Nat.le_refl _) g1 W1) as (g2 & A1 & A2 & A3).
  { intros i j I. apply new_pairs_in in I; [|exact LE]. lia. }
  rewrite A1. cbn [bind].
  assert (C2 : complete (l ++ r) (g_edges g2)) by (rewrite A3, E1; apply complete_extend; assumption).
  assert (RG : forall e, In e (g_edges g2) -> (e_fst e < length (l ++ r))%nat /\ (e_snd e < length (l ++ r))%nat) by (intros e He; apply (complete_range _ _ e C2 He)).
  destruct (spanning_tree_ok (length (l ++ r)) g2 A2 RG) as (m & T & S1 & S2 & S3 & S4 & S5). rewrite S1.
  assert (RT : forall e, In e (g_edges m) -> (e_fst e < length (l ++ r))%nat /\ (e_snd e < length (l ++ r))%nat) by (rewrite S2; intros e He; apply RG, S5, He).
  destruct (classify_ok (l ++ r) m inc (length (l ++ r)) S3 eq_refl SP SI RT (seq 0 (length (l ++ r)))) as (fr & lo & B1 & B2 & B3).
  { intros i I. apply in_seq in I. lia. }
  rewrite B1. cbn [bind fst snd]. eexists. split; [reflexivity|]. cbn [tr_graph]. split; [exact A2|]. split; [exact C2|].
  exists (g_edges g2), T. split; [exact C2|]. split; [exact S4|]. cbn [tr_frontier tr_local]. rewrite S2 in *. split.
  - eexists. split; [|split; [|exact B2]]; [apply sorted_filter, sorted_seq|].
    intros i. rewrite filter_In, in_seq, Nat.eqb_eq. unfold leaf. split; intros (X & Y); (split; [lia|exact Y]).
  - eexists. split; [|split; [|exact B3]]; [apply sorted_filter, sorted_seq|].
    intros i. rewrite filter_In, in_seq. split; intros (X & Y); (split; [lia|]); apply (beats_spec (l ++ r) T i ltac:(lia) RT); exact Y.
Qed.
