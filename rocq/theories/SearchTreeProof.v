From Coq Require Import List ZArith QArith Bool Sorted Permutation Lia.
From Verif Require Import PresolveModel UnionFindModel UnionFindSpec SearchTreeModel SearchTreeSpec.
Import ListNotations.

(** * Distances *)
Lemma lt_sorted_nodup l : StronglySorted lt l -> NoDup l.
Proof.
  induction 1 as [|a l A IH B]; constructor; [|exact IH].
  intros C. rewrite Forall_forall in B. specialize (B a C). lia.
Qed.

Lemma lookup_value m k : value m k = match lookup k m with Some v => v | None => 0%Z end.
Proof. unfold value, lookup. destruct (find _ m) as [[k' v]|]; reflexivity. Qed.

Lemma lookup_some m k v : lookup k m = Some v -> In (k, v) m.
Proof.
  unfold lookup. destruct (find _ m) as [[k' v']|] eqn:F; [|discriminate]. cbn. intros [= <-].
  apply find_some in F. destruct F as (A & B). cbn in B. apply Nat.eqb_eq in B. subst. exact A.
Qed.

Lemma lookup_in m k v : NoDup (map fst m) -> In (k, v) m -> lookup k m = Some v.
Proof.
  intros N I. unfold lookup. induction m as [|[k' v'] m IH]; [contradiction|].
  cbn [map fst] in N. inversion N as [|? ? N1 N2]; subst. cbn [find fst].
  destruct (Nat.eqb_spec k' k) as [->|E].
  - destruct I as [[= ->]|I]; [reflexivity|]. exfalso. apply N1. apply in_map_iff. exists (k, v). split; [reflexivity|exact I].
  - destruct I as [[= ? ?]|I]; [contradiction|]. apply IH; assumption.
Qed.

Lemma lookup_none m k : lookup k m = None <-> ~ In k (map fst m).
Proof.
  split.
  - unfold lookup. destruct (find _ m) as [|] eqn:F; [discriminate|]. intros _ I.
    apply in_map_iff in I. destruct I as (kv & E & I).
    pose proof (List.find_none _ _ F kv I) as X. cbn in X. rewrite E, Nat.eqb_refl in X. discriminate.
  - intros N. destruct (lookup k m) as [v|] eqn:E; [|reflexivity]. exfalso. apply N.
    apply lookup_some in E. apply in_map_iff. exists (k, v). split; [reflexivity|exact E].
Qed.

Definition missing (b : list (nat * Z)) (kv : nat * Z) : bool := match lookup (fst kv) b with None => true | _ => false end.
Definition same (b : list (nat * Z)) (kv : nat * Z) : bool := match lookup (fst kv) b with Some v => (snd kv =? v)%Z | None => false end.

Lemma l0_fold b a : forall r, fold_left (l0_turn b) a r =
  (r + Z.of_nat (length (filter (missing b) a)) - Z.of_nat (length (filter (same b) a)))%Z.
Proof.
  induction a as [|kv a IH]; intros r; cbn [fold_left filter]; [cbn [length]; lia|].
  rewrite IH. unfold l0_turn.
  destruct (missing b kv) eqn:M; destruct (same b kv) eqn:E; unfold missing in M; unfold same in E;
    destruct (lookup (fst kv) b) as [v|]; try discriminate; rewrite ?E; cbn [length]; lia.
Qed.

Lemma filter_split {A} (f : A -> bool) l : (length (filter f l) + length (filter (fun x => negb (f x)) l) = length l)%nat.
Proof. induction l as [|a l IH]; cbn [filter length]; [reflexivity|]. destruct (f a); cbn [negb length]; lia. Qed.

Lemma nodup_app {A} (l1 l2 : list A) : NoDup l1 -> NoDup l2 -> (forall x, In x l1 -> ~ In x l2) -> NoDup (l1 ++ l2).
Proof.
  induction 1 as [|a l A1 A2 IH]; intros N D; cbn [app]; [exact N|]. constructor.
  - rewrite in_app_iff. intros [X|X]; [contradiction|]. apply (D a); [left; reflexivity|exact X].
  - apply IH; [exact N|]. intros x Hx. apply D. right. exact Hx.
Qed.

Lemma nodup_map_filter {A} (f : nat * A -> bool) m : NoDup (map fst m) -> NoDup (map fst (filter f m)).
Proof.
  induction m as [|kv m IH]; cbn [map filter]; [auto|]. intros N. inversion N as [|? ? N1 N2]; subst.
  destruct (f kv); [|auto]. cbn [map]. constructor; [|auto]. intros I. apply N1.
  apply in_map_iff in I. destruct I as (x & E & I). apply filter_In in I. apply in_map_iff. exists x. tauto.
Qed.

Lemma hamming_count a b : sparse a -> sparse b ->
  hamming a b (Z.of_nat (length b) + Z.of_nat (length (filter (missing b) a)) - Z.of_nat (length (filter (same b) a)))%Z.
Proof.
  intros (Sa & Za) (Sb & Zb). apply lt_sorted_nodup in Sa, Sb.
  set (eqs := filter (fun k => (value a k =? value b k)%Z) (map fst b)).
  set (dif := filter (fun k => negb (value a k =? value b k)%Z) (map fst b)).
  set (mis := map fst (filter (missing b) a)).
  assert (L1 : (length eqs + length dif = length b)%nat).
  { unfold eqs, dif. rewrite (filter_split (fun k => (value a k =? value b k)%Z) (map fst b)). apply map_length. }
  assert (L2 : length eqs = length (filter (same b) a)).
  { rewrite <- (map_length fst (filter (same b) a)). apply Permutation_length. apply NoDup_Permutation.
    - apply NoDup_filter. exact Sb.
    - apply nodup_map_filter. exact Sa.
    - intros k. unfold eqs. rewrite filter_In, Z.eqb_eq. split.
      + intros (I & E). rewrite !lookup_value in E.
        destruct (lookup k b) as [v|] eqn:Eb; [|apply lookup_none in Eb; contradiction].
        pose proof (lookup_some _ _ _ Eb) as Ib. pose proof (Zb _ _ Ib) as NZ.
        destruct (lookup k a) as [w|] eqn:Ea; [|congruence]. subst w.
        apply in_map_iff. exists (k, v). split; [reflexivity|]. apply filter_In. split; [apply lookup_some; exact Ea|].
        unfold same. cbn [fst snd]. rewrite Eb. apply Z.eqb_refl.
      + intros J. apply in_map_iff in J. destruct J as ((k', v) & E & I). cbn in E. subst k'. apply filter_In in I. destruct I as (I & X).
        unfold same in X. cbn [fst snd] in X. destruct (lookup k b) as [w|] eqn:Eb; [|discriminate].
        apply Z.eqb_eq in X. subst w. rewrite !lookup_value, Eb, (lookup_in a k v Sa I). split; [|reflexivity].
        apply lookup_some in Eb. apply in_map_iff. exists (k, v). split; [reflexivity|exact Eb]. }
  exists (dif ++ mis). split; [|split].
  - apply nodup_app.
    + apply NoDup_filter. exact Sb.
    + apply nodup_map_filter. exact Sa.
    + intros k I J. unfold dif in I. apply filter_In in I. destruct I as (I & _).
      unfold mis in J. apply in_map_iff in J. destruct J as (kv & <- & J). apply filter_In in J. destruct J as (_ & J).
      unfold missing in J. destruct (lookup (fst kv) b) eqn:E; [discriminate|]. apply lookup_none in E. contradiction.
  - intros k. rewrite in_app_iff. unfold dif, mis. rewrite filter_In, negb_true_iff, Z.eqb_neq. split.
    + intros [(_ & N)|J]; [exact N|]. apply in_map_iff in J. destruct J as ((k', v) & E & I). cbn in E. subst k'. apply filter_In in I. destruct I as (I & M).
      unfold missing in M. cbn [fst] in M. rewrite !lookup_value, (lookup_in a k v Sa I).
      destruct (lookup k b); [discriminate|]. apply (Za _ _ I).
    + intros N. destruct (lookup k b) as [v|] eqn:Eb.
      * left. split; [|exact N]. apply lookup_some in Eb. apply in_map_iff. exists (k, v). split; [reflexivity|exact Eb].
      * right. destruct (lookup k a) as [v|] eqn:Ea.
        -- apply in_map_iff. exists (k, v). split; [reflexivity|]. apply filter_In. split; [apply lookup_some; exact Ea|].
           unfold missing. cbn [fst]. rewrite Eb. reflexivity.
        -- exfalso. apply N. rewrite !lookup_value, Ea, Eb. reflexivity.
  - rewrite app_length. unfold mis. rewrite map_length. rewrite <- L2. lia.
Qed.

Lemma hamming_sym a b n : hamming a b n -> hamming b a n.
Proof.
  intros (l & A & B & C). exists l. split; [exact A|]. split; [|exact C]. intros k. rewrite B. split; congruence.
Qed.

Lemma hamming_fun a b n m : hamming a b n -> hamming a b m -> n = m.
Proof.
  intros (l & A & B & ->) (l' & A' & B' & ->). f_equal. apply Permutation_length. apply NoDup_Permutation; [exact A|exact A'|].
  intros k. rewrite B, B'. reflexivity.
Qed.

Lemma distance_hamming a b : sparse a -> sparse b -> hamming a b (distance_l0 a b).
Proof.
  intros Sa Sb. unfold distance_l0. destruct (length a <? length b)%nat; rewrite l0_fold.
  - apply hamming_count; assumption.
  - apply hamming_sym. apply hamming_count; assumption.
Qed.

(** * The graph *)
Lemma get_set k v k' m : get_node k' (set_node k v m) = if Nat.eqb k k' then Some v else get_node k' m.
Proof.
  unfold get_node. induction m as [|[x w] m IH]; cbn [set_node find fst].
  - destruct (Nat.eqb k k'); reflexivity.
  - destruct (Nat.eqb_spec x k) as [->|N]; cbn [find fst].
    + destruct (Nat.eqb k k'); reflexivity.
    + destruct (Nat.eqb_spec x k') as [->|N'].
      * destruct (Nat.eqb_spec k k') as [->|]; [contradiction|reflexivity].
      * exact IH.
Qed.

Lemma set_keys k v m : In k (map fst m) -> map fst (set_node k v m) = map fst m.
Proof.
  induction m as [|[x w] m IH]; [contradiction|]. cbn [map fst set_node]. intros I.
  destruct (Nat.eqb_spec x k) as [->|N]; [reflexivity|]. cbn [map fst]. f_equal. apply IH. destruct I; [contradiction|assumption].
Qed.
Lemma set_keys_new k v m : ~ In k (map fst m) -> map fst (set_node k v m) = map fst m ++ [k].
Proof.
  induction m as [|[x w] m IH]; [reflexivity|]. cbn [map fst set_node]. intros I.
  destruct (Nat.eqb_spec x k) as [->|N]; [exfalso; apply I; left; reflexivity|]. cbn [map fst app]. f_equal. apply IH.
  intros J. apply I. right. exact J.
Qed.
Lemma get_in k m : In k (map fst m) <-> get_node k m <> None.
Proof.
  unfold get_node. induction m as [|[x w] m IH]; cbn [map fst find].
  - split; [contradiction|cbn; congruence].
  - destruct (Nat.eqb_spec x k) as [->|N]; [split; [discriminate|left; reflexivity]|].
    rewrite <- IH. split; [intros [?|?]; [contradiction|assumption]|right; assumption].
Qed.

Lemma touch_keys m k i : In k (map fst m) -> map fst (touch m k i) = map fst m.
Proof.
  intros I. unfold touch. destruct (get_node k m) eqn:E; [apply set_keys; exact I|].
  apply get_in in I. contradiction.
Qed.

(** The edges at a node, by position. *)
Definition incident (i : nat) (es : list edge) : list nat :=
  filter (fun x => match nth_error es x with Some e => at_node i e | None => false end) (seq 0 (length es)).

Lemma incident_snoc i es e : incident i (es ++ [e]) = incident i es ++ (if at_node i e then [length es] else []).
Proof.
  unfold incident. rewrite app_length. cbn [length]. rewrite Nat.add_1_r, seq_S, filter_app. cbn [plus]. f_equal.
  - apply filter_ext_in. intros x Hx. apply in_seq in Hx. rewrite nth_error_app1 by lia. reflexivity.
  - cbn [filter]. rewrite nth_error_app2 by lia. rewrite Nat.sub_diag. cbn [nth_error]. reflexivity.
Qed.

Lemma incident_degree i es : length (incident i es) = degree es i.
Proof.
  induction es as [|e es IH] using rev_ind; [reflexivity|].
  rewrite incident_snoc, app_length, IH. unfold degree. rewrite filter_app, app_length. f_equal.
  cbn [filter]. destruct (at_node i e); reflexivity.
Qed.

Lemma incident_in i es x : In x (incident i es) <-> exists e, nth_error es x = Some e /\ at_node i e = true.
Proof.
  unfold incident. rewrite filter_In, in_seq. split.
  - intros (_ & H). destruct (nth_error es x) as [e|]; [|discriminate]. exists e. auto.
  - intros (e & E & A). rewrite E. split; [|exact A]. split; [lia|]. cbn. apply nth_error_Some. rewrite E. discriminate.
Qed.

Definition well (n : nat) (g : graph) : Prop :=
  map fst (g_nodes g) = seq 0 n /\ forall i, (i < n)%nat -> get_node i (g_nodes g) = Some (incident i (g_edges g)).

Lemma set_insert_new x l : ~ In x l -> set_insert x l = l ++ [x].
Proof.
  intros H. unfold set_insert. destruct (existsb (Nat.eqb x) l) eqn:E; [|reflexivity].
  apply existsb_exists in E. destruct E as (y & I & E). apply Nat.eqb_eq in E. subst. contradiction.
Qed.
Lemma set_insert_old x l : In x l -> set_insert x l = l.
Proof.
  intros H. unfold set_insert. destruct (existsb (Nat.eqb x) l) eqn:E; [reflexivity|]. exfalso.
  assert (existsb (Nat.eqb x) l = true) by (apply existsb_exists; exists x; split; [exact H|apply Nat.eqb_refl]). congruence.
Qed.

Lemma incident_bound i es : ~ In (length es) (incident i es).
Proof. intros I. apply incident_in in I. destruct I as (e & E & _). assert (length es < length es)%nat by (apply nth_error_Some; rewrite E; discriminate). lia. Qed.

Lemma well_add_edge n g e : well n g -> (e_fst e < n)%nat -> (e_snd e < n)%nat -> well n (add_edge g e).
Proof.
  intros (K & G) A B. unfold add_edge. cbn [g_nodes g_edges]. set (x := length (g_edges g)).
  assert (IA : In (e_fst e) (map fst (g_nodes g))) by (rewrite K; apply in_seq; lia).
  assert (IB : In (e_snd e) (map fst (touch (g_nodes g) (e_fst e) x))) by (rewrite touch_keys by exact IA; rewrite K; apply in_seq; lia).
  split; cbn [g_nodes g_edges]; [rewrite !touch_keys; [exact K|exact IA|exact IB]|].
  intros i Hi. rewrite incident_snoc. fold x.
  assert (F : forall k, (k < n)%nat -> get_node k (touch (g_nodes g) (e_fst e) x) =
     Some (incident k (g_edges g) ++ if Nat.eqb (e_fst e) k then [x] else [])).
  { intros k Hk. unfold touch. rewrite (G _ A), get_set. destruct (Nat.eqb_spec (e_fst e) k) as [<-|N].
    - rewrite set_insert_new by apply incident_bound. reflexivity.
    - rewrite app_nil_r. apply G. exact Hk. }
  unfold touch at 1. rewrite (F _ B), get_set. unfold at_node. destruct (Nat.eqb_spec (e_snd e) i) as [<-|N].
  - f_equal. rewrite orb_true_r. destruct (Nat.eqb_spec (e_fst e) (e_snd e)) as [E|E].
    + apply set_insert_old. apply in_or_app. right. left. reflexivity.
    + rewrite app_nil_r. apply set_insert_new. apply incident_bound.
  - rewrite orb_false_r. apply F. exact Hi.
Qed.

Lemma well_add_node n g : well n g -> (forall e, In e (g_edges g) -> (e_fst e < n)%nat /\ (e_snd e < n)%nat) -> well (S n) (add_node g n).
Proof.
  intros (K & G) E. unfold add_node. split; cbn [g_nodes g_edges].
  - rewrite set_keys_new; [rewrite K, seq_S; reflexivity|]. rewrite K, in_seq. lia.
  - intros i Hi. rewrite get_set. destruct (Nat.eqb_spec n i) as [<-|N].
    + f_equal. symmetry. destruct (incident n (g_edges g)) as [|x l] eqn:X; [reflexivity|]. exfalso.
      assert (I : In x (incident n (g_edges g))) by (rewrite X; left; reflexivity).
      apply incident_in in I. destruct I as (e & Y & Z). apply nth_error_In in Y. specialize (E e Y).
      unfold at_node in Z. apply orb_true_iff in Z. rewrite !Nat.eqb_eq in Z. lia.
    + apply G. lia.
Qed.

Lemma well_nodes m : forall n g, well n g -> (forall e, In e (g_edges g) -> (e_fst e < n)%nat /\ (e_snd e < n)%nat) ->
  well (n + m) (fold_left add_node (seq n m) g) /\ g_edges (fold_left add_node (seq n m) g) = g_edges g.
Proof.
  induction m as [|m IH]; intros n g W E; cbn [seq fold_left]; [rewrite Nat.add_0_r; split; [exact W|reflexivity]|].
  destruct (IH (S n) (add_node g n)) as (A & B).
  - apply well_add_node; assumption.
  - cbn [add_node g_edges]. intros e He. specialize (E e He). lia.
  - replace (n + S m)%nat with (S n + m)%nat by lia. split; [exact A|]. rewrite B. reflexivity.
Qed.

Lemma well_edges n T : forall g, well n g -> (forall e, In e T -> (e_fst e < n)%nat /\ (e_snd e < n)%nat) ->
  well n (fold_left add_edge T g) /\ g_edges (fold_left add_edge T g) = g_edges g ++ T.
Proof.
  induction T as [|e T IH]; intros g W H; cbn [fold_left]; [rewrite app_nil_r; split; [exact W|reflexivity]|].
  destruct (IH (add_edge g e)) as (A & B).
  - apply well_add_edge; [exact W| |]; apply H; left; reflexivity.
  - intros f Hf. apply H. right. exact Hf.
  - split; [exact A|]. rewrite B. cbn [add_edge g_edges]. rewrite <- app_assoc. reflexivity.
Qed.

Lemma well_init : well 0 graph_init.
Proof. split; [reflexivity|]. intros; lia. Qed.
