From Coq Require Import List ZArith QArith Lia Lqa.
From Verif Require Import ContainerModel ContainerSpec.
Import ListNotations.

Lemma push_last_n (n : nat) (l : list Q) (x : Q) : (1 <= n)%nat ->
  fq_push (mkFqueue (Z.of_nat n) (last_n n l)) x = Some (mkFqueue (Z.of_nat n) (last_n n (l ++ [x]))).
Proof.
  intros Hn. unfold fq_push; cbn [fq_items fq_max].
  assert (Hlen : length (last_n n l) = Nat.min n (length l)).
  { unfold last_n. rewrite skipn_length. lia. }
  destruct (Z.eqb_spec (Z.of_nat (length (last_n n l))) (Z.of_nat n)) as [E|E].
  - assert (Hge : (n <= length l)%nat) by lia.
    unfold last_n in *.
    rewrite app_length; simpl.
    replace (length l + 1 - n)%nat with (S (length l - n)) by lia.
    assert (Hs : forall k, (k < length l)%nat ->
        exists y tl, skipn k l = y :: tl /\ skipn (S k) (l ++ [x]) = tl ++ [x]).
    { clear. induction l as [|a l IH]; intros k Hk; simpl in Hk; [lia|].
      destruct k as [|k].
      - exists a, l. split; [reflexivity|]. destruct l; reflexivity.
      - destruct (IH k ltac:(lia)) as (y & tl & H1 & H2). exists y, tl. split; [exact H1|exact H2]. }
    destruct (Hs (length l - n)%nat ltac:(lia)) as (y & tl & H1 & H2).
    rewrite H1, H2. reflexivity.
  - assert (Hlt : (length l < n)%nat) by lia.
    unfold last_n in *. rewrite app_length; simpl.
    replace (length l + 1 - n)%nat with 0%nat by lia.
    replace (length l - n)%nat with 0%nat by lia. reflexivity.
Qed.

Lemma push_all_last_n (n : nat) xs : (1 <= n)%nat -> forall l,
  fq_push_all (mkFqueue (Z.of_nat n) (last_n n l)) xs = Some (mkFqueue (Z.of_nat n) (last_n n (l ++ xs))).
Proof.
  intros Hn. induction xs as [|x tl IH]; intros l; cbn [fq_push_all].
  - now rewrite app_nil_r.
  - rewrite (push_last_n n l x Hn), IH, <- app_assoc. reflexivity.
Qed.

Lemma queue_contents (n : Z) xs : (1 <= n)%Z ->
  fq_push_all (fq_setup n) xs = Some (mkFqueue n (last_n (Z.to_nat n) xs)).
Proof.
  intros Hn. pose proof (push_all_last_n (Z.to_nat n) xs ltac:(lia) []) as H.
  rewrite Z2Nat.id in H by lia. exact H.
Qed.

Lemma min_elt_spec l : forall b, In (min_elt b l) (b :: l) /\ forall y, In y (b :: l) -> (min_elt b l <= y)%Q.
Proof.
  induction l as [|x tl IH]; intros b; simpl.
  - split; [now left|]. intros y [->|[]]. lra.
  - destruct (Qlt_le_dec x b) as [L|L].
    + destruct (IH x) as [H1 H2]. split; [simpl in *; tauto|].
      intros y [<-|Hy]; [|apply H2, Hy].
      specialize (H2 x (or_introl eq_refl)). lra.
    + destruct (IH b) as [H1 H2]. split; [simpl in *; tauto|].
      intros y [<-|[<-|Hy]]; [apply H2; now left| |apply H2; now right].
      specialize (H2 b (or_introl eq_refl)). lra.
Qed.

Lemma max_elt_spec l : forall b, In (max_elt b l) (b :: l) /\ forall y, In y (b :: l) -> (y <= max_elt b l)%Q.
Proof.
  induction l as [|x tl IH]; intros b; simpl.
  - split; [now left|]. intros y [->|[]]. lra.
  - destruct (Qlt_le_dec b x) as [L|L].
    + destruct (IH x) as [H1 H2]. split; [simpl in *; tauto|].
      intros y [<-|Hy]; [|apply H2, Hy].
      specialize (H2 x (or_introl eq_refl)). lra.
    + destruct (IH b) as [H1 H2]. split; [simpl in *; tauto|].
      intros y [<-|[<-|Hy]]; [apply H2; now left| |apply H2; now right].
      specialize (H2 b (or_introl eq_refl)). lra.
Qed.

Lemma fold_left_Qplus l : forall a, (fold_left Qplus l a == a + sumQ l)%Q.
Proof. induction l as [|x tl IH]; intros a; simpl; [lra|]. rewrite IH. lra. Qed.

Lemma queue_stats (n : Z) xs : (1 <= n)%Z -> xs <> [] ->
  exists q mn mx av,
    fq_push_all (fq_setup n) xs = Some q /\
    fq_min q = Some mn /\ is_minimum mn (last_n (Z.to_nat n) xs) /\
    fq_max_value q = Some mx /\ is_maximum mx (last_n (Z.to_nat n) xs) /\
    fq_average q = Some av /\
    (av * inject_Z (Z.of_nat (length (last_n (Z.to_nat n) xs))) == sumQ (last_n (Z.to_nat n) xs))%Q.
Proof.
  intros Hn Hne. rewrite (queue_contents n xs Hn).
  destruct (last_n (Z.to_nat n) xs) as [|x tl] eqn:E.
  - exfalso. apply (f_equal (@length Q)) in E. unfold last_n in E. rewrite skipn_length in E.
    destruct xs; [congruence|]. cbn [length] in E. lia.
  - do 4 eexists. unfold fq_min, fq_max_value, fq_average.
    split; [reflexivity|]. cbn [fq_items]. split; [reflexivity|]. split; [apply min_elt_spec|].
    split; [reflexivity|]. split; [apply max_elt_spec|]. split; [reflexivity|].
    rewrite fold_left_Qplus. rewrite Qplus_0_l.
    rewrite Qmult_comm. apply Qmult_div_r.
    intros H. assert (inject_Z 0 == inject_Z (Z.of_nat (length (x :: tl))))%Q as H' by (rewrite H; reflexivity).
    unfold Qeq in H'. cbn [inject_Z Qnum Qden length] in H'. lia.
Qed.

Lemma queue_zero_ub x xs : fq_push_all fq_init (x :: xs) = None.
Proof. reflexivity. Qed.

Lemma queue_negative n xs : (n < 0)%Z -> fq_push_all (fq_setup n) xs = Some (mkFqueue n xs).
Proof.
  intros Hn. unfold fq_setup.
  assert (H : forall l, fq_push_all (mkFqueue n l) xs = Some (mkFqueue n (l ++ xs))).
  { induction xs as [|x tl IH]; intros l; cbn [fq_push_all]; [now rewrite app_nil_r|].
    unfold fq_push; cbn [fq_items fq_max].
    destruct (Z.eqb_spec (Z.of_nat (length l)) n); [lia|].
    rewrite IH, <- app_assoc. reflexivity. }
  apply H.
Qed.

Section BM.
  Context {A B : Type} (eqA : forall x y : A, {x = y} + {x <> y})
          (eqB : forall x y : B, {x = y} + {x <> y}).

  Lemma assoc_at_set {K V} (dec : forall x y : K, {x = y} + {x <> y}) (m : list (K * V)) k v k' :
    assoc_at dec (assoc_set dec m k v) k' = if dec k k' then Some v else assoc_at dec m k'.
  Proof.
    induction m as [|[k0 v0] tl IH]; simpl.
    - reflexivity.
    - destruct (dec k0 k) as [->|N1]; simpl.
      + destruct (dec k k'); reflexivity.
      + rewrite IH. destruct (dec k0 k') as [->|]; [|reflexivity].
        destruct (dec k k') as [->|]; [congruence|reflexivity].
  Qed.

  Lemma assoc_set_fresh {K V} (dec : forall x y : K, {x = y} + {x <> y}) (m : list (K * V)) k v :
    ~ In k (map fst m) -> assoc_set dec m k v = m ++ [(k, v)].
  Proof.
    induction m as [|[k0 v0] tl IH]; simpl; intros H; [reflexivity|].
    destruct (dec k0 k) as [->|]; [tauto|]. now rewrite IH by tauto.
  Qed.

  Definition insert_all_bm := fold_left (bm_insert eqA eqB).

  Lemma insert_all_contents l : forall done,
    NoDup (map fst (done ++ l)) -> NoDup (map snd (done ++ l)) ->
    insert_all_bm l (mkBimap done (map (fun p => (snd p, fst p)) done)) =
      mkBimap (done ++ l) (map (fun p => (snd p, fst p)) (done ++ l)).
  Proof.
    unfold insert_all_bm.
    induction l as [|[a b] tl IH]; intros done H1 H2; cbn [fold_left].
    - now rewrite app_nil_r.
    - unfold bm_insert at 2. cbn [bm_forward bm_reverse fst snd].
      rewrite !assoc_set_fresh.
      + replace (map (fun p : A * B => (snd p, fst p)) done ++ [(b, a)])
          with (map (fun p : A * B => (snd p, fst p)) (done ++ [(a, b)])) by (rewrite map_app; reflexivity).
        rewrite IH; rewrite <- app_assoc; auto.
      + rewrite map_map. cbn [fst]. rewrite map_app in H2. cbn [map snd] in H2.
        apply NoDup_remove_2 in H2. intros Hin. apply H2, in_or_app. now left.
      + rewrite map_app in H1. cbn [map fst] in H1.
        apply NoDup_remove_2 in H1. intros Hin. apply H1, in_or_app. now left.
  Qed.

  Lemma assoc_at_in {K V} (dec : forall x y : K, {x = y} + {x <> y}) (m : list (K * V)) k v :
    NoDup (map fst m) -> (assoc_at dec m k = Some v <-> In (k, v) m).
  Proof.
    induction m as [|[k0 v0] tl IH]; simpl; intros Hnd.
    - split; [discriminate|tauto].
    - inversion Hnd as [|? ? Hni Hnd']; subst. destruct (dec k0 k) as [->|N1].
      + split; [intros [= ->]; now left|]. intros [[= ->]|Hin]; [reflexivity|].
        exfalso. apply Hni. now apply (in_map fst) in Hin.
      + rewrite IH by assumption. split; [now right|]. intros [[= -> ->]|]; [congruence|assumption].
  Qed.

  Lemma bimap_correct l a b :
    NoDup (map fst l) -> NoDup (map snd l) ->
    let m := insert_all_bm l bm_init in
    (bm_forward_at eqA m a = Some b <-> In (a, b) l) /\
    (bm_reverse_at eqB m b = Some a <-> In (a, b) l) /\
    bm_size m = length l.
  Proof.
    intros H1 H2 m. unfold m. pose proof (insert_all_contents l [] H1 H2) as E.
    simpl in E. unfold bm_init. rewrite E. unfold bm_forward_at, bm_reverse_at, bm_size.
    cbn [bm_forward bm_reverse]. repeat split.
    - apply assoc_at_in; auto.
    - apply assoc_at_in; auto.
    - intros H. apply (assoc_at_in eqB) in H.
      + apply in_map_iff in H as ([x y] & [= -> ->] & Hin). exact Hin.
      + rewrite map_map. simpl. exact H2.
    - intros H. apply (assoc_at_in eqB).
      + rewrite map_map. simpl. exact H2.
      + apply in_map_iff. exists (a, b). auto.
  Qed.

  (** For arbitrary insertions the forward map is last-write-wins in both directions. *)
  Fixpoint last_write (l : list (A * B)) (a : A) : option B :=
    match l with
    | [] => None
    | (x, y) :: tl => match last_write tl a with
                      | Some z => Some z
                      | None => if eqA x a then Some y else None
                      end
    end.
  Lemma forward_last_write l a : forall m,
    bm_forward_at eqA (insert_all_bm l m) a =
    match last_write l a with Some b => Some b | None => bm_forward_at eqA m a end.
  Proof.
    unfold insert_all_bm. induction l as [|[x y] tl IH]; intros m; cbn [fold_left last_write]; [reflexivity|].
    rewrite IH. unfold bm_forward_at at 1, bm_insert. cbn [bm_forward fst snd].
    destruct (last_write tl a); [reflexivity|].
    rewrite assoc_at_set. destruct (eqA x a); reflexivity.
  Qed.

  Lemma last_write_some l a b : last_write l a = Some b <-> exists l1 l2, l = l1 ++ (a, b) :: l2 /\ ~ In a (map fst l2).
  Proof.
    assert (N : forall l, last_write l a = None <-> ~ In a (map fst l)).
    { clear l. induction l as [|[x y] tl IH]; cbn [last_write map fst In]; [tauto|].
      destruct (last_write tl a).
      - split; [discriminate|]. intros H. exfalso. apply H. right. destruct (in_dec eqA a (map fst tl)) as [I|I]; [exact I|]. apply IH in I. discriminate.
      - destruct (eqA x a) as [->|Ne]; [split; [discriminate|tauto]|]. split; [intros _ [?|?]; [contradiction|]; tauto|tauto]. }
    induction l as [|[x y] tl IH]; cbn [last_write].
    - split; [discriminate|]. intros (l1 & l2 & E & _). destruct l1; discriminate.
    - destruct (last_write tl a) as [z|] eqn:E.
      + rewrite IH. split.
        * intros (l1 & l2 & -> & H). exists ((x, y) :: l1), l2. split; [reflexivity|exact H].
        * intros (l1 & l2 & H & H2). destruct l1 as [|p l1].
          { exfalso. injection H as <- <- <-. apply N in H2. congruence. }
          injection H as <- ->. now exists l1, l2.
      + assert (E' := proj1 (N tl) E). destruct (eqA x a) as [->|Ne].
        * split.
          { intros H. injection H as ->. now exists [], tl. }
          { intros (l1 & l2 & H & H2). destruct l1 as [|p l1]; [injection H as <- <-; reflexivity|].
            injection H as <- ->. exfalso. apply E'. rewrite map_app. apply in_or_app. right. now left. }
        * split; [discriminate|]. intros (l1 & l2 & H & H2). destruct l1 as [|p l1]; [injection H as <- <- <-; contradiction|].
          injection H as <- ->. exfalso. apply E'. rewrite map_app. apply in_or_app. right. now left.
  Qed.
  Lemma bimap_forward_history l a b : bm_forward_at eqA (fold_left (bm_insert eqA eqB) l bm_init) a = Some b <->
    exists l1 l2, l = l1 ++ (a, b) :: l2 /\ ~ In a (map fst l2).
  Proof.
    pose proof (forward_last_write l a bm_init) as H. unfold insert_all_bm in H. rewrite H. cbn [bm_init bm_forward_at bm_forward assoc_at].
    rewrite <- last_write_some. destruct (last_write l a); reflexivity.
  Qed.
End BM.

Lemma bimap_stale :
  exists l : list (nat * nat),
    let m := fold_left (bm_insert Nat.eq_dec Nat.eq_dec) l bm_init in
    exists a b, bm_reverse_at Nat.eq_dec m b = Some a /\ bm_forward_at Nat.eq_dec m a <> Some b.
Proof. exists [(1,2);(1,3)]%nat. simpl. exists 1%nat, 2%nat. split; [reflexivity|discriminate]. Qed.
