From Coq Require Import List NArith QArith Bool Lia Arith.
From Verif Require Import HashMapModel HashMapSpec.
Import ListNotations.
Local Open Scope N_scope.

Lemma set_nth_some {A} (l : list A) i x :
  (i < length l)%nat -> exists l', set_nth l i x = Some l'.
Proof.
  revert i; induction l as [|h tl IH]; intros i Hi; simpl in *; [lia|].
  destruct i as [|i]; [eauto|].
  destruct (IH i) as [l' Hl']; [lia|]. rewrite Hl'. eauto.
Qed.

Lemma set_nth_length {A} (l : list A) i x l' :
  set_nth l i x = Some l' -> length l' = length l.
Proof.
  revert i l'; induction l as [|h tl IH]; intros i l' H; simpl in *; [discriminate|].
  destruct i as [|i]; [now injection H as <-|].
  destruct (set_nth tl i x) as [t|] eqn:E; [|discriminate].
  injection H as <-. simpl. f_equal. eauto.
Qed.

Lemma set_nth_nth {A} (l : list A) i x l' j :
  set_nth l i x = Some l' ->
  nth_error l' j = if Nat.eqb i j then Some x else nth_error l j.
Proof.
  revert i l' j; induction l as [|h tl IH]; intros i l' j H; simpl in *; [discriminate|].
  destruct i as [|i].
  - injection H as <-. destruct j; reflexivity.
  - destruct (set_nth tl i x) as [t|] eqn:E; [|discriminate].
    injection H as <-. destruct j as [|j]; simpl; [reflexivity|]. eauto.
Qed.

Lemma grow_bucket_ok fuel b min :
  0 < b -> (exists k, b = 2 ^ k) -> min <= b * 2 ^ N.of_nat fuel ->
  exists r, grow_bucket (S fuel) b min = Some r /\ min <= r /\ (exists k, r = 2 ^ k) /\ b <= r.
Proof.
  revert b; induction fuel as [|f IH]; intros b Hb Hk Hm.
  - cbn [grow_bucket N.of_nat] in *. rewrite N.mul_1_r in Hm.
    destruct (N.ltb_spec b min); [lia|]. exists b; repeat split; auto; lia.
  - cbn [grow_bucket]. destruct (N.ltb_spec b min) as [Hlt|Hge].
    + destruct (IH (2*b)) as (r & Hr & H1 & H2 & H3).
      * lia.
      * destruct Hk as [k ->]. exists (N.succ k). rewrite N.pow_succ_r'. reflexivity.
      * rewrite Nnat.Nat2N.inj_succ, N.pow_succ_r' in Hm. nia.
      * cbn [grow_bucket] in Hr. exists r. split; [exact Hr|]. repeat split; auto; lia.
    + exists b; repeat split; auto; lia.
Qed.

Section Table.
  Variable B : N.
  Variable e : N.
  Hypothesis HB : B = 2 ^ e.

  Lemma B_pos : 0 < B.
  Proof. subst B. apply N.neq_0_lt_0, N.pow_nonzero; lia. Qed.

  Lemma mask_mod x : N.land x (B - 1) = x mod B.
  Proof.
    subst B. rewrite <- N.land_ones.
    f_equal. rewrite N.ones_equiv. lia.
  Qed.

  (** [pos s d]: slot reached after [d] probes from slot [s]. *)
  Definition pos (s d : N) : N := (s + d) mod B.

  Lemma pos_lt s d : pos s d < B.
  Proof. apply N.mod_upper_bound. pose proof B_pos; lia. Qed.

  Lemma next_pos s d : next_index (B - 1) (pos s d) = pos s (d + 1).
  Proof.
    pose proof B_pos. unfold next_index, pos. rewrite mask_mod.
    rewrite N.add_mod_idemp_l by lia. f_equal; lia.
  Qed.

  Lemma pos_0 s : s < B -> pos s 0 = s.
  Proof. intros; unfold pos. rewrite N.add_0_r. now apply N.mod_small. Qed.

  Lemma pos_inj s d d' : d < B -> d' < B -> pos s d = pos s d' -> d = d'.
  Proof.
    pose proof B_pos. unfold pos. intros H1 H2 E.
    pose proof (N.div_mod (s + d) B ltac:(lia)).
    pose proof (N.div_mod (s + d') B ltac:(lia)).
    assert (B * ((s + d) / B) + d' = B * ((s + d') / B) + d) by lia.
    destruct (N.lt_trichotomy ((s + d) / B) ((s + d') / B)) as [L|[L|L]]; [|rewrite L in *; lia|].
    - assert (B * ((s + d)/B) + B <= B * ((s+d')/B)) by nia. lia.
    - assert (B * ((s + d')/B) + B <= B * ((s+d)/B)) by nia. lia.
  Qed.

  Definition cellat (cs : list cell) (i : N) : option cell := nth_error cs (N.to_nat i).

  (** number of occupied slots *)
  Definition nocc (cs : list cell) : nat := length (filter c_occ cs).

  Lemma free_slot cs : (nocc cs < length cs)%nat ->
    exists i c, (i < length cs)%nat /\ nth_error cs i = Some c /\ c_occ c = false.
  Proof.
    unfold nocc; induction cs as [|c tl IH]; simpl; intros H; [lia|].
    destruct (c_occ c) eqn:E.
    - simpl in H. destruct IH as (i & c' & Hi & Hn & Ho); [lia|].
      exists (S i), c'. simpl. repeat split; auto; lia.
    - exists 0%nat, c. simpl. repeat split; auto; lia.
  Qed.

  Lemma set_occ_count cs i c v cs' :
    nth_error cs i = Some c -> c_occ c = false -> c_occ v = true ->
    set_nth cs i v = Some cs' -> nocc cs' = S (nocc cs).
  Proof.
    unfold nocc. revert i cs'; induction cs as [|h tl IH]; intros i cs' Hn Ho Hv Hs; simpl in *.
    - destruct i; discriminate.
    - destruct i as [|i]; simpl in *.
      + injection Hn as ->. injection Hs as <-. simpl. rewrite Ho, Hv. reflexivity.
      + destruct (set_nth tl i v) as [t|] eqn:E; [|discriminate].
        injection Hs as <-. simpl. specialize (IH _ _ Hn Ho Hv E).
        destruct (c_occ h); simpl; lia.
  Qed.

  (** offset of slot [i] seen from slot [s] *)
  Lemma reach s i : s < B -> i < B -> exists d, d < B /\ pos s d = i.
  Proof.
    intros Hs Hi. pose proof B_pos. destruct (N.le_gt_cases s i) as [L|L].
    - exists (i - s). split; [lia|]. unfold pos. replace (s + (i - s)) with i by lia.
      apply N.mod_small; lia.
    - exists (i + B - s). split; [lia|]. unfold pos.
      replace (s + (i + B - s)) with (i + 1 * B) by lia.
      rewrite N.mod_add by lia. apply N.mod_small; lia.
  Qed.

  (** minimal free offset *)
  Lemma min_free cs s : N.of_nat (length cs) = B -> s < B -> (nocc cs < length cs)%nat ->
    exists d c, d < B /\ cellat cs (pos s d) = Some c /\ c_occ c = false /\
      (forall d', d' < d -> exists c', cellat cs (pos s d') = Some c' /\ c_occ c' = true).
  Proof.
    intros Hlen Hs Hocc.
    destruct (free_slot cs Hocc) as (i & c & Hi & Hn & Ho).
    destruct (reach s (N.of_nat i) Hs ltac:(lia)) as (d0 & Hd0 & Hp).
    assert (Hex : exists c, cellat cs (pos s d0) = Some c /\ c_occ c = false).
    { exists c. unfold cellat. rewrite Hp, Nnat.Nat2N.id. auto. }
    clear i c Hi Hn Ho Hp Hocc.
    induction d0 as [d0 IH] using (well_founded_induction N.lt_wf_0).
    destruct (Exists_dec (fun d => exists c, cellat cs (pos s d) = Some c /\ c_occ c = false)
               (map N.of_nat (seq 0 (N.to_nat d0)))) as [Hx|Hx].
    { intros d. destruct (cellat cs (pos s d)) as [c|]; [|right; intros (c & Hc & _); discriminate].
      destruct (c_occ c) eqn:E; [right; intros (c' & Hc & Ho); congruence|left; eauto]. }
    - apply Exists_exists in Hx as (d & Hin & Hd).
      apply in_map_iff in Hin as (n & <- & Hn). apply in_seq in Hn.
      apply (IH (N.of_nat n)); auto; lia.
    - destruct Hex as (c & Hc & Ho). exists d0, c. repeat split; auto.
      intros d' Hd'.
      destruct (cellat cs (pos s d')) as [c'|] eqn:E.
      + exists c'. split; auto. destruct (c_occ c') eqn:Eo; auto. exfalso. apply Hx.
        apply Exists_exists. exists d'. split; [|eauto].
        apply in_map_iff. exists (N.to_nat d'). rewrite N2Nat.id. split; auto.
        apply in_seq. lia.
      + exfalso. unfold cellat in E. apply nth_error_None in E. pose proof (pos_lt s d'). lia.
  Qed.

  Lemma probe_free_spec cs s d c fuel :
    cellat cs (pos s d) = Some c -> c_occ c = false ->
    (forall d', d' < d -> exists c', cellat cs (pos s d') = Some c' /\ c_occ c' = true) ->
    forall d0, d0 <= d -> (N.to_nat (d - d0) < fuel)%nat ->
    probe_free fuel (B - 1) cs (pos s d0) = Some (pos s d).
  Proof.
    intros Hc Ho Hall. induction fuel as [|f IH]; intros d0 Hle Hf; [lia|].
    cbn [probe_free].
    destruct (N.eq_dec d0 d) as [->|Hne].
    - fold (cellat cs (pos s d)). rewrite Hc, Ho. reflexivity.
    - destruct (Hall d0 ltac:(lia)) as (c' & Hc' & Ho').
      fold (cellat cs (pos s d0)). rewrite Hc', Ho'. rewrite next_pos.
      apply IH; lia.
  Qed.

  (** Representation invariant relative to the inserted entries. *)
  Variable sh : N.
  Definition startof key := N.shiftr key sh mod B.

  Lemma startof_lt k : startof k < B.
  Proof. apply N.mod_upper_bound. pose proof B_pos; lia. Qed.

  Record Rep (cs : list cell) (m : list (N * Q)) : Prop := {
    rep_len : N.of_nat (length cs) = B;
    rep_occ : nocc cs = length m;
    rep_in : forall k v, In (k, v) m -> exists d, d < B /\
        cellat cs (pos (startof k) d) = Some (mkCell true k v) /\
        (forall d', d' < d -> exists c, cellat cs (pos (startof k) d') = Some c /\
                                        c_occ c = true /\ c_key c <> k);
    rep_out : forall i c, cellat cs i = Some c ->
        (c_occ c = true -> In (c_key c, c_val c) m) /\ (c_occ c = false -> c = empty_cell)
  }.

  Lemma insert_rep cs m k v :
    Rep cs m -> ~ In k (map fst m) -> (length m < length cs)%nat ->
    exists cs', hm_insert (mkHmap sh B (B - 1) cs) k v = Some (mkHmap sh B (B - 1) cs') /\
                Rep cs' (m ++ [(k, v)]).
  Proof.
    intros [Hlen Hocc Hin Hout] Hfresh Hsz.
    destruct (min_free cs (startof k) Hlen (startof_lt k)) as (d & c & Hd & Hc & Ho & Hall).
    { rewrite Hocc. exact Hsz. }
    pose proof (probe_free_spec cs (startof k) d c (S (length cs)) Hc Ho Hall 0 ltac:(lia)) as Hp.
    unfold hm_insert. cbn [hm_cells hm_mask hm_shift hm_bucket].
    unfold start_index. rewrite mask_mod. fold (startof k).
    rewrite (pos_0 (startof k) (startof_lt k)) in Hp.
    rewrite Hp by lia.
    pose proof (pos_lt (startof k) d) as Hplt.
    destruct (set_nth_some cs (N.to_nat (pos (startof k) d)) (mkCell true k v)) as [cs' Hs]; [lia|].
    rewrite Hs. exists cs'. split; [reflexivity|].
    assert (Hread : forall i, cellat cs' i =
              if N.eqb (pos (startof k) d) i then Some (mkCell true k v) else cellat cs i).
    { intros i. unfold cellat. rewrite (set_nth_nth _ _ _ _ _ Hs).
      destruct (N.eqb_spec (pos (startof k) d) i) as [->|N1].
      - now rewrite Nat.eqb_refl.
      - destruct (Nat.eqb_spec (N.to_nat (pos (startof k) d)) (N.to_nat i)) as [E|]; [|reflexivity].
        apply N2Nat.inj in E. contradiction. }
    assert (Hkeys : forall i c', cellat cs i = Some c' -> c_occ c' = true -> c_key c' <> k).
    { intros i c' Hi Ho' Ek. apply Hfresh.
      destruct (Hout i c' Hi) as [H1 _]. specialize (H1 Ho').
      apply (in_map fst) in H1. simpl in H1. now rewrite Ek in H1. }
    constructor.
    - rewrite (set_nth_length _ _ _ _ Hs). exact Hlen.
    - unfold cellat in Hc. rewrite (set_occ_count cs _ c (mkCell true k v) cs' Hc Ho eq_refl Hs), Hocc, app_length.
      simpl; lia.
    - intros k0 v0 H0. apply in_app_or in H0 as [H0|[H0|[]]].
      + destruct (Hin _ _ H0) as (d1 & Hd1 & Hc1 & Hall1). exists d1. split; [exact Hd1|].
        assert (Hne : forall i c0, cellat cs i = Some c0 -> c_occ c0 = true ->
                       pos (startof k) d <> i).
        { intros i c0 Hi Hoc E. subst i. rewrite Hc in Hi. injection Hi as ->. congruence. }
        split.
        * rewrite Hread. destruct (N.eqb_spec (pos (startof k) d) (pos (startof k0) d1)) as [E|E].
          -- exfalso. eapply Hne; [exact Hc1|reflexivity|exact E].
          -- exact Hc1.
        * intros d' Hd'. destruct (Hall1 d' Hd') as (c0 & Hc0 & Hoc & Hkc). exists c0.
          rewrite Hread. destruct (N.eqb_spec (pos (startof k) d) (pos (startof k0) d')) as [E|E].
          -- exfalso. eapply Hne; [exact Hc0|exact Hoc|exact E].
          -- auto.
      + injection H0 as <- <-. exists d. split; [exact Hd|]. split.
        * rewrite Hread, N.eqb_refl. reflexivity.
        * intros d' Hd'. destruct (Hall d' Hd') as (c0 & Hc0 & Hoc). exists c0.
          rewrite Hread. destruct (N.eqb_spec (pos (startof k) d) (pos (startof k) d')) as [E|E].
          -- apply pos_inj in E; lia.
          -- repeat split; auto. eapply Hkeys; eauto.
    - intros i c0 Hi. rewrite Hread in Hi.
      destruct (N.eqb_spec (pos (startof k) d) i) as [E|E].
      + injection Hi as <-. simpl. split; [|discriminate]. intros _. apply in_or_app. right. left. reflexivity.
      + destruct (Hout i c0 Hi) as [H1 H2]. split; [|exact H2].
        intros Ho'. apply in_or_app. left. auto.
  Qed.

  Lemma insert_all_rep : forall m2 cs m1,
    Rep cs m1 -> NoDup (map fst (m1 ++ m2)) -> (length (m1 ++ m2) < length cs)%nat ->
    exists cs', insert_all (mkHmap sh B (B - 1) cs) m2 = Some (mkHmap sh B (B - 1) cs') /\
                Rep cs' (m1 ++ m2).
  Proof.
    induction m2 as [|[k v] tl IH]; intros cs m1 HR Hnd Hsz.
    - simpl. exists cs. rewrite app_nil_r. auto.
    - cbn [insert_all].
      destruct (insert_rep cs m1 k v HR) as (cs1 & H1 & HR1).
      + rewrite map_app in Hnd. simpl in Hnd. intros Hin. apply NoDup_remove_2 in Hnd.
        apply Hnd. apply in_or_app. now left.
      + rewrite app_length in Hsz. simpl in Hsz. lia.
      + rewrite H1.
        assert (Hl : length cs1 = length cs).
        { pose proof (rep_len _ _ HR); pose proof (rep_len _ _ HR1); lia. }
        destruct (IH cs1 (m1 ++ [(k, v)]) HR1) as (cs2 & H2 & HR2).
        * now rewrite <- app_assoc.
        * rewrite <- app_assoc. simpl. lia.
        * exists cs2. split; [exact H2|]. now rewrite <- app_assoc in HR2.
  Qed.

  Lemma value_or_zero_in m k v : NoDup (map fst m) -> In (k, v) m -> value_or_zero m k = v.
  Proof.
    induction m as [|[k' v'] tl IH]; simpl; intros Hnd Hin; [tauto|].
    inversion Hnd as [|? ? Hni Hnd']; subst.
    destruct Hin as [E|Hin].
    - injection E as -> ->. now rewrite N.eqb_refl.
    - destruct (N.eqb_spec k' k) as [->|]; [|auto].
      exfalso. apply Hni. now apply (in_map fst) in Hin.
  Qed.

  Lemma value_or_zero_out m k : ~ In k (map fst m) -> value_or_zero m k = 0%Q.
  Proof.
    induction m as [|[k' v'] tl IH]; simpl; intros H; [reflexivity|].
    destruct (N.eqb_spec k' k) as [->|]; [exfalso; auto|]. apply IH. tauto.
  Qed.

  Lemma at_loop_present cs k v s d fuel :
    cellat cs (pos s d) = Some (mkCell true k v) ->
    (forall d', d' < d -> exists c, cellat cs (pos s d') = Some c /\ c_occ c = true /\ c_key c <> k) ->
    forall d0, d0 <= d -> (N.to_nat (d - d0) < fuel)%nat ->
    at_loop fuel (B - 1) cs (pos s d0) k = Some v.
  Proof.
    intros Hc Hall. induction fuel as [|f IH]; intros d0 Hle Hf; [lia|].
    cbn [at_loop]. destruct (N.eq_dec d0 d) as [->|Hne].
    - fold (cellat cs (pos s d)). rewrite Hc. simpl. now rewrite N.eqb_refl.
    - destruct (Hall d0 ltac:(lia)) as (c' & Hc' & Ho' & Hk').
      fold (cellat cs (pos s d0)). rewrite Hc', Ho'.
      destruct (N.eqb_spec (c_key c') k) as [E|_]; [contradiction|]. simpl.
      rewrite next_pos. apply IH; lia.
  Qed.

  Lemma at_loop_absent cs k s d c fuel :
    (forall i c, cellat cs i = Some c -> c_occ c = true -> c_key c <> k) ->
    (forall i c, cellat cs i = Some c -> c_occ c = false -> c = empty_cell) ->
    cellat cs (pos s d) = Some c -> c_occ c = false ->
    (forall d', d' < d -> exists c', cellat cs (pos s d') = Some c' /\ c_occ c' = true) ->
    forall d0, d0 <= d -> (N.to_nat (d - d0) < fuel)%nat ->
    at_loop fuel (B - 1) cs (pos s d0) k = Some 0%Q.
  Proof.
    intros Hk Hem Hc Ho Hall. induction fuel as [|f IH]; intros d0 Hle Hf; [lia|].
    cbn [at_loop]. destruct (N.eq_dec d0 d) as [->|Hne].
    - fold (cellat cs (pos s d)). rewrite Hc, Ho.
      rewrite (Hem _ _ Hc Ho). simpl.
      destruct k; reflexivity.
    - destruct (Hall d0 ltac:(lia)) as (c' & Hc' & Ho').
      fold (cellat cs (pos s d0)). rewrite Hc', Ho'.
      destruct (N.eqb_spec (c_key c') k) as [E|_]; [exfalso; eapply Hk; eauto|]. simpl.
      rewrite next_pos. apply IH; lia.
  Qed.

  Lemma at_rep cs m k :
    Rep cs m -> NoDup (map fst m) -> (length m < length cs)%nat ->
    hm_at (mkHmap sh B (B - 1) cs) k = Some (value_or_zero m k).
  Proof.
    intros [Hlen Hocc Hin Hout] Hnd Hsz. unfold hm_at, start_index.
    cbn [hm_cells hm_mask hm_shift]. rewrite mask_mod. fold (startof k).
    fold (cellat cs (startof k)).
    assert (Hs := startof_lt k).
    destruct (cellat cs (startof k)) as [c0|] eqn:E0.
    2:{ unfold cellat in E0. apply nth_error_None in E0. lia. }
    destruct (in_dec N.eq_dec k (map fst m)) as [Hi|Hni].
    - apply in_map_iff in Hi as ([k' v] & Hk' & Hi). simpl in Hk'; subst k'.
      destruct (Hin _ _ Hi) as (d & Hd & Hc & Hall).
      rewrite (value_or_zero_in _ _ _ Hnd Hi).
      assert (Ho : c_occ c0 = true).
      { destruct (N.eq_dec d 0) as [->|Hn0].
        - rewrite pos_0 in Hc by exact Hs. rewrite E0 in Hc. now injection Hc as ->.
        - destruct (Hall 0 ltac:(lia)) as (c & Hc0 & Ho & _).
          rewrite pos_0 in Hc0 by exact Hs. congruence. }
      rewrite Ho. simpl negb. cbv iota.
      pose proof (at_loop_present cs k v (startof k) d (S (length cs)) Hc Hall 0) as HP.
      rewrite (pos_0 (startof k) Hs) in HP. apply HP; lia.
    - rewrite (value_or_zero_out _ _ Hni).
      destruct (c_occ c0) eqn:Eo; simpl; [|reflexivity].
      destruct (min_free cs (startof k) Hlen Hs) as (d & c & Hd & Hc & Ho & Hall).
      { rewrite Hocc. exact Hsz. }
      match goal with |- ?X = _ => change X with (at_loop (S (length cs)) (B - 1) cs (startof k) k) end.
      pose proof (fun H1 H2 => at_loop_absent cs k (startof k) d c (S (length cs)) H1 H2 Hc Ho Hall 0) as HP.
      rewrite (pos_0 (startof k) Hs) in HP. apply HP; try lia.
      + intros i c' Hc' Ho' Ek. apply Hni. destruct (Hout _ _ Hc') as [H1 _].
        specialize (H1 Ho'). apply (in_map fst) in H1. simpl in H1. now rewrite Ek in H1.
      + intros i c' Hc' Ho'. destruct (Hout _ _ Hc') as [_ H2]. auto.
  Qed.

  Lemma empty_rep : Rep (repeat empty_cell (N.to_nat B)) [].
  Proof.
    constructor.
    - rewrite repeat_length. apply N2Nat.id.
    - unfold nocc. simpl. induction (N.to_nat B) as [|n IH]; simpl; auto.
    - intros k v [].
    - intros i c Hc. unfold cellat in Hc. apply nth_error_In, repeat_spec in Hc. subst c.
      simpl. split; [discriminate|reflexivity].
  Qed.
End Table.

Lemma hm_correct m key_size :
  NoDup (map fst m) ->
  exists h, hm_setup m key_size = Some h /\ forall k, hm_at h k = Some (value_or_zero m k).
Proof.
  intros Hnd. unfold hm_setup.
  set (mn := N.of_nat (length m) * 5).
  destruct (grow_bucket_ok (N.to_nat (N.log2_up mn)) 1 mn) as (b & Hb & Hmin & [e He] & H1).
  - lia.
  - exists 0. reflexivity.
  - rewrite N.mul_1_l, N2Nat.id. destruct (N.eq_dec mn 0) as [E|E].
    + rewrite E. apply N.le_0_l.
    + apply N.log2_log2_up_spec. lia.
  - rewrite Hb.
    assert (Hsz : (length m < length (repeat empty_cell (N.to_nat b)))%nat).
    { rewrite repeat_length. unfold mn in Hmin.
      assert (0 < b) by (apply (B_pos b e He)). lia. }
    destruct (insert_all_rep b e He (N.log2 key_size) m _ [] (empty_rep b (N.log2 key_size))) as (cs & Hi & HR).
    + exact Hnd.
    + exact Hsz.
    + eexists. split; [exact Hi|]. intros k. simpl app in HR.
      apply (at_rep b e He (N.log2 key_size) cs m k HR Hnd).
      pose proof (rep_len _ _ _ _ HR). rewrite repeat_length in Hsz. lia.
Qed.
