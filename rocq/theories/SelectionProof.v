(** Extraction of selections (C32). *)
From Coq Require Import List ZArith QArith Bool Lia Permutation Sorted.
From Verif Require Import ExprModel ExprSpec ExprProof ConstraintModel VariableModel TypeModel TypeSpec EvalModel EvalProof2 PresolveModel PresolveSpec
  DuplicateModel DuplicateSpec DuplicateProof DuplicateProof2 SelectionModel SelectionSpec.
Import ListNotations.
Local Open Scope nat_scope.

Lemma overlap_iff l m : overlaps l m = true <-> exists v, In v l /\ In v m.
Proof.
  unfold overlaps. rewrite existsb_exists. split; intros (v & A & B); exists v; (split; [exact A|]); now apply mem_iff.
Qed.
Lemma overlap_false l m : overlaps l m = false <-> forall v, In v l -> ~ In v m.
Proof.
  split.
  - intros E v A B. assert (overlaps l m = true) by (apply overlap_iff; eauto). congruence.
  - intros H. destruct (overlaps l m) eqn:E; [|reflexivity]. apply overlap_iff in E as (v & A & B). exfalso. exact (H v A B).
Qed.

Definition apart (s t : sel) : Prop := forall v, In v (sl_vars s) -> ~ In v (sl_vars t).
Lemma pairs_disjoint l : ForallOrdPairs apart l -> disjoint_selections l.
Proof.
  assert (H : forall l, ForallOrdPairs apart l -> forall i j s t, i < j -> nth_error l i = Some s -> nth_error l j = Some t -> apart s t).
  { clear l. induction 1 as [|a l F P IH]; intros i j s t L E1 E2; [destruct i; discriminate|]. destruct j as [|j]; [lia|]. cbn in E2. destruct i as [|i]; cbn in E1.
    - injection E1 as <-. rewrite Forall_forall in F. apply F. eapply nth_error_In; eauto.
    - apply (IH i j); auto; lia. }
  intros P i j s t D E1 E2 v A B. destruct (Nat.lt_ge_cases i j) as [L|L].
  - exact (H l P i j s t L E1 E2 v A B).
  - assert (L' : j < i) by lia. exact (H l P j i t s L' E2 E1 v B A).
Qed.

Lemma greedy_spec (R : sel -> sel -> Prop) l : StronglySorted R l -> forall taken,
  (forall s, In s (greedy l taken) -> In s l /\ forall v, In v (sl_vars s) -> ~ In v taken) /\
  ForallOrdPairs apart (greedy l taken) /\
  (forall s, In s l -> In s (greedy l taken) \/
     exists v, In v (sl_vars s) /\ (In v taken \/ exists t, In t (greedy l taken) /\ In v (sl_vars t) /\ R t s)).
Proof.
  induction 1 as [|s tl S IH F]; intros taken; cbn [greedy].
  { split; [intros s []|]. split; [constructor|intros s []]. }
  rewrite Forall_forall in F. destruct (overlaps (sl_vars s) taken) eqn:O.
  - destruct (IH taken) as (A & B & C). split; [|split].
    + intros t I. destruct (A t I) as [A1 A2]. split; [now right|exact A2].
    + exact B.
    + intros t [<-|I]; [|auto]. apply overlap_iff in O as (v & V1 & V2). right. exists v. auto.
  - pose proof (proj1 (overlap_false _ _) O) as O'. destruct (IH (taken ++ sl_vars s)) as (A & B & C). split; [|split].
    + intros t [<-|I]; [split; [now left|exact O']|]. destruct (A t I) as [A1 A2]. split; [now right|]. intros v V X. apply (A2 v V), in_app_iff. now left.
    + constructor; [|exact B]. apply Forall_forall. intros t I v V X. destruct (A t I) as [_ A2]. apply (A2 v X), in_app_iff. now right.
    + intros t [<-|I]; [left; now left|]. destruct (C t I) as [C1|(v & V & C1)]; [left; now right|]. right. exists v. split; [exact V|].
      destruct C1 as [C1|(u & U1 & U2 & U3)].
      * apply in_app_iff in C1 as [C1|C1]; [now left|]. right. exists s. split; [now left|]. split; [exact C1|]. now apply F.
      * right. exists u. split; [now right|]. auto.
Qed.

Lemma in_independents l s : In s (independents l) <-> exists i, nth_error l i = Some s /\ independent_of l i s = true.
Proof.
  unfold independents. rewrite in_flat_map. split.
  - intros (i & _ & H). exists i. destruct (nth_error l i) as [t|]; [|destruct H]. destruct (independent_of l i t) eqn:E; [|destruct H].
    destruct H as [<-|[]]. auto.
  - intros (i & E & H). exists i. split; [apply in_seq; assert (i < length l) by (apply nth_error_Some; congruence); lia|]. rewrite E, H. now left.
Qed.
Lemma independent_iff l i s : nth_error l i = Some s ->
  (independent_of l i s = true <-> forall j t, j <> i -> nth_error l j = Some t -> apart s t).
Proof.
  intros Ei. unfold independent_of. rewrite forallb_forall. split.
  - intros H j t D Ej. assert (Lj : j < length l) by (apply nth_error_Some; congruence). specialize (H j (proj2 (in_seq _ _ _) (conj (Nat.le_0_l j) Lj))).
    rewrite Ej in H. apply orb_true_iff in H as [H|H]; [apply Nat.eqb_eq in H; contradiction|]. apply negb_true_iff in H. exact (proj1 (overlap_false _ _) H).
  - intros H j _. destruct (Nat.eqb_spec j i) as [->|D]; [reflexivity|]. cbn [orb]. destruct (nth_error l j) as [t|] eqn:Ej; [|reflexivity].
    apply negb_true_iff, overlap_false. exact (H j t D Ej).
Qed.
Lemma independents_apart l : ForallOrdPairs apart (independents l).
Proof.
  unfold independents.
  assert (H : forall ks, NoDup ks -> ForallOrdPairs apart (flat_map (fun i => match nth_error l i with
      | Some s => if independent_of l i s then [s] else [] | None => [] end) ks)).
  { induction 1 as [|k ks N ND IH]; cbn [flat_map]; [constructor|]. destruct (nth_error l k) as [s|] eqn:E; [|exact IH].
    destruct (independent_of l k s) eqn:I; [|exact IH]. cbn [app]. constructor; [|exact IH]. apply Forall_forall. intros t T.
    apply in_flat_map in T as (j & J & T). destruct (nth_error l j) as [u|] eqn:Ej; [|destruct T]. destruct (independent_of l j u); [|destruct T].
    destruct T as [<-|[]]. apply (proj1 (independent_iff l k s E) I j u); auto. intros ->. contradiction. }
  apply H, seq_NoDup.
Qed.

(** * Related constraints *)
Lemma sort_related_perm cname cs few l : Permutation (sort_related cname cs few l) l.
Proof. unfold sort_related. cbv zeta. rewrite sort_perm. apply sort_perm. Qed.
Lemma add_new_spec own l : forall acc, NoDup acc -> ~ In own acc ->
  let r := fold_left (add_new own) l acc in
  NoDup r /\ forall i, In i r <-> In i acc \/ (In i l /\ i <> own).
Proof.
  induction l as [|a l IH]; intros acc N O; cbn [fold_left]; [split; [exact N|intros i; cbn; tauto]|].
  assert (Ea : add_new own acc a = if Nat.eqb a own then acc else if existsb (Nat.eqb a) acc then acc else acc ++ [a]) by reflexivity. rewrite Ea. clear Ea.
  destruct (Nat.eqb_spec a own) as [->|D].
  { destruct (IH acc N O) as [A B]. split; [exact A|]. intros i. rewrite (B i). cbn [In]. split; [tauto|]. intros [H|[[->|H] X]]; tauto. }
  destruct (existsb (Nat.eqb a) acc) eqn:E.
  - apply mem_iff in E. destruct (IH acc N O) as [A B]. split; [exact A|]. intros i. rewrite (B i). cbn [In]. split; [tauto|]. intros [H|[[->|H] X]]; tauto.
  - assert (Na : ~ In a acc) by (intros X; apply mem_iff in X; congruence).
    destruct (IH (acc ++ [a])) as [A B].
    + apply nodup_app; [exact N|repeat constructor; auto|]. intros v V [<-|[]]. contradiction.
    + rewrite in_app_iff. intros [X|[X|[]]]; [contradiction|congruence].
    + split; [exact A|]. intros i. rewrite (B i), in_app_iff. cbn [In]. split.
      * intros [[H|[<-|[]]]|H]; tauto.
      * intros [H|[[<-|H] X]]; tauto.
Qed.
Lemma related_fold own (f : list nat -> nat -> list nat) (g : nat -> list nat) (H : forall acc v, Permutation (f acc v) (g v)) l : forall acc, NoDup acc -> ~ In own acc ->
  let r := fold_left (fun acc v => fold_left (add_new own) (f acc v) acc) l acc in
  NoDup r /\ forall i, In i r <-> In i acc \/ (i <> own /\ exists v, In v l /\ In i (g v)).
Proof.
  induction l as [|v l IH]; intros acc N O; cbn [fold_left]; [split; [exact N|intros i; firstorder]|].
  destruct (add_new_spec own (f acc v) acc N O) as [A B]. set (acc1 := fold_left (add_new own) (f acc v) acc) in *.
  assert (O1 : ~ In own acc1) by (rewrite B; tauto).
  destruct (IH acc1 A O1) as [C D]. split; [exact C|]. intros i. rewrite (D i), (B i).
  assert (E : In i (f acc v) <-> In i (g v)) by (split; apply Permutation_in; [apply H|symmetry; apply H]). rewrite E. split.
  - intros [[H1|[H1 H2]]|(H1 & w & H2 & H3)]; [now left|right; split; [exact H2|exists v; split; [now left|exact H1]]|right; split; [exact H1|exists w; split; [now right|exact H3]]].
  - intros [H1|(H1 & w & [<-|H2] & H3)]; [tauto|tauto|right; eauto].
Qed.
Lemma setup_related_spec vname cname cs s : let s' := setup_related vname cname cs s in
  Permutation (sl_vars s') (sl_vars s) /\ sl_con s' = sl_con s /\ sl_selected s' = sl_selected s /\ NoDup (sl_related s') /\
  forall i, In i (sl_related s') <-> i <> sl_con s /\ exists v c, In v (sl_vars s) /\ nth_error cs i = Some c /\ In v (variables c).
Proof.
  cbv zeta. unfold setup_related. cbn [sl_vars sl_con sl_related sl_selected]. set (vars := stable_sort _ _).
  assert (P : Permutation vars (sl_vars s)) by (unfold vars; rewrite sort_perm; apply sort_perm).
  split; [exact P|]. split; [reflexivity|]. split; [reflexivity|].
  set (total := length _).
  destruct (related_fold (sl_con s) (fun acc v => sort_related cname cs (length acc <? total / 2) (related_list cs v)) (related_list cs)
     (fun acc v => sort_related_perm _ _ _ _) vars [] (NoDup_nil _) (fun x => x)) as [A B].
  split; [exact A|]. intros i. rewrite (B i). cbn [In].
  assert (Q : forall v, In i (related_list cs v) <-> exists c, nth_error cs i = Some c /\ In v (variables c)).
  { intros v. unfold related_list. rewrite filter_In, in_seq, mem_iff. unfold members. split.
    - intros [_ H]. destruct (nth_error cs i) as [c|]; [exists c; auto|destruct H].
    - intros (c & E & H). rewrite E. split; [|exact H]. assert (i < length cs) by (apply nth_error_Some; congruence). lia. }
  split.
  - intros [[]|(D & v & V & H)]. split; [exact D|]. apply Q in H as (c & E & H). exists v, c. split; [now apply (Permutation_in _ P)|auto].
  - intros (D & v & c & V & E & H). right. split; [exact D|]. exists v. split; [now apply (Permutation_in _ (Permutation_sym P))|]. apply Q. eauto.
Qed.

(** * Raw selections *)
Lemma all_binary_iff vs l : all_binary vs l = true <-> forall v, In v l -> va_sense (vs v) = VBinary.
Proof.
  unfold all_binary. rewrite forallb_forall. split; intros H v I; specialize (H v I).
  - destruct (va_sense (vs v)); try discriminate; reflexivity.
  - now rewrite H.
Qed.
Lemma in_raw x vs cs s : In s (raw_selections vs cs (type_refs x cs SetPartitioning)) <->
  exists i c, eligible x vs cs i c /\ s = mkSel (variables c) i [] None.
Proof.
  unfold raw_selections. rewrite in_flat_map. unfold eligible. split.
  - intros (i & I & H). apply in_type_refs in I as (c & E & T). unfold is_on in H. rewrite E in H. destruct (ct_enabled c) eqn:En; [|destruct H].
    destruct (all_binary vs (members cs i)) eqn:B; [|destruct H]. destruct H as [<-|[]]. exists i, c. rewrite all_binary_iff in B.
    unfold sel_setup, members in *. rewrite E in *. repeat split; auto.
  - intros (i & c & (E & En & T & B) & ->). exists i. split; [apply in_type_refs; eauto|]. unfold is_on. rewrite E, En.
    assert (M : members cs i = variables c) by (unfold members; now rewrite E). rewrite M, (proj2 (all_binary_iff vs (variables c)) B). left. unfold sel_setup. now rewrite M.
Qed.
Lemma raw_sorted vs cs ptrs : StronglySorted lt ptrs -> StronglySorted (fun s t => sl_con s < sl_con t) (raw_selections vs cs ptrs).
Proof.
  induction 1 as [|i l S IH F]; cbn [raw_selections flat_map]; [constructor|]. destruct (is_on cs i); [|exact IH]. destruct (all_binary vs (members cs i)); [|exact IH].
  cbn [app]. constructor; [exact IH|]. apply Forall_forall. intros s I. apply in_flat_map in I as (j & J & H). rewrite Forall_forall in F. specialize (F j J).
  destruct (is_on cs j); [|destruct H]. destruct (all_binary vs (members cs j)); [|destruct H]. destruct H as [<-|[]]. exact F.
Qed.
Lemma seq_sorted n : forall a, StronglySorted lt (seq a n).
Proof.
  induction n as [|n IH]; intros a; cbn [seq]; constructor; [apply IH|]. apply Forall_forall. intros i I. apply in_seq in I. lia.
Qed.
Lemma filter_sorted {A} (R : A -> A -> Prop) f l : StronglySorted R l -> StronglySorted R (filter f l).
Proof.
  induction 1 as [|a l S IH F]; cbn [filter]; [constructor|]. destruct (f a); [|exact IH]. constructor; [exact IH|].
  rewrite Forall_forall in *. intros b I. apply filter_In in I as [I _]. auto.
Qed.
Lemma size_sorted (lt : sel -> sel -> bool) (le : nat -> nat -> Prop) l :
  (forall a b, lt b a = true -> le (length (sl_vars b)) (length (sl_vars a))) ->
  (forall a b, lt b a = false -> le (length (sl_vars a)) (length (sl_vars b))) ->
  (forall a b c, le a b -> le b c -> le a c) ->
  StronglySorted (fun s t => le (length (sl_vars s)) (length (sl_vars t))) (stable_sort lt l).
Proof. intros H1 H2 H3. apply sort_ordered; auto. intros a b c. apply H3. Qed.

(** What each mode guarantees about an eligible constraint it leaves alone. *)
Definition preferred (mode : selection_mode) (user : nat -> bool) (s : sel) (i : nat) (c : constr) : Prop :=
  match mode with
  | Off | Independent => False
  | Defined | UserDefined => sl_con s < i
  | Smaller => length (sl_vars s) <= length (variables c)
  | Larger => length (variables c) <= length (sl_vars s)
  end.
Lemma choose_spec x vs cs mode user : let raw := raw_selections vs cs (type_refs x cs SetPartitioning) in
  let r := choose mode user raw in
  (forall s, In s r -> exists c, eligible x vs cs (sl_con s) c /\ s = mkSel (variables c) (sl_con s) [] None /\ (mode = UserDefined -> user (sl_con s) = true)) /\
  ForallOrdPairs apart r /\
  (forall i c, eligible x vs cs i c -> mode <> Off -> mode <> Independent -> (mode = UserDefined -> user i = true) ->
     (exists s, In s r /\ sl_con s = i) \/ exists s, In s r /\ touches s c /\ preferred mode user s i c) /\
  (mode = Independent -> forall i c, eligible x vs cs i c ->
     ((exists s, In s r /\ sl_con s = i) <-> forall j d v, j <> i -> eligible x vs cs j d -> In v (variables c) -> ~ In v (variables d))).
Proof.
  cbv zeta. set (raw := raw_selections vs cs (type_refs x cs SetPartitioning)).
  assert (RawS : StronglySorted (fun s t => sl_con s < sl_con t) raw) by (apply raw_sorted, filter_sorted, seq_sorted).
  assert (G : forall (R : sel -> sel -> Prop) l (P : sel -> Prop), StronglySorted R l -> (forall s, In s l <-> In s raw /\ P s) ->
     (forall s, In s (greedy l []) -> exists c, eligible x vs cs (sl_con s) c /\ s = mkSel (variables c) (sl_con s) [] None /\ P s) /\
     ForallOrdPairs apart (greedy l []) /\
     (forall i c, eligible x vs cs i c -> P (mkSel (variables c) i [] None) ->
       (exists s, In s (greedy l []) /\ sl_con s = i) \/ exists s, In s (greedy l []) /\ touches s c /\ R s (mkSel (variables c) i [] None))).
  { intros R l P S H. destruct (greedy_spec R l S []) as (A & B & C). split; [|split; [exact B|]].
    - intros s I. destruct (A s I) as [I' _]. apply H in I' as [I' Q]. apply in_raw in I' as (i & c & El & ->). exists c. auto.
    - intros i c El Q. assert (I : In (mkSel (variables c) i [] None) l) by (apply H; split; [apply in_raw; eauto|exact Q]).
      destruct (C _ I) as [I'|(v & V & [[]|(t & T1 & T2 & T3)])]; [left; eexists; split; [exact I'|reflexivity]|].
      right. exists t. split; [exact T1|]. split; [exists v; auto|exact T3]. }
  assert (Same : forall lt s, In s (stable_sort lt raw) <-> In s raw /\ True).
  { intros lt s. split; [intros I; split; [exact (Permutation_in _ (sort_perm lt raw) I)|exact Logic.I]|intros [I _]; exact (Permutation_in _ (Permutation_sym (sort_perm lt raw)) I)]. }
  destruct mode; cbn [choose preferred].
  - split; [intros s []|]. split; [constructor|]. split; [congruence|discriminate].
  - destruct (G _ raw (fun _ => True) RawS ltac:(intros; tauto)) as (A & B & C). split; [|split; [exact B|split; [|discriminate]]].
    + intros s I. destruct (A s I) as (c & ? & ? & _). exists c. repeat split; try apply H; auto; discriminate.
    + intros i c El _ _ _. exact (C i c El Logic.I).
  - destruct (G (fun s t => length (sl_vars s) <= length (sl_vars t)) (stable_sort (fun s t => length (sl_vars s) <? length (sl_vars t)) raw) (fun _ => True)) as (A & B & C).
    + apply (size_sorted _ le); [intros a b H; apply Nat.ltb_lt in H; lia|intros a b H; apply Nat.ltb_ge in H; lia|intros; lia].
    + apply Same.
    + split; [|split; [exact B|split; [|discriminate]]].
      * intros s I. destruct (A s I) as (c & ? & ? & _). exists c. repeat split; try apply H; auto; discriminate.
      * intros i c El _ _ _. exact (C i c El Logic.I).
  - destruct (G (fun s t => length (sl_vars t) <= length (sl_vars s)) (stable_sort (fun s t => length (sl_vars t) <? length (sl_vars s)) raw) (fun _ => True)) as (A & B & C).
    + apply (size_sorted _ (fun a b => b <= a)); [intros a b H; apply Nat.ltb_lt in H; lia|intros a b H; apply Nat.ltb_ge in H; lia|intros; lia].
    + apply Same.
    + split; [|split; [exact B|split; [|discriminate]]].
      * intros s I. destruct (A s I) as (c & ? & ? & _). exists c. repeat split; try apply H; auto; discriminate.
      * intros i c El _ _ _. exact (C i c El Logic.I).
  - split; [|split; [apply independents_apart|split; [congruence|]]].
    + intros s I. apply in_independents in I as (k & E & _). apply nth_error_In in E. apply in_raw in E as (i & c & El & ->). exists c. repeat split; try apply El; auto; discriminate.
    + intros _ i c El. assert (I : In (mkSel (variables c) i [] None) raw) by (apply in_raw; eauto). apply In_nth_error in I as [k Ek].
      assert (Uniq : forall p q s t, nth_error raw p = Some s -> nth_error raw q = Some t -> sl_con s = sl_con t -> p = q).
      { assert (Lt : forall p q s t, p < q -> nth_error raw p = Some s -> nth_error raw q = Some t -> sl_con s < sl_con t).
        { clear -RawS. induction RawS as [|a l S IH F]; intros p q s t L E1 E2; [destruct p; discriminate|]. destruct q as [|q]; [lia|]. cbn in E2. destruct p as [|p]; cbn in E1.
          - injection E1 as <-. rewrite Forall_forall in F. apply F. eapply nth_error_In; eauto.
          - apply (IH p q); auto; lia. }
        intros p q s t E1 E2 E. destruct (Nat.lt_trichotomy p q) as [L|[L|L]]; [|exact L|]; [specialize (Lt p q s t L E1 E2)|specialize (Lt q p t s L E2 E1)]; lia. }
      split.
      * intros (s & I & <-). apply in_independents in I as (p & Ep & Ind). assert (p = k) by (apply (Uniq p k _ _ Ep Ek); reflexivity). subst p.
        rewrite Ek in Ep. injection Ep as Es. intros j d v D Ed V W.
        assert (Id : In (mkSel (variables d) j [] None) raw) by (apply in_raw; eauto). apply In_nth_error in Id as [q Eq].
        assert (Dq : q <> k). { intros ->. rewrite Ek in Eq. injection Eq as _ X. congruence. }
        assert (Ek' : nth_error raw k = Some s) by congruence.
        apply (proj1 (independent_iff raw k s Ek') Ind q _ Dq Eq v); [|exact W]. rewrite <- Es. exact V.
      * intros H. exists (mkSel (variables c) i [] None). split; [|reflexivity]. apply in_independents. exists k. split; [exact Ek|].
        apply (independent_iff raw k _ Ek). intros q t D Eq v V W. pose proof (nth_error_In _ _ Eq) as It. apply in_raw in It as (j & d & Ed & ->).
        cbn [sl_vars] in V, W. apply (H j d v); auto. intros ->. apply D. apply (Uniq q k _ _ Eq Ek). reflexivity.
  - destruct (G _ (filter (fun s => user (sl_con s)) raw) (fun s => user (sl_con s) = true) (filter_sorted _ _ _ RawS) ltac:(intros; apply filter_In)) as (A & B & C).
    split; [|split; [exact B|split; [|discriminate]]].
    + intros s I. destruct (A s I) as (c & ? & ? & U). exists c. repeat split; try apply H; auto.
    + intros i c El _ _ U. exact (C i c El (U eq_refl)).
Qed.
