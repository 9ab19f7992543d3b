(** Extraction of selections, the whole step (C32). *)
From Coq Require Import List ZArith QArith Bool Lia Permutation Sorted.
From Verif Require Import ExprModel ExprSpec ExprProof ConstraintModel VariableModel TypeModel TypeSpec EvalModel EvalProof PresolveModel PresolveSpec
  DuplicateModel DuplicateSpec DuplicateProof DuplicateProof2 SelectionModel SelectionSpec SelectionProof.
Import ListNotations.
Local Open Scope nat_scope.

Lemma nth_disable_all l : forall cs i, nth_error (fold_left disable_at l cs) i =
  option_map (fun c => if existsb (Nat.eqb i) l then disable c else c) (nth_error cs i).
Proof.
  induction l as [|a l IH]; intros cs i; cbn [fold_left existsb]; [now destruct (nth_error cs i)|].
  rewrite IH, nth_disable. destruct (Nat.eqb i a); cbn [orb]; destruct (nth_error cs i) as [c|]; cbn [option_map]; try reflexivity.
  destruct (existsb (Nat.eqb i) l); reflexivity.
Qed.

Lemma disable_all_length l : forall cs, length (fold_left disable_at l cs) = length cs.
Proof. induction l as [|a l IH]; intros d; cbn [fold_left]; [reflexivity|]. rewrite IH. apply disable_length. Qed.

Section extraction.
  Variables (vname cname : nat -> nat) (mode : selection_mode) (user : nat -> bool) (x : tctx) (vs : vars) (cs : list constr).
  Let chosen := choose mode user (raw_selections vs cs (type_refs x cs SetPartitioning)).
  Let sels := map (setup_related vname cname cs) chosen.

  Lemma extract_eq : extract_selections vname cname mode user vs cs (type_refs x cs SetPartitioning) =
    (fun v => if existsb (Nat.eqb v) (flat_map sl_vars sels) then v_with_sense (vs v) VSelection else vs v,
     fold_left disable_at (map sl_con chosen) cs, sels).
  Proof. reflexivity. Qed.

  Lemma sels_origin s : In s sels -> exists t c, In t chosen /\ eligible x vs cs (sl_con s) c /\ t = mkSel (variables c) (sl_con s) [] None /\
    (mode = UserDefined -> user (sl_con s) = true) /\ s = setup_related vname cname cs t /\ Permutation (sl_vars s) (variables c) /\ sl_con s = sl_con t.
  Proof.
    intros I. apply in_map_iff in I as (t & E & I). destruct (choose_spec x vs cs mode user) as (A & _). destruct (A t I) as (c & El & Et & U).
    destruct (setup_related_spec vname cname cs t) as (P & C & _). rewrite E in P, C. exists t, c. rewrite C. assert (Ev : sl_vars t = variables c) by (rewrite Et; reflexivity). rewrite Ev in P.
    repeat split; auto; try apply El.
  Qed.
  Lemma sels_image t : In t chosen -> In (setup_related vname cname cs t) sels.
  Proof. apply in_map. Qed.

  Lemma extracted_disjoint : disjoint_selections sels.
  Proof.
    destruct (choose_spec x vs cs mode user) as (_ & B & _). apply pairs_disjoint in B. fold chosen in B.
    assert (H : forall i s, nth_error sels i = Some s -> exists t, nth_error chosen i = Some t /\ Permutation (sl_vars s) (sl_vars t)).
    { intros i s E. unfold sels in E. rewrite nth_error_map in E. destruct (nth_error chosen i) as [t|]; [|discriminate]. injection E as <-. exists t.
      split; [reflexivity|]. apply (setup_related_spec vname cname cs t). }
    intros i j s t D Es Et v V W. destruct (H i s Es) as (s' & Es' & Ps), (H j t Et) as (t' & Et' & Pt).
    apply (B i j s' t' D Es' Et' v); [apply (Permutation_in _ Ps V)|apply (Permutation_in _ Pt W)].
  Qed.
  Lemma extracted_origin s : In s sels -> exists c, eligible x vs cs (sl_con s) c /\ Permutation (sl_vars s) (variables c) /\
    sl_selected s = None /\ (mode = UserDefined -> user (sl_con s) = true).
  Proof.
    intros I. destruct (sels_origin s I) as (t & c & _ & El & Et & U & E & P & _). exists c. split; [exact El|]. split; [exact P|]. split; [|exact U].
    rewrite E, Et. reflexivity.
  Qed.
  Lemma extracted_related s : In s sels -> NoDup (sl_related s) /\
    (forall i, In i (sl_related s) <-> i <> sl_con s /\ exists v c, In v (sl_vars s) /\ nth_error cs i = Some c /\ In v (variables c)).
  Proof.
    intros I. destruct (sels_origin s I) as (t & c & _ & El & Et & U & E & P & C). destruct (setup_related_spec vname cname cs t) as (P' & C' & _ & N & H).
    rewrite <- E in *. split; [exact N|]. intros i. rewrite (H i), C. split; intros (D & v & d & V & R); (split; [exact D|]); exists v, d; (split; [|exact R]);
      [exact (Permutation_in _ (Permutation_sym P') V)|exact (Permutation_in _ P' V)].
  Qed.
  Lemma extracted_related_score s : In s sels -> Permutation (sl_related s) (selection_related cs (sl_con s) (sl_vars s)).
  Proof.
    intros I. destruct (extracted_related s I) as [N H]. apply NoDup_Permutation; [exact N|apply NoDup_nodup|]. intros i. rewrite (H i). unfold selection_related.
    rewrite nodup_In, filter_In, in_flat_map. unfold related_constraints.
    assert (Q : forall v, In i (map fst (constraint_sensitivities cs v)) <-> exists c, nth_error cs i = Some c /\ In v (variables c)).
    { intros v. rewrite in_map_iff. split.
      - intros ((j & a) & E & K). cbn in E. subst j. apply sens_entry0 in K as (c & E & K). exists c. split; [exact E|]. apply (in_map fst) in K. exact K.
      - intros (c & E & K). apply in_map_iff in K as ((w & a) & F & K). cbn in F. subst w. exists (i, a). split; [reflexivity|]. apply sens_entry0. eauto. }
    split.
    - intros (D & v & c & V & E & K). split; [exists v; split; [exact V|apply Q; eauto]|]. apply negb_true_iff, Nat.eqb_neq, D.
    - intros ((v & V & K) & D). apply negb_true_iff, Nat.eqb_neq in D. split; [exact D|]. apply Q in K as (c & E & K). exists v, c. auto.
  Qed.
  Lemma con_chosen i : In i (map sl_con chosen) <-> exists s, In s sels /\ sl_con s = i.
  Proof.
    rewrite in_map_iff. split.
    - intros (t & E & I). exists (setup_related vname cname cs t). split; [now apply sels_image|]. rewrite <- E. reflexivity.
    - intros (s & I & E). destruct (sels_origin s I) as (t & c & T & _ & _ & _ & _ & _ & C). exists t. split; [congruence|exact T].
  Qed.
  Lemma extracted_constraints : let cs' := fold_left disable_at (map sl_con chosen) cs in
    only_disables cs cs' /\
    forall i c c', nth_error cs i = Some c -> nth_error cs' i = Some c' ->
      ((exists s, In s sels /\ sl_con s = i) -> ct_enabled c' = false) /\ (~ (exists s, In s sels /\ sl_con s = i) -> c' = c).
  Proof.
    cbv zeta. split; [split|].
    - apply disable_all_length.
    - intros i c c' E E'. rewrite nth_disable_all, E in E'. cbn [option_map] in E'. injection E' as <-. destruct (existsb _ _); cbn; repeat split; auto; discriminate.
    - intros i c c' E E'. rewrite nth_disable_all, E in E'. cbn [option_map] in E'. injection E' as <-.
      destruct (existsb (Nat.eqb i) (map sl_con chosen)) eqn:M.
      + split; [reflexivity|]. intros H. exfalso. apply H. apply con_chosen, mem_iff, M.
      + split; [|reflexivity]. intros H. apply con_chosen, mem_iff in H. congruence.
  Qed.
  Lemma extracted_senses v : let vs' := fun v => if existsb (Nat.eqb v) (flat_map sl_vars sels) then v_with_sense (vs v) VSelection else vs v in
    ((exists s, In s sels /\ In v (sl_vars s)) -> vs' v = v_with_sense (vs v) VSelection) /\
    (~ (exists s, In s sels /\ In v (sl_vars s)) -> vs' v = vs v).
  Proof.
    cbv beta zeta. destruct (existsb (Nat.eqb v) (flat_map sl_vars sels)) eqn:M.
    - split; [reflexivity|]. intros H. exfalso. apply H. apply mem_iff, in_flat_map in M as (s & A & B). eauto.
    - split; [|reflexivity]. intros (s & A & B). assert (X : existsb (Nat.eqb v) (flat_map sl_vars sels) = true) by (apply mem_iff, in_flat_map; eauto). congruence.
  Qed.
  Lemma touches_image t c : touches t c -> touches (setup_related vname cname cs t) c.
  Proof.
    intros (v & V & W). exists v. split; [|exact W]. destruct (setup_related_spec vname cname cs t) as (P & _). exact (Permutation_in _ (Permutation_sym P) V).
  Qed.
  Lemma extracted_maximal i c : eligible x vs cs i c -> mode <> Off -> mode <> Independent -> (mode = UserDefined -> user i = true) ->
    (exists s, In s sels /\ sl_con s = i) \/
    exists s, In s sels /\ touches s c /\
      match mode with Smaller => length (sl_vars s) <= length (variables c) | Larger => length (variables c) <= length (sl_vars s) | _ => sl_con s < i end.
  Proof.
    intros El M1 M2 U. destruct (choose_spec x vs cs mode user) as (_ & _ & C & _). fold chosen in C.
    destruct (C i c El M1 M2 U) as [(t & T & E)|(t & T & E & P)].
    - left. exists (setup_related vname cname cs t). split; [now apply sels_image|]. rewrite <- E. reflexivity.
    - right. exists (setup_related vname cname cs t). split; [now apply sels_image|]. split; [now apply touches_image|].
      destruct (setup_related_spec vname cname cs t) as (P1 & P2 & _). apply Permutation_length in P1. rewrite P1. rewrite P2.
      destruct mode; cbn [preferred] in P; try exact P; contradiction.
  Qed.
  Lemma extracted_independent i c : mode = Independent -> eligible x vs cs i c ->
    ((exists s, In s sels /\ sl_con s = i) <-> forall j d v, j <> i -> eligible x vs cs j d -> In v (variables c) -> ~ In v (variables d)).
  Proof.
    intros M El. destruct (choose_spec x vs cs mode user) as (_ & _ & _ & D). fold chosen in D. rewrite <- (D M i c El). split.
    - intros (s & I & E). destruct (sels_origin s I) as (t & d & T & _ & _ & _ & _ & _ & C). exists t. split; [exact T|congruence].
    - intros (t & T & E). exists (setup_related vname cname cs t). split; [now apply sels_image|]. rewrite <- E. reflexivity.
  Qed.
End extraction.

Lemma extracted_meaning vname cname mode user name vs cs : proper_senses (vctx name vs) ->
  (forall c, In c cs -> truthful_flags (vctx name vs) c /\ NoDup (variables c)) ->
  let '(_, cs', sels) := extract_selections vname cname mode user vs cs (type_refs (vctx name vs) cs SetPartitioning) in
  forall y, legal vs y -> (satisfies_all cs y <-> satisfies_all cs' y /\ forall s, In s sels -> total (sl_vars s) y = 1%Z).
Proof.
  intros PS H. rewrite extract_eq. set (sels := map (setup_related vname cname cs) _). set (cs' := fold_left _ _ _). intros y L.
  destruct (extracted_constraints vname cname mode user (vctx name vs) vs cs) as [[Len O] X]. fold sels cs' in Len, O, X.
  assert (S : forall s, In s sels -> exists c, nth_error cs (sl_con s) = Some c /\ ct_enabled c = true /\ (satisfies c y <-> total (sl_vars s) y = 1%Z)).
  { intros s I. destruct (extracted_origin vname cname mode user (vctx name vs) vs cs s I) as (c & (E & En & T & _) & P & _). exists c. split; [exact E|]. split; [exact En|].
    destruct (H c (nth_error_In _ _ E)) as [TF N]. pose proof (unit_type_meaning name vs c PS TF N) as M. rewrite T in M. destruct M as [_ M]. destruct (M y L) as [_ M'].
    rewrite M'. assert (Et : total (sl_vars s) y = total (variables c) y); [|rewrite Et; reflexivity]. clear -P. induction P; cbn [total]; lia. }
  rewrite !all_nth. split.
  - intros A. split.
    + intros i c' E En. destruct (nth_error cs i) as [c|] eqn:Ec.
      * destruct (O i c c' Ec E) as (O1 & O2 & O3). unfold satisfies. rewrite O1, O2. exact (A i c Ec (O3 En)).
      * apply nth_error_None in Ec. assert (Q : nth_error cs' i <> None) by congruence. apply nth_error_Some in Q. lia.
    + intros s I. destruct (S s I) as (c & E & En & Q). apply Q. exact (A _ c E En).
  - intros [A B] i c E En. destruct (nth_error cs' i) as [c'|] eqn:E'.
    + destruct (in_dec Nat.eq_dec i (map sl_con sels)) as [K|K].
      * apply in_map_iff in K as (s & Es & I). destruct (S s I) as (d & Ed & _ & Q). rewrite Es, E in Ed. injection Ed as <-. apply Q, B, I.
      * assert (c' = c). { apply (X i c c' E E'). intros (s & I & Es). apply K. rewrite <- Es. now apply in_map. } subst c'. exact (A i c E' En).
    + apply nth_error_None in E'. assert (Q : nth_error cs i <> None) by congruence. apply nth_error_Some in Q. lia.
Qed.
