(** The correction chooses the least harm (C82). *)
From Coq Require Import List ZArith QArith Qabs Bool Lia Lqa Permutation.
From Verif Require Import ExprModel ExprSpec ConstraintModel ConstraintSpec VariableModel TypeModel EvalModel PresolveModel
  DuplicateModel SelectionModel SelectionSpec CorrectSpec.
From Verif Require Import SelectionProof3.
Import ListNotations.
Local Open Scope nat_scope.

(** * The search for the best candidate *)
Lemma best_least score l v : NoDup l -> best_candidate score l = Some v ->
  forall w, In w l -> (score v <= score w)%Z /\ (before l w v -> (score v < score w)%Z).
Proof.
  unfold best_candidate. intros ND H.
  set (f := fun best v => if (score v <? snd best)%Z then (Some v, score v) else best) in *.
  assert (M : forall l best, (snd (fold_left f l best) <= snd best)%Z /\ forall w, In w l -> (snd (fold_left f l best) <= score w)%Z).
  { clear. induction l as [|a l IH]; intros best; cbn [fold_left]; [split; [lia|intros w []]|].
    destruct (IH (f best a)) as [A B]. assert (X : (snd (f best a) <= snd best /\ snd (f best a) <= score a)%Z).
    { unfold f. destruct (Z.ltb_spec (score a) (snd best)); cbn [snd]; lia. }
    split; [lia|]. intros w [<-|W]; [lia|auto]. }
  assert (K : forall l best, (forall u, fst best = Some u -> snd best = score u) ->
     forall u, fst (fold_left f l best) = Some u -> snd (fold_left f l best) = score u).
  { clear. induction l as [|a l IH]; intros best B u; cbn [fold_left]; [apply B|]. apply IH. intros x. unfold f.
    destruct (score a <? snd best)%Z; [cbn; intros X; injection X as <-; reflexivity|apply B]. }
  assert (Ev : snd (fold_left f l (None, INT_MAX)) = score v) by (apply K; [discriminate|exact H]).
  intros w W. split; [rewrite <- Ev; apply M, W|]. intros (a & b & c & E).
  (* v was taken when the best was at most score w *)
  assert (T : forall pre post best u, fst (fold_left f (pre ++ u :: post) best) = Some u -> NoDup (pre ++ u :: post) -> fst best <> Some u ->
     (score u < snd (fold_left f pre best))%Z).
  { clear. intros pre post best u H ND B. rewrite fold_left_app in H. cbn [fold_left] in H.
    assert (N : fst (fold_left f pre best) <> Some u).
    { assert (Nu : ~ In u pre) by (apply NoDup_remove_2 in ND; intros X; apply ND, in_or_app; now left).
      clear H ND. revert best B. induction pre as [|p pre IH]; intros best B; cbn [fold_left]; [exact B|]. apply IH; [intros X; apply Nu; now right|].
      unfold f. destruct (score p <? snd best)%Z; [cbn; intros X; injection X as ->; apply Nu; now left|exact B]. }
    set (st := fold_left f pre best) in *.
    destruct (Z.ltb_spec (score u) (snd st)) as [L|L]; [exact L|]. exfalso.
    assert (Fu : f st u = st) by (unfold f; now rewrite (proj2 (Z.ltb_ge _ _) L)). rewrite Fu in H.
    assert (Nu : ~ In u post). { apply NoDup_remove_2 in ND. intros X. apply ND, in_or_app. now right. }
    clear L Fu ND. clearbody st. revert st N H. induction post as [|p post IH]; intros st N H; cbn [fold_left] in H; [contradiction|].
    apply (IH (fun X => Nu (or_intror X)) (f st p)); [|exact H]. unfold f. destruct (score p <? snd st)%Z; [cbn; intros X; injection X as ->; apply Nu; now left|exact N]. }
  subst l. replace (a ++ w :: b ++ v :: c) with ((a ++ w :: b) ++ v :: c) in H, ND by (rewrite <- app_assoc; reflexivity).
  specialize (T _ _ _ _ H ND ltac:(discriminate)). destruct (M (a ++ w :: b) (None, INT_MAX)) as [_ B].
  assert (Iw : In w (a ++ w :: b)) by (apply in_or_app; right; now left). specialize (B w Iw). lia.
Qed.

(** * One selection *)
Lemma before_filter (f : nat -> bool) l w v : f w = true -> f v = true -> before l w v -> before (filter f l) w v.
Proof.
  intros W V (a & b & c & ->). exists (filter f a), (filter f b), (filter f c).
  rewrite filter_app. cbn [filter]. rewrite W, filter_app. cbn [filter]. now rewrite V.
Qed.
Lemma one_step cs sens vs vals s vs1 vals1 s1 :
  verify_selection true cs sens (vs, vals) s = Some (vs1, vals1, s1) -> NoDup (sl_vars s) ->
  exists v, chosen vs1 (sl_vars s) v /\ (kept vs s /\ vals1 = vals \/ ~ kept vs s /\ vals1 = add_sens sens vals v) /\
    ((forall u, In u (sl_vars s) -> va_fixed (vs u) = true -> va_value (vs u) <> 1%Z) -> ~ kept vs s ->
     candidate vs s v /\ forall w, candidate vs s w ->
       (candidate_violation cs sens vals v <= candidate_violation cs sens vals w)%Z /\
       (before (sl_vars s) w v -> (candidate_violation cs sens vals v < candidate_violation cs sens vals w)%Z)).
Proof.
  intros H ND. destruct (verify_selection_spec _ _ _ _ _ _ _ _ _ H ND) as (_ & _ & [v0 C0] & _).
  unfold verify_selection in H. cbv zeta in H.
  set (selected := filter (fun v => Z.eqb (va_value (vs v)) 1) (sl_vars s)) in *.
  set (invalid := filter (fun v => negb (Z.eqb (va_value (vs v)) 0) && negb (Z.eqb (va_value (vs v)) 1)) (sl_vars s)) in *.
  destruct (0 <? length (filter (fun v => va_fixed (vs v)) invalid)) eqn:G1; [discriminate|].
  destruct (1 <? length (filter (fun v => va_fixed (vs v)) selected)) eqn:G2; [discriminate|].
  rewrite andb_false_r in H. cbn [negb andb] in H.
  assert (Hs : forall v, In v selected <-> In v (sl_vars s) /\ va_value (vs v) = 1%Z) by (intros v; unfold selected; rewrite filter_In, Z.eqb_eq; reflexivity).
  assert (NDs : NoDup selected) by (apply NoDup_filter, ND).
  assert (F1 : forall w, va_fixed (put_all vs invalid 0 w) = va_fixed (vs w)) by (intros w; apply (put_all_same invalid 0 vs w)).
  assert (One : forall v, va_value (vs1 v) = 1%Z -> In v (sl_vars s) -> v = v0).
  { intros v E I. destruct (Nat.eq_dec v v0) as [|D]; [assumption|]. rewrite (proj2 (proj2 C0) v I D) in E. discriminate E. }
  exists v0. split; [exact C0|].
  destruct (filter (fun v => va_fixed (vs v)) selected) as [|v fixed] eqn:Ef.
  - assert (NF : forall w, In w selected -> va_fixed (vs w) = false).
    { intros w W. destruct (va_fixed (vs w)) eqn:F; [|reflexivity]. exfalso.
      assert (X : In w (filter (fun v => va_fixed (vs v)) selected)) by (apply filter_In; auto). rewrite Ef in X. destruct X. }
    destruct selected as [|v [|v2 rest]] eqn:Es.
    + destruct (best_candidate _ _) as [v|] eqn:B; [|discriminate]. injection H as <- <- <-.
      pose proof (best_in _ _ _ B) as Bi. apply filter_In in Bi as [B1 B2]. apply negb_true_iff in B2.
      assert (v = v0) by (apply One; [now apply put_value|exact B1]). subst v0.
      assert (NK : ~ kept vs s) by (intros (u & U1 & U2 & _); exact (proj2 (Hs u) (conj U1 U2))).
      split; [right; auto|]. intros _ _. rewrite F1 in B2. split.
      { split; [exact B1|]. split; [exact B2|]. right. intros w W E. exact (proj2 (Hs w) (conj W E)). }
      intros w (W1 & W2 & _). destruct (best_least _ _ _ (NoDup_filter _ ND) B w) as [L1 L2].
      { apply filter_In. rewrite F1, W2. auto. }
      split; [exact L1|]. intros Bf. apply L2, before_filter; [now rewrite F1, W2|now rewrite F1, B2|exact Bf].
    + injection H as <- <- <-. assert (K : kept vs s).
      { exists v. destruct (proj1 (Hs v) (or_introl eq_refl)) as [Iv Ev]. split; [exact Iv|]. split; [exact Ev|]. split; [apply NF; now left|].
        intros w W E. destruct (proj2 (Hs w) (conj W E)) as [->|[]]. reflexivity. }
      split; [left; auto|]. intros _ X. contradiction.
    + destruct (best_candidate _ _) as [u|] eqn:B; [|discriminate]. injection H as <- <- <-.
      pose proof (best_in _ _ _ B) as Bi. destruct (proj1 (Hs u) Bi) as [U1 U2].
      assert (u = v0).
      { apply One; [|exact U1]. apply put_value. rewrite put_all_other; [rewrite F1; apply NF, Bi|].
        intros X. apply (filter_In (fun w => negb (w =? u)) u (v :: v2 :: rest)) in X as [_ X]. rewrite Nat.eqb_refl in X. discriminate X. }
      subst v0. assert (NK : ~ kept vs s).
      { intros (x & X1 & X2 & _ & X4). inversion NDs as [|? ? Nv _]; subst. apply Nv. left.
        destruct (proj1 (Hs v) (or_introl eq_refl)) as [A1 A2]. destruct (proj1 (Hs v2) (or_intror (or_introl eq_refl))) as [A3 A4].
        rewrite (X4 v A1 A2), (X4 v2 A3 A4). reflexivity. }
      split; [right; auto|]. intros _ _. split; [split; [exact U1|]; split; [apply NF, Bi|now left]|].
      intros w (W1 & W2 & W3). assert (W : In w (v :: v2 :: rest)).
      { apply Hs. split; [exact W1|]. destruct W3 as [W3|W3]; [exact W3|]. exfalso. exact (W3 u U1 U2). }
      destruct (best_least _ _ _ NDs B w W) as [L1 L2]. split; [exact L1|]. intros Bf. apply L2.
      rewrite <- Es. unfold selected. apply before_filter; [| |exact Bf]; apply Z.eqb_eq; [apply (proj1 (Hs w) W)|exact U2].
  - injection H as <- <- <-. assert (Iv : In v (filter (fun v => va_fixed (vs v)) selected)) by (rewrite Ef; now left).
    apply filter_In in Iv as [Iv Fv]. destruct (proj1 (Hs v) Iv) as [V1 V2].
    assert (v = v0).
    { apply One; [|exact V1]. set (r := put_all (put_all vs invalid 0) _ 0).
      assert (Sm : same vs (put r v 1)) by (eapply same_trans; [apply put_all_same|eapply same_trans; [apply put_all_same|apply put_same]]).
      destruct (Sm v) as (_ & _ & _ & _ & E). rewrite E by exact Fv. exact V2. }
    subst v0. assert (NK : ~ kept vs s).
    { intros (x & X1 & X2 & X3 & X4). rewrite (X4 v V1 V2) in Fv. congruence. }
    split; [right; auto|]. intros NFx _. exfalso. exact (NFx v V1 Fv V2).
Qed.
