(** Verification of the initial values (C33) and selection moves (C36). *)
From Coq Require Import List ZArith QArith Bool Lia Permutation.
From Verif Require Import ExprModel ExprSpec ConstraintModel VariableModel TypeModel TypeSpec PresolveModel PresolveSpec
  DuplicateModel DuplicateSpec SelectionModel SelectionSpec.
Import ListNotations.
Local Open Scope nat_scope.

Definition same := same_but_value.
Lemma same_refl vs : same vs vs. Proof. intros v. repeat split; auto. Qed.
Lemma same_trans a b c : same a b -> same b c -> same a c.
Proof.
  intros H G v. destruct (H v) as (A1 & A2 & A3 & A4 & A5), (G v) as (B1 & B2 & B3 & B4 & B5). repeat split; try congruence.
  intros F. rewrite B5 by congruence. auto.
Qed.
Lemma put_same vs v a : same vs (put vs v a).
Proof.
  intros w. unfold put. destruct (Nat.eq_dec w v) as [->|D]; [rewrite Nat.eqb_refl|rewrite (proj2 (Nat.eqb_neq w v) D); repeat split; auto].
  destruct (va_fixed (vs v)) eqn:F; [repeat split; auto|]. cbn. repeat split; auto. congruence.
Qed.
Lemma put_other vs v a w : w <> v -> put vs v a w = vs w.
Proof. intros D. unfold put. now rewrite (proj2 (Nat.eqb_neq w v) D). Qed.
Lemma put_value vs v a : va_fixed (vs v) = false -> va_value (put vs v a v) = a.
Proof. intros F. unfold put. now rewrite Nat.eqb_refl, F. Qed.
Lemma put_all_same l a : forall vs, same vs (put_all vs l a).
Proof.
  induction l as [|v l IH]; intros vs; cbn [put_all fold_left]; [apply same_refl|]. eapply same_trans; [apply put_same|apply IH].
Qed.
Lemma put_all_other l a : forall vs w, ~ In w l -> put_all vs l a w = vs w.
Proof.
  induction l as [|v l IH]; intros vs w N; cbn [put_all fold_left]; [reflexivity|]. change (fold_left _ l (put vs v a)) with (put_all (put vs v a) l a).
  rewrite IH by (intros X; apply N; now right). apply put_other. intros ->. apply N. now left.
Qed.
Lemma put_all_value l a : forall vs w, In w l -> va_fixed (vs w) = false -> va_value (put_all vs l a w) = a.
Proof.
  induction l as [|v l IH]; intros vs w I F; [destruct I|]. cbn [put_all fold_left]. change (fold_left _ l (put vs v a)) with (put_all (put vs v a) l a).
  destruct (in_dec Nat.eq_dec w l) as [J|J].
  - apply IH; [exact J|]. destruct (put_same vs v a w) as (_ & _ & E & _). congruence.
  - rewrite put_all_other by exact J. destruct I as [->|I]; [|contradiction]. now apply put_value.
Qed.

Lemma best_in score l v : best_candidate score l = Some v -> In v l.
Proof.
  unfold best_candidate. intros H.
  assert (G : forall l best, match fst (fold_left (fun best v => if (score v <? snd best)%Z then (Some v, score v) else best) l best) with
    | Some v => In v l \/ fst best = Some v | None => True end).
  { clear. induction l as [|a l IH]; intros best; cbn [fold_left]; [destruct (fst best); auto|].
    specialize (IH (if (score a <? snd best)%Z then (Some a, score a) else best)). destruct (fst (fold_left _ l _)) as [v|]; [|exact I].
    destruct IH as [IH|IH]; [left; now right|]. destruct (score a <? snd best)%Z; [|auto]. cbn in IH. injection IH as <-. left. now left. }
  specialize (G l (None, INT_MAX)). rewrite H in G. destruct G as [G|G]; [exact G|discriminate].
Qed.

Lemma len0 {A} (l : list A) : (0 <? length l) = false -> l = [].
Proof. destruct l; [reflexivity|discriminate]. Qed.

(** The state after one selection. *)
Lemma verify_selection_spec correct cs sens vs vals s vs' vals' s' :
  verify_selection correct cs sens (vs, vals) s = Some (vs', vals', s') -> NoDup (sl_vars s) ->
  same vs vs' /\ (forall w, ~ In w (sl_vars s) -> vs' w = vs w) /\ (exists v, chosen vs' (sl_vars s) v) /\
  sl_vars s' = sl_vars s /\ sl_con s' = sl_con s /\ sl_related s' = sl_related s /\
  (sl_selected s' = sl_selected s \/ exists v, sl_selected s' = Some v /\ chosen vs' (sl_vars s) v /\ va_fixed (vs' v) = false) /\
  (correct = false -> (exists v, chosen vs (sl_vars s) v) /\ (forall v, va_value (vs' v) = va_value (vs v)) /\
     forall v, chosen vs (sl_vars s) v -> va_fixed (vs v) = false -> sl_selected s' = Some v).
Proof.
  intros H ND. unfold verify_selection in H. cbv zeta in H.
  set (selected := filter (fun v => Z.eqb (va_value (vs v)) 1) (sl_vars s)) in *.
  set (invalid := filter (fun v => negb (Z.eqb (va_value (vs v)) 0) && negb (Z.eqb (va_value (vs v)) 1)) (sl_vars s)) in *.
  destruct (0 <? length (filter (fun v => va_fixed (vs v)) invalid)) eqn:G1; [discriminate|].
  destruct (1 <? length (filter (fun v => va_fixed (vs v)) selected)) eqn:G2; [discriminate|].
  destruct ((0 <? length invalid) && negb correct) eqn:G3; [discriminate|].
  apply len0 in G1.
  assert (Hs : forall v, In v selected <-> In v (sl_vars s) /\ va_value (vs v) = 1%Z) by (intros v; unfold selected; rewrite filter_In, Z.eqb_eq; reflexivity).
  assert (Hi : forall v, In v invalid <-> In v (sl_vars s) /\ va_value (vs v) <> 0%Z /\ va_value (vs v) <> 1%Z).
  { intros v. unfold invalid. rewrite filter_In, andb_true_iff, !negb_true_iff, !Z.eqb_neq. reflexivity. }
  assert (Fi : forall v, In v invalid -> va_fixed (vs v) = false).
  { intros v V. destruct (va_fixed (vs v)) eqn:F; [|reflexivity]. assert (X : In v (filter (fun v => va_fixed (vs v)) invalid)) by (apply filter_In; auto).
    rewrite G1 in X. destruct X. }
  assert (Hf : forall v, In v (filter (fun v => va_fixed (vs v)) selected) <-> In v (sl_vars s) /\ va_value (vs v) = 1%Z /\ va_fixed (vs v) = true).
  { intros v. rewrite filter_In, Hs. tauto. }
  assert (NDs : NoDup selected) by (apply NoDup_filter, ND).
  set (vs1 := put_all vs invalid 0) in *.
  assert (S1 : same vs vs1) by apply put_all_same.
  assert (O1 : forall w, ~ In w (sl_vars s) -> vs1 w = vs w) by (intros w W; apply put_all_other; intros X; apply Hi in X; tauto).
  assert (V1 : forall w, In w (sl_vars s) -> va_value (vs1 w) = if Z.eqb (va_value (vs w)) 1 then 1%Z else 0%Z).
  { intros w W. destruct (in_dec Nat.eq_dec w invalid) as [X|X].
    - unfold vs1. rewrite put_all_value; auto. apply Hi in X as (_ & _ & X). now rewrite (proj2 (Z.eqb_neq _ _) X).
    - unfold vs1. rewrite put_all_other by exact X. destruct (Z.eqb_spec (va_value (vs w)) 1) as [E|E]; [exact E|].
      destruct (Z.eq_dec (va_value (vs w)) 0) as [E0|E0]; [exact E0|]. exfalso. apply X, Hi. auto. }
  assert (F1 : forall w, va_fixed (vs1 w) = va_fixed (vs w)) by (intros w; apply (S1 w)).
  assert (I1 : correct = false -> vs1 = vs).
  { intros ->. rewrite andb_true_r in G3. apply len0 in G3. unfold vs1. now rewrite G3. }
  assert (Keep : forall v, In v selected -> (forall w, In w selected -> w <> v -> va_fixed (vs w) = false) ->
     let r := put (put_all vs1 (filter (fun w => negb (w =? v)) selected) 0) v 1 in
     same vs r /\ (forall w, ~ In w (sl_vars s) -> r w = vs w) /\ chosen r (sl_vars s) v).
  { intros v V W. cbv zeta. set (others := filter _ _). assert (Ho : forall w, In w others <-> In w selected /\ w <> v).
    { intros w. unfold others. rewrite filter_In, negb_true_iff, Nat.eqb_neq. reflexivity. }
    split; [eapply same_trans; [exact S1|]; eapply same_trans; [apply put_all_same|apply put_same]|]. split.
    - intros w N. rewrite put_other by (intros ->; apply Hs in V; tauto). rewrite put_all_other; [auto|]. intros X. apply Ho in X as [X _]. apply Hs in X. tauto.
    - pose proof (proj1 (Hs v) V) as [Vi Vv]. split; [exact Vi|]. split.
      + assert (Vo : ~ In v others) by (rewrite Ho; tauto).
        destruct (va_fixed (vs v)) eqn:F.
        * assert (S : same vs1 (put (put_all vs1 others 0) v 1)) by (eapply same_trans; [apply put_all_same|apply put_same]).
          destruct (S v) as (_ & _ & _ & _ & E). rewrite E by (now rewrite F1). rewrite V1 by exact Vi. now rewrite Vv.
        * apply put_value. rewrite put_all_other by exact Vo. now rewrite F1.
      + intros w Iw D. rewrite put_other by exact D. destruct (in_dec Nat.eq_dec w others) as [X|X].
        * apply put_all_value; [exact X|]. rewrite F1. apply Ho in X as [X _]. apply W; auto.
        * rewrite put_all_other by exact X. rewrite V1 by exact Iw. destruct (Z.eqb_spec (va_value (vs w)) 1) as [E|E]; [|reflexivity].
          exfalso. apply X, Ho. split; [apply Hs; auto|exact D]. }
  assert (Len1 : forall v, selected = [v] -> chosen vs1 (sl_vars s) v).
  { intros v E. assert (Iv : In v selected) by (rewrite E; now left). apply Hs in Iv as [Iv Ev]. split; [exact Iv|]. split; [rewrite V1, Ev by exact Iv; reflexivity|].
    intros w Iw D. rewrite V1 by exact Iw. destruct (Z.eqb_spec (va_value (vs w)) 1) as [E1|E1]; [|reflexivity]. exfalso.
    assert (X : In w selected) by (apply Hs; auto). rewrite E in X. destruct X as [X|[]]. congruence. }
  destruct (filter (fun v => va_fixed (vs v)) selected) as [|v fixed] eqn:Ef.
  - (* no fixed variable selected *)
    assert (NF : forall w, In w selected -> va_fixed (vs w) = false).
    { intros w W. destruct (va_fixed (vs w)) eqn:F; [|reflexivity]. exfalso. apply Hs in W as [W1 W2]. exact (proj2 (Hf w) (conj W1 (conj W2 F))). }
    destruct selected as [|v [|v2 rest]] eqn:Es.
    + destruct correct; [cbn [negb] in H|discriminate]. destruct (best_candidate _ _) as [v|] eqn:B; [|discriminate]. injection H as <- <- <-.
      apply best_in in B. apply filter_In in B as [B1 B2]. apply negb_true_iff in B2.
      split; [eapply same_trans; [exact S1|apply put_same]|]. split; [intros w N; rewrite put_other by (intros ->; contradiction); auto|].
      split; [|split; [reflexivity|]; split; [reflexivity|]; split; [reflexivity|]; split; [now left|discriminate]].
      exists v. split; [exact B1|]. split; [now apply put_value|]. intros w Iw D. rewrite put_other by exact D. rewrite V1 by exact Iw.
      destruct (Z.eqb_spec (va_value (vs w)) 1) as [E|E]; [|reflexivity]. exfalso. exact (proj2 (Hs w) (conj Iw E)).
    + injection H as <- <- <-. pose proof (Len1 v eq_refl) as Ch. split; [exact S1|]. split; [exact O1|]. split; [exists v; exact Ch|].
      cbn [sl_vars sl_con sl_related sl_selected]. split; [reflexivity|]. split; [reflexivity|]. split; [reflexivity|]. split.
      * right. exists v. split; [reflexivity|]. split; [exact Ch|]. rewrite F1. apply NF. now left.
      * intros C. rewrite (I1 C) in *. split; [exists v; exact Ch|]. split; [reflexivity|]. intros w (W1 & W2 & _) _.
        destruct (proj2 (Hs w) (conj W1 W2)) as [->|[]]. reflexivity.
    + destruct correct; [cbn [negb] in H|discriminate]. destruct (best_candidate _ _) as [u|] eqn:B; [|discriminate]. injection H as <- <- <-.
      apply best_in in B. destruct (Keep u B (fun w W _ => NF w W)) as (K1 & K2 & K3). split; [exact K1|]. split; [exact K2|]. split; [exists u; exact K3|].
      split; [reflexivity|]. split; [reflexivity|]. split; [reflexivity|]. split; [now left|discriminate].
  - assert (E : fixed = []). { destruct fixed; [reflexivity|discriminate G2]. } subst fixed.
    destruct (negb correct && (2 <=? length selected)) eqn:G4; [discriminate|]. injection H as <- <- <-.
    assert (Iv : In v (filter (fun v => va_fixed (vs v)) selected)) by (rewrite Ef; now left).
    assert (Only : forall w, In w selected -> w <> v -> va_fixed (vs w) = false).
    { intros w W D. destruct (va_fixed (vs w)) eqn:F; [|reflexivity]. exfalso.
      assert (X : In w (filter (fun v => va_fixed (vs v)) selected)) by (apply filter_In; auto). rewrite Ef in X. destruct X as [X|[]]. congruence. }
    apply filter_In in Iv as [Iv Fv].
    destruct (Keep v Iv Only) as (K1 & K2 & K3). split; [exact K1|]. split; [exact K2|]. split; [exists v; exact K3|].
    split; [reflexivity|]. split; [reflexivity|]. split; [reflexivity|]. split; [now left|].
    intros C. rewrite C in G4. cbn [negb andb] in G4. assert (Es : selected = [v]).
    { destruct selected as [|a [|b r]]; [destruct Iv| |discriminate G4]. destruct Iv as [->|[]]. reflexivity. }
    pose proof (Len1 v Es) as Ch. rewrite (I1 C) in *.
    split; [exists v; exact Ch|]. split.
    + intros w. destruct (in_dec Nat.eq_dec w (sl_vars s)) as [Iw|Iw]; [|now rewrite K2].
      destruct (Nat.eq_dec w v) as [->|D].
      * rewrite (proj1 (proj2 K3)), (proj1 (proj2 Ch)). reflexivity.
      * rewrite (proj2 (proj2 K3) w Iw D), (proj2 (proj2 Ch) w Iw D). reflexivity.
    + intros w (W1 & W2 & _) F. assert (X : In w selected) by (apply Hs; auto). rewrite Es in X. destruct X as [->|[]]. congruence.
Qed.

Lemma chosen_ext vs vs' l v : (forall w, In w l -> va_value (vs' w) = va_value (vs w)) -> chosen vs l v -> chosen vs' l v.
Proof. intros E (A & B & C). split; [exact A|]. split; [now rewrite E|]. intros w W D. rewrite E by exact W. auto. Qed.
Lemma disjoint_tail s l : disjoint_selections (s :: l) -> disjoint_selections l.
Proof. intros H i j a b D E1 E2. apply (H (S i) (S j)); auto. Qed.
Lemma disjoint_head s l t v : disjoint_selections (s :: l) -> In t l -> In v (sl_vars s) -> ~ In v (sl_vars t).
Proof. intros H I. apply In_nth_error in I as [i E]. apply (H 0 (S i)); auto. Qed.

Lemma verify_selections_spec correct cs sens sels : forall vs vals vs' sels',
  verify_selections correct cs sens (vs, vals) sels = Some (vs', sels') -> disjoint_selections sels -> (forall s, In s sels -> NoDup (sl_vars s)) ->
  same vs vs' /\ (forall w, (forall s, In s sels -> ~ In w (sl_vars s)) -> vs' w = vs w) /\
  (forall s, In s sels -> exists v, chosen vs' (sl_vars s) v) /\ Forall2 (carried correct vs') sels sels' /\
  (correct = false -> forall v, va_value (vs' v) = va_value (vs v)).
Proof.
  induction sels as [|s tl IH]; intros vs vals vs' sels' H D N; cbn [verify_selections] in H.
  { injection H as <- <-. cbn [fst]. split; [apply same_refl|]. split; [reflexivity|]. split; [intros s []|]. split; [constructor|reflexivity]. }
  destruct (verify_selection correct cs sens (vs, vals) s) as [[[vs1 vals1] s1]|] eqn:E1; [|discriminate].
  destruct (verify_selections correct cs sens (vs1, vals1) tl) as [[vs2 tl2]|] eqn:E2; [|discriminate]. injection H as <- <-.
  apply verify_selection_spec in E1 as (S1 & O1 & C1 & V1 & K1 & R1 & T1 & F1); [|apply N; now left].
  apply IH in E2 as (S2 & O2 & C2 & V2 & F2); [|eapply disjoint_tail; eauto|intros t T; apply N; now right].
  assert (Kept : forall w, In w (sl_vars s) -> vs2 w = vs1 w) by (intros w W; apply O2; intros t T; eapply disjoint_head; eauto).
  assert (Ch : forall v, chosen vs1 (sl_vars s) v -> chosen vs2 (sl_vars s) v) by (intros v; apply chosen_ext; intros w W; now rewrite Kept).
  split; [eapply same_trans; eauto|]. split.
  { intros w W. rewrite O2 by (intros t T; apply W; now right). apply O1, W. now left. }
  split.
  { intros t [<-|T]; [|auto]. destruct C1 as [v C1]. exists v. auto. }
  split.
  { constructor; [|exact V2]. split; [exact V1|]. split; [exact K1|]. split; [exact R1|]. split.
    - destruct T1 as [T1|(v & T1 & T2 & T3)]; [now left|]. right. exists v. split; [exact T1|]. rewrite V1. split; [auto|]. rewrite Kept by apply T2. exact T3.
    - intros C v Cv Fv. destruct (F1 C) as (_ & Ev & G). apply G.
      + apply (chosen_ext vs2); [|exact Cv]. intros w W. rewrite Kept by exact W. now rewrite Ev.
      + rewrite <- Fv. destruct (same_trans _ _ _ S1 S2 v) as (_ & _ & E & _). congruence. }
  intros C v. rewrite (F2 C). destruct (F1 C) as (_ & E & _). apply E.
Qed.

Lemma verify_values_spec fine correct l : forall vs vs', verify_values fine correct vs l = Some vs' -> NoDup l ->
  same vs vs' /\ (forall w, ~ In w l -> vs' w = vs w) /\
  (forall w, In w l -> (fine (vs w) = true /\ vs' w = vs w) \/ (fine (vs w) = false /\ correct = true /\ va_fixed (vs w) = false /\ va_value (vs' w) = clamp (vs w))) /\
  (correct = false -> vs' = vs).
Proof.
  induction l as [|v l IH]; intros vs vs' H N; cbn [verify_values] in H.
  { injection H as <-. split; [apply same_refl|]. split; [reflexivity|]. split; [intros w []|reflexivity]. }
  inversion N as [|? ? Nv N']; subst. destruct (fine (vs v)) eqn:F.
  { apply IH in H as (A & B & C & D); [|exact N']. split; [exact A|]. split; [intros w W; apply B; intros X; apply W; now right|]. split; [|exact D].
    intros w [<-|W]; [|auto]. left. split; [exact F|]. now apply B. }
  destruct (va_fixed (vs v)) eqn:Fx; [discriminate|]. destruct correct; [cbn [negb] in H|discriminate].
  apply IH in H as (A & B & C & D); [|exact N']. split; [eapply same_trans; [apply put_same|exact A]|]. split.
  { intros w W. rewrite B by (intros X; apply W; now right). apply put_other. intros ->. apply W. now left. }
  split; [|discriminate]. intros w [<-|W].
  - right. split; [exact F|]. split; [reflexivity|]. split; [exact Fx|]. rewrite B by exact Nv. now apply put_value.
  - assert (w <> v) by (intros ->; contradiction). specialize (C w W). rewrite put_other in C by assumption. exact C.
Qed.
Lemma verify_values_none fine l : forall vs, verify_values fine true vs l = None -> NoDup l ->
  exists v, In v l /\ va_fixed (vs v) = true /\ fine (vs v) = false.
Proof.
  induction l as [|v l IH]; intros vs H N; cbn [verify_values] in H; [discriminate|]. inversion N as [|? ? Nv N']; subst.
  destruct (fine (vs v)) eqn:F.
  { destruct (IH vs H N') as (w & W1 & W2 & W3). exists w. split; [now right|auto]. }
  destruct (va_fixed (vs v)) eqn:Fx; [exists v; split; [now left|auto]|]. cbn [negb] in H. destruct (IH _ H N') as (w & W1 & W2 & W3).
  assert (w <> v) by (intros ->; contradiction). rewrite put_other in W2, W3 by assumption. exists w. split; [now right|auto].
Qed.
Lemma verify_values_fine fine correct l : forall vs, (forall v, In v l -> fine (vs v) = true) -> verify_values fine correct vs l = Some vs.
Proof.
  induction l as [|v l IH]; intros vs H; cbn [verify_values]; [reflexivity|]. rewrite (H v (or_introl eq_refl)). apply IH. intros w W. apply H. now right.
Qed.

Lemma of_sense_in s n vs v : In v (of_sense s n vs) <-> v < n /\ va_sense (vs v) = s.
Proof.
  unfold of_sense. rewrite filter_In, in_seq. split.
  - intros [A B]. split; [lia|]. destruct (va_sense (vs v)), s; try discriminate; reflexivity.
  - intros [A ->]. split; [lia|]. now destruct s.
Qed.
Lemma of_sense_nodup s n vs : NoDup (of_sense s n vs).
Proof. apply NoDup_filter, seq_NoDup. Qed.
Lemma clamp_in v : (va_lower v <= va_upper v)%Z -> (va_lower v <= clamp v <= va_upper v)%Z.
Proof. unfold clamp. intros L. destruct (Z.ltb_spec (va_value v) (va_lower v)); [lia|]. destruct (Z.ltb_spec (va_upper v) (va_value v)); lia. Qed.
Lemma fine_binary_iff v : fine_binary v = true <-> va_value v = 0%Z \/ va_value v = 1%Z.
Proof. unfold fine_binary. rewrite orb_true_iff, !Z.eqb_eq. reflexivity. Qed.
Lemma fine_integer_iff v : fine_integer v = true <-> (va_lower v <= va_value v <= va_upper v)%Z.
Proof. unfold fine_integer. rewrite andb_true_iff, !Z.leb_le. reflexivity. Qed.

Lemma verify_spec correct n cs sens vs sels vs' sels' : selections_ready vs sels -> sane_bounds n vs ->
  verify correct n cs sens vs sels = Some (vs', sels') ->
  same_but_value vs vs' /\ valid_start n vs' sels /\ Forall2 (carried correct vs') sels sels' /\
  (correct = false -> forall v, va_value (vs' v) = va_value (vs v)).
Proof.
  intros [Dj Rd] SB H. unfold verify in H.
  destruct (verify_selections correct cs sens (vs, fun _ => 0%Q) sels) as [[vs1 s1]|] eqn:E1; [|discriminate].
  destruct (verify_values fine_binary correct vs1 (of_sense VBinary n vs)) as [vs2|] eqn:E2; [|discriminate].
  destruct (verify_values fine_integer correct vs2 (of_sense VInteger n vs)) as [vs3|] eqn:E3; [|discriminate]. injection H as <- <-.
  apply verify_selections_spec in E1 as (S1 & O1 & C1 & F1 & K1); [|exact Dj|intros s I; apply (Rd s I)].
  apply verify_values_spec in E2 as (S2 & O2 & C2 & K2); [|apply of_sense_nodup].
  apply verify_values_spec in E3 as (S3 & O3 & C3 & K3); [|apply of_sense_nodup].
  assert (S : same vs vs3) by (eapply same_trans; [exact S1|eapply same_trans; eauto]).
  assert (Sel : forall s v, In s sels -> In v (sl_vars s) -> vs3 v = vs1 v).
  { intros s v I V. destruct (Rd s I) as [_ R]. specialize (R v V). rewrite O3, O2; [reflexivity| |]; rewrite of_sense_in; intros [_ X]; congruence. }
  split; [exact S|]. split; [split|split].
  - intros s I. destruct (C1 s I) as [v C]. exists v. apply (chosen_ext vs1); [|exact C]. intros w W. now rewrite (Sel s w I W).
  - intros v Lv. destruct (SB v Lv) as [B1 B2]. destruct (S v) as (L & U & _ & Sn & _). rewrite Sn, L, U. split; intros Es.
    + assert (Ib : In v (of_sense VBinary n vs)) by now apply of_sense_in. rewrite O3 by (rewrite of_sense_in; intros [_ X]; congruence).
      destruct (C2 v Ib) as [[A ->]|(A & _ & _ & ->)]; [now apply fine_binary_iff|]. specialize (B2 Es).
      destruct (S1 v) as (L1 & U1 & _). pose proof (clamp_in (vs1 v)) as X. rewrite L1, U1 in X. specialize (X B1). lia.
    + assert (Ii : In v (of_sense VInteger n vs)) by now apply of_sense_in.
      destruct (same_trans _ _ _ S1 S2 v) as (L2 & U2 & _).
      destruct (C3 v Ii) as [[A ->]|(A & _ & _ & ->)]; [apply fine_integer_iff in A; lia|]. pose proof (clamp_in (vs2 v)) as X. rewrite L2, U2 in X. exact (X B1).
  - revert F1. assert (G : forall l m, incl l sels -> Forall2 (carried correct vs1) l m -> Forall2 (carried correct vs3) l m).
    { induction l as [|s l IH]; intros m Inc F; inversion F as [|? ? ? ? P F']; subst; constructor.
      - destruct P as (P1 & P2 & P3 & P4 & P5). assert (I : In s sels) by (apply Inc; now left). split; [exact P1|]. split; [exact P2|]. split; [exact P3|]. split.
        + destruct P4 as [P4|(v & Q1 & Q2 & Q3)]; [now left|]. right. exists v. split; [exact Q1|]. rewrite P1 in Q2. split.
          * rewrite P1. apply (chosen_ext vs1); [|exact Q2]. intros w W. now rewrite (Sel s w I W).
          * rewrite (Sel s v I (proj1 Q2)). exact Q3.
        + intros C v Cv Fv. apply P5; [exact C| |].
          * apply (chosen_ext vs3); [|exact Cv]. intros w W. now rewrite (Sel s w I W).
          * rewrite <- (Sel s v I (proj1 Cv)). exact Fv.
      - apply IH; [|exact F']. intros t T. apply Inc. now right. }
    apply G, incl_refl.
  - intros C v. rewrite (K3 C), (K2 C). apply (K1 C).
Qed.

(** * When verification throws *)
Lemma best_none score l : best_candidate score l = None -> l = [] \/ exists v, In v l /\ (INT_MAX <= score v)%Z.
Proof.
  destruct l as [|a l]; [now left|]. intros H. right. exists a. split; [now left|]. destruct (Z.ltb_spec (score a) INT_MAX) as [L|L]; [|exact L]. exfalso.
  unfold best_candidate in H. cbn [fold_left] in H. change (snd (@None nat, INT_MAX)) with INT_MAX in H. rewrite (proj2 (Z.ltb_lt _ _) L) in H.
  revert H. generalize (score a). generalize a at 1. induction l as [|b l IH]; intros c z; cbn [fold_left fst snd]; [discriminate|].
  destruct (score b <? z)%Z; apply IH.
Qed.

Lemma verify_selection_none cs sens vs vals s : verify_selection true cs sens (vs, vals) s = None -> NoDup (sl_vars s) ->
  (exists v, In v (sl_vars s) /\ va_fixed (vs v) = true /\ va_value (vs v) <> 0%Z /\ va_value (vs v) <> 1%Z) \/
  (exists v w, v <> w /\ In v (sl_vars s) /\ In w (sl_vars s) /\ va_fixed (vs v) = true /\ va_fixed (vs w) = true /\ va_value (vs v) = 1%Z /\ va_value (vs w) = 1%Z) \/
  (forall v, In v (sl_vars s) -> va_fixed (vs v) = true /\ va_value (vs v) <> 1%Z) \/
  (exists v, In v (sl_vars s) /\ (INT_MAX <= candidate_violation cs sens vals v)%Z).
Proof.
  intros H ND. unfold verify_selection in H. cbv zeta in H.
  set (selected := filter (fun v => Z.eqb (va_value (vs v)) 1) (sl_vars s)) in *.
  set (invalid := filter (fun v => negb (Z.eqb (va_value (vs v)) 0) && negb (Z.eqb (va_value (vs v)) 1)) (sl_vars s)) in *.
  assert (Hs : forall v, In v selected <-> In v (sl_vars s) /\ va_value (vs v) = 1%Z) by (intros v; unfold selected; rewrite filter_In, Z.eqb_eq; reflexivity).
  destruct (filter (fun v => va_fixed (vs v)) invalid) as [|u r] eqn:E1; cbn [length Nat.ltb Nat.leb] in H.
  2:{ left. exists u. assert (I : In u (filter (fun v => va_fixed (vs v)) invalid)) by (rewrite E1; now left). apply filter_In in I as [I F].
      unfold invalid in I. apply filter_In in I as [I B]. apply andb_true_iff in B as [B1 B2]. rewrite !negb_true_iff, !Z.eqb_neq in *. auto. }
  assert (NDf : NoDup (filter (fun v => va_fixed (vs v)) selected)) by (apply NoDup_filter, NoDup_filter, ND).
  assert (Hf : forall v, In v (filter (fun v => va_fixed (vs v)) selected) -> In v (sl_vars s) /\ va_value (vs v) = 1%Z /\ va_fixed (vs v) = true).
  { intros v I. apply filter_In in I as [I F]. apply Hs in I. tauto. }
  destruct (filter (fun v => va_fixed (vs v)) selected) as [|u [|w r]] eqn:E2; cbn [length Nat.ltb Nat.leb andb negb] in H.
  - rewrite andb_false_r in H. destruct selected as [|u [|w r]] eqn:E3; [|discriminate|].
    + destruct (best_candidate _ _) as [v|] eqn:B; [discriminate|]. apply best_none in B as [B|(v & B1 & B2)].
      * right. right. left. intros v I. split.
        -- destruct (va_fixed (vs v)) eqn:F; [reflexivity|]. exfalso.
           assert (X : In v (filter (fun v => negb (va_fixed (put_all vs invalid 0 v))) (sl_vars s))).
           { apply filter_In. split; [exact I|]. destruct (put_all_same invalid 0%Z vs v) as (_ & _ & G & _). rewrite G, F. reflexivity. }
           rewrite B in X. destruct X.
        -- intros E. exact (proj2 (Hs v) (conj I E)).
      * right. right. right. exists v. apply filter_In in B1 as [B1 _]. auto.
    + destruct (best_candidate _ _) as [v|] eqn:B; [discriminate|]. apply best_none in B as [B|(v & B1 & B2)]; [discriminate|].
      right. right. right. exists v. apply Hs in B1 as [B1 _]. auto.
  - rewrite andb_false_r in H. discriminate.
  - right. left. exists u, w. destruct (Hf u (or_introl eq_refl)) as (A1 & A2 & A3), (Hf w (or_intror (or_introl eq_refl))) as (B1 & B2 & B3).
    split; [|auto 8]. intros ->. inversion NDf as [|? ? X _]; subst. apply X. now left.
Qed.
Lemma verify_selections_none cs sens sels : forall vs vals, verify_selections true cs sens (vs, vals) sels = None -> disjoint_selections sels ->
  (forall s, In s sels -> NoDup (sl_vars s)) -> (forall n, hopeless n vs sels) \/ overflowing cs sens sels.
Proof.
  induction sels as [|s tl IH]; intros vs vals H D N; cbn [verify_selections] in H; [discriminate|].
  destruct (verify_selection true cs sens (vs, vals) s) as [[[vs1 vals1] s1]|] eqn:E1.
  - destruct (verify_selections true cs sens (vs1, vals1) tl) as [[vs2 tl2]|] eqn:E2; [discriminate|].
    apply verify_selection_spec in E1 as (S1 & O1 & _); [|apply N; now left].
    destruct (IH vs1 vals1 E2 (disjoint_tail _ _ D) (fun t T => N t (or_intror T))) as [Ho|Ov].
    + left. intros n. destruct (Ho 0) as [(t & T & X)|(v & L & _)]; [|lia]. left. exists t. split; [now right|].
      assert (K : forall v, In v (sl_vars t) -> vs1 v = vs v) by (intros v V; apply O1; intros X'; exact (disjoint_head _ _ _ _ D T X' V)).
      destruct X as [(v & V & X)|[(v & w & Dv & V & W & X)|X]].
      * left. exists v. rewrite K in X by exact V. auto.
      * right. left. exists v, w. rewrite (K v V), (K w W) in X. auto.
      * right. right. intros v V. specialize (X v V). rewrite K in X by exact V. exact X.
    + right. destruct Ov as (t & v & w & T & R). exists t, v, w. split; [now right|exact R].
  - apply verify_selection_none in E1; [|apply N; now left]. destruct E1 as [X|[X|[X|(v & V & X)]]].
    + left. intros n. left. exists s. split; [now left|auto].
    + left. intros n. left. exists s. split; [now left|auto].
    + left. intros n. left. exists s. split; [now left|auto].
    + right. exists s, v, vals. split; [now left|auto].
Qed.
Lemma verify_none n cs sens vs sels : selections_ready vs sels -> verify true n cs sens vs sels = None -> hopeless n vs sels \/ overflowing cs sens sels.
Proof.
  intros [Dj Rd] H. unfold verify in H.
  destruct (verify_selections true cs sens (vs, fun _ => 0%Q) sels) as [[vs1 s1]|] eqn:E1.
  2:{ apply verify_selections_none in E1; [|exact Dj|intros s I; apply (Rd s I)]. destruct E1 as [E1|E1]; auto. }
  apply verify_selections_spec in E1 as (S1 & O1 & _); [|exact Dj|intros s I; apply (Rd s I)].
  assert (K : forall s v, s <> VSelection -> In v (of_sense s n vs) -> vs1 v = vs v).
  { intros s v Ds I. apply of_sense_in in I as [_ I]. apply O1. intros t T V. destruct (Rd t T) as [_ R]. specialize (R v V). congruence. }
  destruct (verify_values fine_binary true vs1 (of_sense VBinary n vs)) as [vs2|] eqn:E2.
  - apply verify_values_spec in E2 as (S2 & O2 & _); [|apply of_sense_nodup].
    destruct (verify_values fine_integer true vs2 (of_sense VInteger n vs)) as [vs3|] eqn:E3; [discriminate|].
    apply verify_values_none in E3 as (v & I & Fx & F); [|apply of_sense_nodup].
    assert (Ev : vs2 v = vs v). { rewrite O2; [apply (K VInteger); [discriminate|exact I]|]. apply of_sense_in in I as [_ I]. rewrite of_sense_in. intros [_ X]. congruence. }
    rewrite Ev in *. apply of_sense_in in I as [L I]. left. right. exists v. split; [exact L|]. split; [exact Fx|]. right. split; [exact I|].
    intros X. apply fine_integer_iff in X. congruence.
  - apply verify_values_none in E2 as (v & I & Fx & F); [|apply of_sense_nodup]. rewrite (K VBinary) in * by (discriminate || exact I).
    apply of_sense_in in I as [L I]. left. right. exists v. split; [exact L|]. split; [exact Fx|]. left. split; [exact I|].
    split; intros X; assert (fine_binary (vs v) = true) by (apply fine_binary_iff; auto); congruence.
Qed.
Lemma hopeless_none correct n cs sens vs sels : selections_ready vs sels -> sane_bounds n vs -> hopeless n vs sels -> verify correct n cs sens vs sels = None.
Proof.
  intros R B Ho. destruct (verify correct n cs sens vs sels) as [[vs' sels']|] eqn:E; [exfalso|reflexivity].
  apply verify_spec in E as (S & [V1 V2] & _); [|exact R|exact B].
  assert (Fix : forall v, va_fixed (vs v) = true -> va_value (vs' v) = va_value (vs v)) by (intros v; apply (S v)).
  destruct Ho as [(s & I & X)|(v & L & Fx & X)].
  - destruct (V1 s I) as (u & U1 & U2 & U3). destruct X as [(v & Iv & Fx & N0 & N1)|[(v & w & D & Iv & Iw & Fv & Fw & E1 & E2)|X]].
    + rewrite <- (Fix v Fx) in N0, N1. destruct (Nat.eq_dec v u) as [->|Dv]; [contradiction|]. apply N0. now apply U3.
    + rewrite <- (Fix v Fv) in E1. rewrite <- (Fix w Fw) in E2.
      assert (G : forall z, In z (sl_vars s) -> va_value (vs' z) = 1%Z -> z = u).
      { intros z Iz Ez. destruct (Nat.eq_dec z u) as [|Dz]; [assumption|]. rewrite (U3 z Iz Dz) in Ez. discriminate. }
      apply D. rewrite (G v Iv E1), (G w Iw E2). reflexivity.
    + destruct (X u U1) as [Fu Nu]. rewrite <- (Fix u Fu) in Nu. contradiction.
  - destruct (V2 v L) as [P1 P2]. destruct (S v) as (L1 & L2 & _ & L4 & _). destruct X as [(Sv & N0 & N1)|(Sv & N)].
    + rewrite L4 in P1. specialize (P1 Sv). rewrite (Fix v Fx) in P1. tauto.
    + rewrite L4, L1, L2 in P2. specialize (P2 Sv). rewrite (Fix v Fx) in P2. contradiction.
Qed.

(** A valid start is accepted as it is. *)
Lemma verify_selection_valid correct cs sens vs vals s v : NoDup (sl_vars s) -> chosen vs (sl_vars s) v ->
  exists vs' vals' s', verify_selection correct cs sens (vs, vals) s = Some (vs', vals', s') /\ forall w, va_value (vs' w) = va_value (vs w).
Proof.
  intros ND (Iv & Ev & Ow). unfold verify_selection. cbv zeta.
  assert (Es : filter (fun v => Z.eqb (va_value (vs v)) 1) (sl_vars s) = [v]).
  { clear -ND Iv Ev Ow. induction (sl_vars s) as [|a l IH]; [destruct Iv|]. inversion ND as [|? ? Na ND']; subst. cbn [filter].
    destruct (Nat.eq_dec a v) as [->|D].
    - rewrite (proj2 (Z.eqb_eq _ _) Ev). f_equal. clear IH Iv ND. assert (Ow' : forall w, In w l -> va_value (vs w) = 0%Z).
      { intros w W. apply Ow; [now right|]. intros ->. contradiction. }
      clear Ow Na. induction l as [|b l IH]; [reflexivity|]. cbn [filter]. rewrite (Ow' b (or_introl eq_refl)). cbn. inversion ND'; subst.
      apply IH; auto. intros w W. apply Ow'. now right.
    - rewrite (Ow a (or_introl eq_refl) D). cbn [Z.eqb]. apply IH; auto; [destruct Iv; [contradiction|assumption]|]. intros w W. apply Ow. now right. }
  assert (Ei : filter (fun v => negb (Z.eqb (va_value (vs v)) 0) && negb (Z.eqb (va_value (vs v)) 1)) (sl_vars s) = []).
  { clear -Ev Ow. assert (H : forall w, In w (sl_vars s) -> va_value (vs w) = 0%Z \/ va_value (vs w) = 1%Z).
    { intros w W. destruct (Nat.eq_dec w v) as [->|D]; [now right|left; auto]. }
    clear Ow. induction (sl_vars s) as [|a l IH]; [reflexivity|]. cbn [filter]. rewrite IH by (intros w W; apply H; now right).
    destruct (H a (or_introl eq_refl)) as [->| ->]; reflexivity. }
  rewrite Es, Ei. cbn [filter]. destruct (va_fixed (vs v)) eqn:Fx; cbn [filter length Nat.ltb Nat.leb andb put_all fold_left].
  - rewrite andb_false_r. eexists _, _, _. split; [reflexivity|]. intros w. rewrite Nat.eqb_refl. cbn [negb fold_left]. destruct (put_same vs v 1%Z v) as (_ & _ & _ & _ & E).
    destruct (Nat.eq_dec w v) as [->|D]; [now apply E|]. now rewrite put_other.
  - eexists _, _, _. split; [reflexivity|]. reflexivity.
Qed.
Lemma verify_valid correct n cs sens vs sels : selections_ready vs sels -> valid_start n vs sels ->
  exists vs' sels', verify correct n cs sens vs sels = Some (vs', sels') /\ forall v, va_value (vs' v) = va_value (vs v).
Proof.
  intros [Dj Rd] [V1 V2].
  assert (G : forall l vals vs, disjoint_selections l -> (forall s, In s l -> NoDup (sl_vars s)) -> (forall s, In s l -> exists v, chosen vs (sl_vars s) v) ->
    exists vs' l', verify_selections correct cs sens (vs, vals) l = Some (vs', l') /\ (forall v, va_value (vs' v) = va_value (vs v))).
  { clear. induction l as [|s l IH]; intros vals vs D N C; cbn [verify_selections fst]; [eauto|].
    destruct (C s (or_introl eq_refl)) as [v Cv]. destruct (verify_selection_valid correct cs sens vs vals s v (N s (or_introl eq_refl)) Cv) as (vs1 & vals1 & s1 & E & Eq).
    rewrite E.
    destruct (IH vals1 vs1 (disjoint_tail _ _ D) (fun t T => N t (or_intror T))) as (vs2 & l2 & E2 & K).
    - intros t T. destruct (C t (or_intror T)) as [w Cw]. exists w. apply (chosen_ext vs); [|exact Cw]. intros z _. apply Eq.
    - rewrite E2. exists vs2, (s1 :: l2). split; [reflexivity|]. intros w. now rewrite K, Eq. }
  destruct (G sels (fun _ => 0%Q) vs Dj (fun s I => proj1 (Rd s I)) V1) as (vs1 & l1 & E1 & K1). unfold verify. rewrite E1.
  assert (S1 : same vs vs1) by (apply (verify_selections_spec _ _ _ _ _ _ _ _ E1 Dj (fun s I => proj1 (Rd s I)))).
  rewrite verify_values_fine.
  - rewrite verify_values_fine; [eauto|]. intros v I. apply of_sense_in in I as [L I]. apply fine_integer_iff. destruct (S1 v) as (B1 & B2 & _). rewrite B1, B2, K1. now apply V2.
  - intros v I. apply of_sense_in in I as [L I]. apply fine_binary_iff. rewrite K1. now apply V2.
Qed.

(** * Selection moves *)
Lemma nth_set_selected sels k v i : nth_error (set_selected sels k v) i =
  option_map (fun s => if Nat.eqb i k then mkSel (sl_vars s) (sl_con s) (sl_related s) (Some v) else s) (nth_error sels i).
Proof.
  unfold set_selected. assert (G : forall l a i, nth_error (map (fun p => if Nat.eqb (fst p) k then mkSel (sl_vars (snd p)) (sl_con (snd p)) (sl_related (snd p)) (Some v) else snd p)
      (combine (seq a (length l)) l)) i = option_map (fun s => if Nat.eqb (a + i) k then mkSel (sl_vars s) (sl_con s) (sl_related s) (Some v) else s) (nth_error l i)).
  { induction l as [|s l IH]; intros a [|j]; cbn [length seq combine map nth_error option_map fst snd]; try reflexivity.
    - now rewrite Nat.add_0_r.
    - rewrite IH. now rewrite Nat.add_succ_r. }
  rewrite (G sels 0 i). reflexivity.
Qed.
Lemma nth_error_same {A} (l : list A) : forall m, (forall i, nth_error l i = nth_error m i) -> l = m.
Proof.
  induction l as [|a l IH]; intros [|b m] H; [reflexivity|discriminate (H 0)|discriminate (H 0)|]. f_equal.
  - specialize (H 0). now injection H.
  - apply IH. intros i. exact (H (S i)).
Qed.
Lemma move_step vs sels k v vs' sels' : disjoint_selections sels -> (forall s, In s sels -> tracked vs s) ->
  (exists s, nth_error sels k = Some s /\ In v (sl_vars s)) -> va_fixed (vs v) = false ->
  apply_selection_move vs sels k v = Some (vs', sels') ->
  map sl_vars sels' = map sl_vars sels /\ (forall s, In s sels' -> tracked vs' s) /\
  (exists s', nth_error sels' k = Some s' /\ sl_selected s' = Some v /\ chosen vs' (sl_vars s') v) /\
  same_but_value vs vs' /\ (forall w s, nth_error sels k = Some s -> ~ In w (sl_vars s) -> vs' w = vs w).
Proof.
  intros Dj Tr (s & Es & Iv) Fv H. unfold apply_selection_move in H. rewrite Es in H. unfold selection_alterations in H.
  destruct (Tr s (nth_error_In _ _ Es)) as (u & Eu & (Iu & Vu & Ou) & Fu). rewrite Eu in H. injection H as <- <-. cbn [fold_left fst snd].
  set (vs' := put (put vs u 0) v 1).
  assert (S : same vs vs') by (eapply same_trans; apply put_same).
  assert (O : forall w, ~ In w (sl_vars s) -> vs' w = vs w).
  { intros w W. unfold vs'. rewrite !put_other; [reflexivity| |]; intros ->; contradiction. }
  assert (C : chosen vs' (sl_vars s) v).
  { split; [exact Iv|]. split.
    - apply put_value. destruct (put_same vs u 0%Z v) as (_ & _ & E & _). congruence.
    - intros w Iw D. unfold vs'. rewrite put_other by exact D. destruct (Nat.eq_dec w u) as [->|Du]; [now apply put_value|]. rewrite put_other by exact Du. auto. }
  assert (Fv' : va_fixed (vs' v) = false) by (destruct (S v) as (_ & _ & E & _); congruence).
  split; [|split; [|split; [|split; [exact S|]]]].
  - apply nth_error_same. intros i. rewrite !nth_error_map, nth_set_selected. destruct (nth_error sels i) as [t|]; [|reflexivity]. cbn [option_map]. now destruct (i =? k).
  - intros t I. apply In_nth_error in I as [i E]. rewrite nth_set_selected in E. destruct (nth_error sels i) as [t0|] eqn:E0; [|discriminate]. cbn [option_map] in E.
    destruct (Nat.eq_dec i k) as [->|D].
    + rewrite Nat.eqb_refl in E. injection E as <-. rewrite Es in E0. injection E0 as <-. exists v. cbn [sl_selected sl_vars]. auto.
    + rewrite (proj2 (Nat.eqb_neq i k) D) in E. injection E as <-. destruct (Tr t0 (nth_error_In _ _ E0)) as (z & Z1 & Z2 & Z3).
      assert (K : forall w, In w (sl_vars t0) -> vs' w = vs w) by (intros w W; apply O; exact (Dj i k t0 s D E0 Es w W)).
      exists z. split; [exact Z1|]. split; [apply (chosen_ext vs); [|exact Z2]; intros w W; now rewrite K|]. rewrite K by apply Z2. exact Z3.
  - exists (mkSel (sl_vars s) (sl_con s) (sl_related s) (Some v)). rewrite nth_set_selected, Es. cbn [option_map]. rewrite Nat.eqb_refl. auto.
  - intros w s0 E W. rewrite Es in E. injection E as <-. auto.
Qed.

Lemma move_defined vs sels k v : (forall s, In s sels -> tracked vs s) -> (exists s, nth_error sels k = Some s) ->
  exists r, apply_selection_move vs sels k v = Some r.
Proof.
  intros Tr (s & Es). unfold apply_selection_move. rewrite Es. unfold selection_alterations. destruct (Tr s (nth_error_In _ _ Es)) as (u & -> & _). eauto.
Qed.
Lemma disjoint_vars sels sels' : map sl_vars sels' = map sl_vars sels -> disjoint_selections sels -> disjoint_selections sels'.
Proof.
  intros E H i j s t D Es Et. assert (G : forall i s, nth_error sels' i = Some s -> exists s0, nth_error sels i = Some s0 /\ sl_vars s0 = sl_vars s).
  { intros a b Ea. apply (map_nth_error sl_vars) in Ea. rewrite E, nth_error_map in Ea. destruct (nth_error sels a) as [b0|]; [|discriminate]. injection Ea as Ea. eauto. }
  destruct (G i s Es) as (s0 & E1 & <-), (G j t Et) as (t0 & E2 & <-). exact (H i j s0 t0 D E1 E2).
Qed.
Lemma moves_history ms : forall vs sels, disjoint_selections sels -> (forall s, In s sels -> tracked vs s) ->
  (forall k v, In (k, v) ms -> (exists s, nth_error sels k = Some s /\ In v (sl_vars s)) /\ va_fixed (vs v) = false) ->
  exists vs' sels', run_moves vs sels ms = Some (vs', sels') /\ map sl_vars sels' = map sl_vars sels /\ same_but_value vs vs' /\
    (forall s, In s sels' -> tracked vs' s) /\
    (forall w, (forall s, In s sels -> ~ In w (sl_vars s)) -> vs' w = vs w) /\
    (forall pre k v post, ms = pre ++ (k, v) :: post -> (forall w, ~ In (k, w) post) ->
       exists s', nth_error sels' k = Some s' /\ sl_selected s' = Some v /\ chosen vs' (sl_vars s') v) /\
    (forall k, (forall w, ~ In (k, w) ms) -> nth_error sels' k = nth_error sels k).
Proof.
  induction ms as [|[k v] ms IH]; intros vs sels Dj Tr Ok.
  { exists vs, sels. split; [reflexivity|]. split; [reflexivity|]. split; [apply same_refl|]. split; [exact Tr|]. split; [reflexivity|]. split; [|reflexivity].
    intros pre k v post E. destruct pre; discriminate. }
  destruct (Ok k v (or_introl eq_refl)) as [(s & Es & Iv) Fv].
  destruct (move_defined vs sels k v Tr (ex_intro _ s Es)) as [[vs1 sels1] E1]. cbn [run_moves]. rewrite E1.
  destruct (move_step vs sels k v vs1 sels1 Dj Tr (ex_intro _ s (conj Es Iv)) Fv E1) as (M1 & T1 & (s1 & N1 & L1 & C1) & S1 & O1).
  assert (Oth : forall i, i <> k -> nth_error sels1 i = nth_error sels i).
  { intros i D. unfold apply_selection_move in E1. rewrite Es in E1. destruct (selection_alterations s v); [|discriminate]. injection E1 as _ <-.
    rewrite nth_set_selected, (proj2 (Nat.eqb_neq i k) D). now destruct (nth_error sels i). }
  assert (Ok1 : forall j w, In (j, w) ms -> (exists t, nth_error sels1 j = Some t /\ In w (sl_vars t)) /\ va_fixed (vs1 w) = false).
  { intros j w I. destruct (Ok j w (or_intror I)) as [(t & Et & It) Fw]. split; [|destruct (S1 w) as (_ & _ & E & _); congruence].
    assert (X : nth_error (map sl_vars sels1) j = Some (sl_vars t)) by (rewrite M1; now apply map_nth_error).
    rewrite nth_error_map in X. destruct (nth_error sels1 j) as [t1|]; [|discriminate]. injection X as X. exists t1. split; [reflexivity|]. now rewrite X. }
  destruct (IH vs1 sels1 (disjoint_vars _ _ M1 Dj) T1 Ok1) as (vs2 & sels2 & E2 & M2 & S2 & T2 & O2 & L2 & K2).
  exists vs2, sels2. split; [exact E2|]. split; [congruence|]. split; [eapply same_trans; eauto|]. split; [exact T2|]. split; [|split].
  - intros w W. rewrite O2; [apply (O1 w s Es), W; exact (nth_error_In _ _ Es)|].
    intros t T V. apply In_nth_error in T as [i Ei]. apply (map_nth_error sl_vars) in Ei. rewrite M1, nth_error_map in Ei. destruct (nth_error sels i) as [t0|] eqn:Et; [|discriminate].
    injection Ei as Ei. apply (W t0 (nth_error_In _ _ Et)). now rewrite Ei.
  - intros pre j w post E Last. destruct pre as [|p pre]; cbn [app] in E.
    + injection E as -> -> ->. destruct (T2 s1) as (z & Z1 & Z2 & _).
      * rewrite <- (K2 j Last) in N1. exact (nth_error_In _ _ N1).
      * exists s1. rewrite (K2 j Last). split; [exact N1|]. split; [exact L1|]. assert (z = w) by congruence. subst z. exact Z2.
    + injection E as _ E3. exact (L2 pre j w post E3 Last).
  - intros j N. rewrite K2 by (intros w I; apply (N w); now right). apply Oth. intros ->. apply (N v). now left.
Qed.

(** * Import of a solution, and two verifications in a row *)
Lemma write_spec (x : nat -> Z) l : forall vs, NoDup l -> let vs' := fold_left (fun vs v => put vs v (x v)) l vs in
  same vs vs' /\ (forall v, In v l -> va_fixed (vs v) = false -> va_value (vs' v) = x v) /\ (forall v, ~ In v l -> vs' v = vs v).
Proof.
  induction l as [|a l IH]; intros vs N; cbn [fold_left]; [split; [apply same_refl|]; split; [intros v []|reflexivity]|]. inversion N as [|? ? Na N']; subst.
  destruct (IH (put vs a (x a)) N') as (A & B & C). split; [eapply same_trans; [apply put_same|exact A]|]. split.
  - intros v [->|I] F; [rewrite C by exact Na; now apply put_value|]. apply B; [exact I|]. destruct (put_same vs a (x a) v) as (_ & _ & E & _). congruence.
  - intros v I. rewrite C by (intros X; apply I; now right). apply put_other. intros ->. apply I. now left.
Qed.
Lemma ready_same vs vs' sels : same vs vs' -> selections_ready vs sels -> selections_ready vs' sels.
Proof. intros S [D R]. split; [exact D|]. intros s I. destruct (R s I) as [N Q]. split; [exact N|]. intros v V. destruct (S v) as (_ & _ & _ & E & _). rewrite E. auto. Qed.
Lemma sane_same n vs vs' : same vs vs' -> sane_bounds n vs -> sane_bounds n vs'.
Proof. intros S B v L. destruct (S v) as (E1 & E2 & _ & E4 & _). rewrite E1, E2, E4. now apply B. Qed.
Lemma import_spec n cs sens x vs sels vs' sels' : selections_ready vs sels -> sane_bounds n vs ->
  import_dense n cs sens x vs sels = Some (vs', sels') ->
  same_but_value vs vs' /\ valid_start n vs' sels /\ Forall2 (carried false vs') sels sels' /\
  forall v, (v < n)%nat -> va_fixed (vs v) = false -> va_value (vs' v) = x v.
Proof.
  intros R B H. unfold import_dense in H. destruct (write_spec x (seq 0 n) vs (seq_NoDup _ _)) as (S & W & _). cbv zeta in S, W. set (vs1 := fold_left _ _ vs) in *.
  apply verify_spec in H as (S2 & V & F & K); [|eapply ready_same; eauto|eapply sane_same; eauto].
  split; [eapply same_trans; eauto|]. split; [exact V|]. split; [exact F|]. intros v L Fv. rewrite (K eq_refl). apply W; [apply in_seq; lia|exact Fv].
Qed.

Lemma ready_carried correct vs0 vs' sels sels' : Forall2 (carried correct vs0) sels sels' -> selections_ready vs' sels -> selections_ready vs' sels'.
Proof.
  intros F [D R]. assert (E : map sl_vars sels' = map sl_vars sels).
  { clear -F. induction F as [|s s' l l' P F IH]; cbn [map]; [reflexivity|]. f_equal; [apply P|exact IH]. }
  split; [eapply disjoint_vars; eauto|]. intros s I. apply (in_map sl_vars) in I. rewrite E in I. apply in_map_iff in I as (t & Et & I). rewrite <- Et. exact (R t I).
Qed.
Lemma carried_valid correct n vs0 vs' sels sels' : Forall2 (carried correct vs0) sels sels' -> valid_start n vs' sels -> valid_start n vs' sels'.
Proof.
  intros F [D R]. split; [|exact R]. assert (E : map sl_vars sels' = map sl_vars sels).
  { clear -F. induction F as [|s s' l l' P F IH]; cbn [map]; [reflexivity|]. f_equal; [apply P|exact IH]. }
  intros s I. apply (in_map sl_vars) in I. rewrite E in I. apply in_map_iff in I as (t & Et & I). rewrite <- Et. exact (D t I).
Qed.
Lemma twice_tracked correct n cs sens vs sels vs1 sels1 : selections_ready vs sels -> sane_bounds n vs ->
  verify correct n cs sens vs sels = Some (vs1, sels1) ->
  exists vs2 sels2, import_dense n cs sens (fun v => va_value (vs1 v)) vs1 sels1 = Some (vs2, sels2) /\
    (forall v, va_value (vs2 v) = va_value (vs1 v)) /\ map sl_vars sels2 = map sl_vars sels /\
    forall s, In s sels2 -> (forall v, In v (sl_vars s) -> va_fixed (vs v) = true -> va_value (vs v) <> 1%Z) -> tracked vs2 s.
Proof.
  intros R B H. apply verify_spec in H as (S1 & V1 & F1 & _); [|exact R|exact B].
  unfold import_dense. destruct (write_spec (fun v => va_value (vs1 v)) (seq 0 n) vs1 (seq_NoDup _ _)) as (S & W & O). cbv zeta in *. set (vs1' := fold_left _ _ vs1) in *.
  assert (K : forall v, va_value (vs1' v) = va_value (vs1 v)).
  { intros v. destruct (in_dec Nat.eq_dec v (seq 0 n)) as [I|I]; [|now rewrite O]. destruct (va_fixed (vs1 v)) eqn:F; [apply (S v); exact F|now apply W]. }
  assert (R1 : selections_ready vs1' sels1) by (eapply ready_carried; [exact F1|eapply ready_same; [exact S|eapply ready_same; eauto]]).
  assert (V1' : valid_start n vs1' sels1).
  { eapply carried_valid; [exact F1|]. destruct V1 as [A C]. split.
    - intros s I. destruct (A s I) as [v Q]. exists v. eapply chosen_ext; [|exact Q]. intros; apply K.
    - intros v L. destruct (S v) as (E1 & E2 & _ & E4 & _). rewrite E1, E2, E4, K. now apply C. }
  destruct (verify_valid false n cs sens vs1' sels1 R1 V1') as (vs2 & sels2 & E & K2). exists vs2, sels2. split; [exact E|].
  assert (B1 : sane_bounds n vs1') by (eapply sane_same; [exact S|eapply sane_same; eauto]).
  destruct (verify_spec false n cs sens vs1' sels1 vs2 sels2 R1 B1 E) as (S2 & V2 & F2 & _).
  assert (Em : map sl_vars sels2 = map sl_vars sels).
  { transitivity (map sl_vars sels1); [clear -F2; induction F2 as [|s s' l l' P F IH]|clear -F1; induction F1 as [|s s' l l' P F IH]]; cbn [map]; try reflexivity; (f_equal; [apply P|exact IH]). }
  split; [intros v; now rewrite K2, K|]. split; [exact Em|]. intros s I Hf.
  assert (G : exists s0, In s0 sels1 /\ carried false vs2 s0 s).
  { clear -F2 I. induction F2 as [|a b l l' P F IH]; [destruct I|]. destruct I as [<-|I]; [exists a; split; [now left|exact P]|]. destruct (IH I) as (s0 & A & C). exists s0. split; [now right|exact C]. }
  destruct G as (s0 & I0 & (P1 & _ & _ & _ & P5)). destruct V2 as [V2 _]. destruct (V2 s0 I0) as [v C].
  assert (Sall : same vs vs2) by (eapply same_trans; [exact S1|eapply same_trans; [exact S|exact S2]]).
  assert (Fv : va_fixed (vs2 v) = false).
  { destruct (va_fixed (vs2 v)) eqn:Fv; [|reflexivity]. exfalso. destruct (Sall v) as (_ & _ & E3 & _ & E5). rewrite Fv in E3. symmetry in E3.
    apply (Hf v); [rewrite P1; apply C|exact E3|]. rewrite <- (E5 E3). apply C. }
  exists v. split; [now apply P5|]. rewrite P1. split; [exact C|exact Fv].
Qed.
Lemma flag_tracked vs s v : tracked vs s -> In v (sl_vars s) ->
  exists u, chosen vs (sl_vars s) u /\ (selection_flag s v = true <-> v <> u) /\ selection_alterations s v = Some [(u, 0%Z); (v, 1%Z)].
Proof.
  intros (u & E & C & _) _. exists u. split; [exact C|]. unfold selection_flag, selection_alterations. rewrite E. split; [|reflexivity].
  rewrite negb_true_iff, Nat.eqb_neq. split; congruence.
Qed.
