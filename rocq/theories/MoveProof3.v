(** Proofs for C38 and C50. *)
From Coq Require Import List ZArith NArith QArith Bool Lia Arith.
From Verif Require Import ExprModel ExprSpec VariableModel PresolveModel ConstraintModel MoveModel MoveSpec MoveProof.
Import ListNotations.
Local Open Scope Z_scope.

(** * C38 *)
Definition pick {M} (ms : list M) (fl : list Z) : list M := map fst (filter (fun p => negb (snd p =? 0)) (combine ms fl)).

Lemma array_write_at {M} (done : list M) (rest : list (option M)) p : rest <> [] ->
  array_write (map Some done ++ rest) (length done) p = Some (map Some (done ++ [p]) ++ skipn 1 rest).
Proof.
  intros N. destruct rest as [|r rest]; [contradiction|]. unfold array_write. rewrite app_length, map_length. cbn [length].
  destruct (Nat.ltb_spec (length done) (length done + S (length rest))); [|lia]. f_equal.
  rewrite <- (map_length Some done) at 1. rewrite firstn_app, Nat.sub_diag, firstn_all. cbn [firstn]. rewrite app_nil_r.
  replace (S (length done)) with (length (map (@Some M) done) + 1)%nat by (rewrite map_length; lia).
  rewrite map_app, <- app_assoc. cbn [map app]. f_equal. f_equal.
  rewrite skipn_app. rewrite skipn_all2 by lia. replace (length (map Some done) + 1 - length (map Some done))%nat with 1%nat by lia. reflexivity.
Qed.
Lemma skipn_1 {A} n (l : list A) : skipn n (skipn 1 l) = skipn (S n) l.
Proof. destruct l; cbn [skipn]; [apply skipn_nil|reflexivity]. Qed.

Lemma fill_inner {M} (ms : list M) : forall pre fl done rest, length fl = length ms ->
  (length (pick ms fl) <= length rest)%nat ->
  fold_left (fill_one (pre ++ fl)) (combine (seq (length pre) (length ms)) ms) (Some (map Some done ++ rest, length done)) =
  Some (map Some (done ++ pick ms fl) ++ skipn (length (pick ms fl)) rest, (length done + length (pick ms fl))%nat).
Proof.
  induction ms as [|m ms IH]; intros pre fl done rest L R.
  - destruct fl; [|discriminate]. cbn. now rewrite app_nil_r, Nat.add_0_r.
  - destruct fl as [|f fl]; [discriminate|]. cbn [length seq combine fold_left].
    unfold fill_one at 2. cbn [fst snd]. rewrite nth_error_app2 by lia. rewrite Nat.sub_diag. cbn [nth_error].
    assert (EP : pre ++ f :: fl = (pre ++ [f]) ++ fl) by now rewrite <- app_assoc.
    assert (ES : S (length pre) = length (pre ++ [f])) by (rewrite app_length; cbn; lia).
    cbn [length] in L. unfold pick in *. cbn [combine filter snd map fst] in *.
    destruct (f =? 0) eqn:Ef; cbn [negb map fst] in *.
    + rewrite EP, ES. apply IH; [lia|exact R].
    + cbn [length] in R. rewrite array_write_at by (destruct rest; [cbn in R; lia|discriminate]). rewrite EP, ES.
      replace (S (length done)) with (length (done ++ [m])) by (rewrite app_length; cbn; lia).
      rewrite IH; [|lia|rewrite skipn_length; lia]. cbn [length map fst]. rewrite <- app_assoc. cbn [app]. rewrite skipn_1, app_length. cbn [length]. f_equal. f_equal. lia.
Qed.
Lemma flagged_pick {M} (g : gview M) : gv_enabled g = true -> flagged g = pick (gv_moves g) (gv_flags g).
Proof. intros E. unfold flagged. now rewrite E. Qed.
Lemma fill_step {M} (g : gview M) done rest : sound_flags g -> (length (flagged g) <= length rest)%nat ->
  fill_gen (Some (map Some done ++ rest, length done)) g =
  Some (map Some (done ++ flagged g) ++ skipn (length (flagged g)) rest, length (done ++ flagged g)).
Proof.
  intros [L _] R. unfold fill_gen. destruct (gv_enabled g) eqn:E.
  - rewrite (flagged_pick g E) in *. pose proof (fill_inner (gv_moves g) [] (gv_flags g) done rest L R) as F. cbn [app length] in F. rewrite F. now rewrite app_length.
  - unfold flagged. rewrite E. cbn [length skipn]. now rewrite app_nil_r.
Qed.
Lemma fill_all {M} (gs : list (gview M)) : forall done rest, (forall g, In g gs -> sound_flags g) -> length (flat_map flagged gs) = length rest ->
  fold_left fill_gen gs (Some (map Some done ++ rest, length done)) =
  Some (map Some (done ++ flat_map flagged gs), length (done ++ flat_map flagged gs)).
Proof.
  induction gs as [|g gs IH]; intros done rest S L; cbn [fold_left flat_map] in *.
  - destruct rest; [|discriminate]. now rewrite !app_nil_r.
  - rewrite app_length in L. rewrite fill_step; [|apply S; now left|lia]. rewrite IH; [now rewrite app_assoc|intros; apply S; now right|rewrite skipn_length; lia].
Qed.
Lemma sum_flags (fl : list Z) : forall n, (forall f, In f fl -> f = 0 \/ f = 1) ->
  fold_left Z.add fl n = n + Z.of_nat (length (filter (fun f => negb (f =? 0)) fl)).
Proof.
  induction fl as [|f fl IH]; intros n H; cbn [fold_left filter]; [cbn; lia|].
  rewrite IH by (intros; apply H; now right). destruct (H f ltac:(now left)) as [-> | ->]; cbn [Z.eqb negb length]; lia.
Qed.
Lemma pick_length {M} (ms : list M) fl : length fl = length ms -> length (pick ms fl) = length (filter (fun f => negb (f =? 0)) fl).
Proof.
  revert fl. induction ms as [|m ms IH]; intros [|f fl] L; try discriminate; [reflexivity|]. unfold pick in *. cbn [combine filter snd].
  destruct (f =? 0); cbn [negb map length]; rewrite IH by (cbn in L; lia); reflexivity.
Qed.
Lemma candidates_count {M} (gs : list (gview M)) : (forall g, In g gs -> sound_flags g) -> candidates gs = Z.of_nat (length (flat_map flagged gs)).
Proof.
  intros S. unfold candidates. assert (G : forall n, fold_left (fun n g => if gv_enabled g then n + fold_left Z.add (gv_flags g) 0 else n) gs n = n + Z.of_nat (length (flat_map flagged gs))).
  { induction gs as [|g gs IH]; intros n; cbn [fold_left flat_map]; [cbn; lia|].
    rewrite IH by (intros; apply S; now right). destruct (S g ltac:(now left)) as [L F]. rewrite app_length.
    destruct (gv_enabled g) eqn:E.
    - rewrite sum_flags by exact F. rewrite (flagged_pick g E), (pick_length _ _ L). lia.
    - unfold flagged at 2. rewrite E. cbn [length]. lia. }
  rewrite G. lia.
Qed.
Lemma resize_length {A} (d : A) n l : length (resize d n l) = n.
Proof. unfold resize. rewrite firstn_length, app_length, repeat_length. lia. Qed.
Lemma updated_count {M} (gs : list (gview M)) : forall n,
  fold_left (fun n g => if gv_enabled g then n + Z.of_nat (length (gv_moves g)) else n) gs n =
  n + Z.of_nat (length (flat_map (fun g => if gv_enabled g then gv_moves g else []) gs)).
Proof.
  induction gs as [|g gs IH]; intros n; cbn [fold_left flat_map]; [cbn; lia|]. rewrite IH, app_length. destruct (gv_enabled g); cbn [length]; lia.
Qed.
Lemma collect_exact {M} (old : list (option M)) (gs : list (gview M)) : (forall g, In g gs -> sound_flags g) ->
  collect old gs = Some (map Some (flat_map flagged gs), Z.of_nat (length (flat_map (fun g => if gv_enabled g then gv_moves g else []) gs))).
Proof.
  intros S. unfold collect. rewrite (candidates_count gs S), Nat2Z.id.
  pose proof (fill_all gs [] (resize None (length (flat_map flagged gs)) old) S) as F. cbn [map app length] in F.
  rewrite F by now rewrite resize_length. now rewrite updated_count.
Qed.

(** Generators only write 0 and 1, one flag per move. *)
Lemma flag_01 r vs ac b m : move_flag r vs ac b m = 0 \/ move_flag r vs ac b m = 1.
Proof.
  unfold move_flag. repeat match goal with |- (if ?q then _ else _) = _ \/ _ => destruct q; auto end.
Qed.
Lemma generator_sound addr vs ac g l : gen_update addr vs ac g = Some l -> sound_flags (mkGview true (map fst l) (map snd l)).
Proof.
  intros E. split; cbn [gv_flags gv_moves]; [now rewrite !map_length|]. intros f I. apply in_map_iff in I. destruct I as [[m f'] [<- I]]. cbn [snd].
  destruct g; cbn [gen_update] in E.
  - injection E as <-. apply in_map_iff in I. destruct I as [v [E _]]. unfold binary_move in E.
    assert (Q : f' = snd (m, f')) by reflexivity. rewrite <- E in Q. cbn [snd] in Q. rewrite Q.
    repeat match goal with |- (if ?q then _ else _) = _ \/ _ => destruct q; auto end.
  - injection E as <-. apply in_flat_map in I. destruct I as [v [_ I]]. unfold integer_moves in I. cbv zeta in I.
    destruct I as [I|[I|[I|[I|[]]]]]; assert (Q : f' = snd (m, f')) by reflexivity; rewrite <- I in Q; cbn [snd] in Q; rewrite Q;
    match goal with |- (if ?q then _ else _) = _ \/ _ => destruct q; auto end.
  - destruct (concat_options _); [|discriminate]. cbn [option_map] in E. injection E as <-. apply in_flag_all in I. destruct I as [_ [b ->]]. apply flag_01.
  - injection E as <-. apply in_flag_all in I. destruct I as [_ [b ->]]. apply flag_01.
  - injection E as <-. apply in_flag_all in I. destruct I as [_ [b ->]]. apply flag_01.
  - injection E as <-. apply in_flag_all in I. destruct I as [_ [b ->]]. apply flag_01.
Qed.

(** * Chains *)
Lemma chain_lengths ops : forall s, length (ch_flags s) = length (ch_moves s) ->
  (forall f, In (ChReorder f) ops -> forall l, length (f l) = length l) ->
  length (ch_flags (fold_left chain_step ops s)) = length (ch_moves (fold_left chain_step ops s)).
Proof.
  induction ops as [|o ops IH]; intros s L H; cbn [fold_left]; [exact L|]. apply IH; [|intros f I; apply H; now right].
  destruct o; cbn [chain_step ch_flags ch_moves]; rewrite ?resize_length; auto.
  - rewrite L. symmetry. apply H. now left.
  - destruct (Nat.leb_spec (length (ch_moves s)) n); [exact L|]. cbn [ch_flags ch_moves]. rewrite resize_length, firstn_length. lia.
Qed.
Lemma duplicate_false m : has_duplicate m = false <-> proper m.
Proof.
  unfold proper. induction m as [|[v a] m IH]; cbn [has_duplicate map fst]; [split; [constructor|reflexivity]|].
  rewrite orb_false_iff, IH. split.
  - intros [H1 H2]. constructor; [|exact H2]. intros I. apply in_map_iff in I. destruct I as [[w b] [E I]]. cbn [fst] in E. subst w.
    pose proof (existsb_false_in _ _ _ H1 I) as F. cbn [fst] in F. rewrite Nat.eqb_refl in F. discriminate.
  - intros H. inversion H as [|? ? N D]; subst. split; [|exact D]. destruct (existsb _ m) eqn:E; [|reflexivity]. exfalso. apply existsb_exists in E.
    destruct E as [[w b] [I Q]]. cbn [fst] in Q. apply Nat.eqb_eq in Q. subst w. apply N. apply in_map_iff. exists (v, b). auto.
Qed.
Lemma apply_in m : forall x v a, proper m -> In (v, a) m -> apply_move x m v = a.
Proof.
  unfold proper, apply_move. induction m as [|[w b] m IH]; intros x v a P I; [destruct I|]. cbn [fold_left fst snd map] in *. inversion P as [|? ? N D]; subst.
  destruct I as [E|I]; [|now apply IH]. injection E as -> ->.
  assert (G : forall m y, ~ In v (map fst m) -> fold_left (fun y a => set_val y (fst a) (snd a)) m y v = y v).
  { clear. induction m as [|[w b] m IH]; intros y N; cbn [fold_left map fst snd] in *; [reflexivity|]. rewrite IH by (intros Hin; apply N; now right).
    unfold set_val. destruct (Nat.eqb_spec v w) as [->|]; [exfalso; apply N; now left|reflexivity]. }
  rewrite G by exact N. unfold set_val. now rewrite Nat.eqb_refl.
Qed.
Lemma apply_out m : forall x v, ~ In v (map fst m) -> apply_move x m v = x v.
Proof.
  unfold apply_move. induction m as [|[w b] m IH]; intros x v N; cbn [fold_left map fst snd] in *; [reflexivity|]. rewrite IH by (intros Hin; apply N; now right).
  unfold set_val. destruct (Nat.eqb_spec v w) as [->|]; [exfalso; apply N; now left|reflexivity].
Qed.
Lemma complement_keys m : map fst (complement m) = map fst m.
Proof. unfold complement. rewrite map_map. reflexivity. Qed.
(** Two proper moves with disjoint variables, applied one after the other. *)
Lemma apply_two x p q v : proper (p ++ q) -> apply_move (apply_move x p) q v = apply_move x (p ++ q) v.
Proof. intros _. unfold apply_move. now rewrite fold_left_app. Qed.
Lemma proper_comm p q : proper (p ++ q) -> proper (q ++ p).
Proof. unfold proper. rewrite !map_app. intros H. eapply Permutation.Permutation_NoDup; [apply Permutation.Permutation_app_comm|exact H]. Qed.
Lemma apply_perm x m m' v : Permutation.Permutation m m' -> proper m -> apply_move x m v = apply_move x m' v.
Proof.
  intros P H. assert (H' : proper m') by (unfold proper in *; eapply Permutation.Permutation_NoDup; [apply Permutation.Permutation_map; exact P|exact H]).
  destruct (in_dec Nat.eq_dec v (map fst m)) as [I|N].
  - apply in_map_iff in I. destruct I as [[w a] [E I]]. cbn [fst] in E. subst w. rewrite (apply_in m x v a H I).
    symmetry. apply apply_in; [exact H'|]. eapply Permutation.Permutation_in; eauto.
  - rewrite apply_out by exact N. symmetry. apply apply_out. intros I. apply N. eapply Permutation.Permutation_in; [symmetry; apply Permutation.Permutation_map; exact P|exact I].
Qed.

Lemma chain_registers addr linkable overlap x p q : flips x p -> flips (apply_move x p) q ->
  forall ms, chain_moves addr linkable overlap p q = ms ->
  ms = [] \/ exists m, ms = [m; complement m] /\ proper m /\ Permutation.Permutation m (p ++ q) /\
    (forall v, apply_move x m v = apply_move (apply_move x p) q v) /\
    (forall v, apply_move (apply_move (apply_move x p) q) (complement m) v = x v).
Proof.
  intros [Pp Fp] [Pq Fq] ms E. unfold chain_moves in E. destruct linkable; [|left; congruence]. cbv zeta in E.
  set (m := if (front_addr addr p <? front_addr addr q)%N then p ++ q else q ++ p) in *.
  destruct (overlap m && negb (has_duplicate m)) eqn:O; [|left; congruence]. right. exists m.
  apply andb_true_iff in O. destruct O as [_ O]. apply negb_true_iff in O. apply duplicate_false in O.
  assert (PM : Permutation.Permutation m (p ++ q)) by (unfold m; destruct (_ <? _)%N; [reflexivity|apply Permutation.Permutation_app_comm]).
  assert (Ppq : proper (p ++ q)) by (unfold proper in *; eapply Permutation.Permutation_NoDup; [apply Permutation.Permutation_map; exact PM|exact O]).
  split; [symmetry; exact E|]. split; [exact O|]. split; [exact PM|].
  assert (A : forall v, apply_move x m v = apply_move (apply_move x p) q v) by (intros v; rewrite (apply_perm x m (p ++ q) v PM O), apply_two; auto).
  split; [exact A|]. intros v.
  assert (Pc : proper (complement m)) by (unfold proper; rewrite complement_keys; exact O).
  destruct (in_dec Nat.eq_dec v (map fst m)) as [I|N].
  - apply in_map_iff in I. destruct I as [[w a] [Ew I]]. cbn [fst] in Ew. subst w.
    rewrite (apply_in _ _ v (1 - a) Pc) by (unfold complement; apply in_map_iff; exists (v, a); auto).
    assert (Ia : In (v, a) (p ++ q)) by (eapply Permutation.Permutation_in; eauto). apply in_app_or in Ia. destruct Ia as [Ia|Ia].
    + rewrite (Fp v a Ia). lia.
    + rewrite (Fq v a Ia). rewrite apply_out; [lia|]. intros Iv. unfold proper in Ppq. rewrite map_app in Ppq.
      apply in_split in Iv. destruct Iv as [l1 [l2 Ev]]. rewrite Ev in Ppq. rewrite <- app_assoc in Ppq. apply NoDup_remove_2 in Ppq. apply Ppq.
      apply in_or_app. right. cbn [app]. apply in_or_app. right. apply in_map_iff. exists (v, a). auto.
  - rewrite apply_out by (rewrite complement_keys; exact N).
    rewrite apply_out, apply_out; [reflexivity| |]; intros I; apply N; (eapply Permutation.Permutation_in; [symmetry; apply Permutation.Permutation_map; exact PM|]);
      rewrite map_app; apply in_or_app; auto.
Qed.

(** ** Sources of the constraint-based moves *)
Lemma concat_options_in {A} (l : list (option (list A))) r m : concat_options l = Some r -> In m r -> exists a, In (Some a) l /\ In m a.
Proof.
  revert r. induction l as [|[a|] l IH]; intros r H I; cbn [concat_options] in H; try discriminate; [injection H as <-; destruct I|].
  destruct (concat_options l) as [r'|] eqn:E; [|discriminate]. injection H as <-. apply in_app_iff in I. destruct I as [I|I]; [exists a; split; [now left|exact I]|].
  destruct (IH r' eq_refl I) as (b & B1 & B2). exists b. split; [now right|exact B2].
Qed.
Lemma special_sources addr vs ac t items l m f : gen_update addr vs ac (setup_special vs t items) = Some l -> In (m, f) l ->
  exists c k ms, In (c, k) items /\ ct_enabled c = true /\
  (forall v a, In (v, a) (ex_sens (ct_expr c)) -> va_fixed (vs v) = false /\ va_sense (vs v) <> VSelection) /\
  special_moves addr t k c (fun v => va_value (vs v)) = Some ms /\ In m ms.
Proof.
  unfold setup_special, gen_update. intros H I. destruct (concat_options _) as [r|] eqn:E; [|discriminate]. cbn [option_map] in H. injection H as <-.
  unfold flag_all in I. apply in_map_iff in I. destruct I as ([j m'] & Eq & I). cbn [fst snd] in Eq. assert (m' = m) by congruence. subst m'. apply in_combine_r in I.
  destruct (concat_options_in _ _ _ E I) as (ms & M1 & M2). apply in_map_iff in M1. destruct M1 as ([c k] & S & P). apply filter_In in P. destruct P as [P1 P2]. cbn [fst snd] in *.
  exists c, k, ms. split; [exact P1|]. unfold effective in P2. apply andb_prop in P2. destruct P2 as [P2 P3]. split; [exact P2|]. split; [|auto].
  intros v a Hv. apply negb_true_iff in P3. assert (X : va_fixed (vs v) || is_selection (va_sense (vs v)) = false).
  { destruct (va_fixed (vs v) || is_selection (va_sense (vs v))) eqn:Y; [|reflexivity]. rewrite <- P3. symmetry. apply existsb_exists. exists (v, a). auto. }
  apply orb_false_elim in X. destruct X as [X1 X2]. split; [exact X1|]. intros Z. rewrite Z in X2. discriminate.
Qed.
