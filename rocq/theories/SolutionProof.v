(** Proofs for C16, C17 and C46. *)
From Coq Require Import List ZArith QArith Bool Lia Lqa.
From Verif Require Import ConstraintModel EvalModel SolutionModel SolutionSpec.
Import ListNotations.
Local Open Scope Q_scope.

(** ** Incumbents *)
Lemma improves_none v : improves v None = true. Proof. reflexivity. Qed.

Lemma try_slot_best {S} f offers sol sc (sl : slot S) : holds_best f offers sl ->
  holds_best f (offers ++ [(sol, sc)]) (fst (try_slot (f sc) sol sc sl)).
Proof.
  intros H. unfold try_slot. destruct (improves (f sc) (sl_obj sl)) eqn:E; cbn [fst].
  - right. exists sol, sc. split; [apply in_or_app; right; now left|]. split; [reflexivity|]. split; [reflexivity|].
    assert (HE : 0 <= EPS) by (vm_compute; discriminate).
    intros sol' sc' Hin. apply in_app_or in Hin as [Hin|[Hin|[]]].
    + destruct H as [[-> _]|(s0 & c0 & _ & Eo & _ & Hb)]; [destruct Hin|].
      rewrite Eo in E. cbn in E. destruct (Qlt_le_dec (f sc + EPS) (f c0)) as [L|]; [|discriminate].
      specialize (Hb _ _ Hin). lra.
    + injection Hin as <- <-. lra.
  - right. destruct H as [[_ En]|(s0 & c0 & Hin & Eo & Es & Hb)]; [rewrite En in E; discriminate|].
    exists s0, c0. split; [apply in_or_app; now left|]. split; [exact Eo|]. split; [exact Es|].
    intros sol' sc' Hi. apply in_app_or in Hi as [Hi|[Hi|[]]]; [eapply Hb; eassumption|]. injection Hi as <- <-.
    rewrite Eo in E. cbn in E. destruct (Qlt_le_dec (f sc + EPS) (f c0)) as [|L]; [discriminate|exact L].
Qed.

Lemma offered_app {S} (a b : list (h_event S)) : offered (a ++ b) = offered a ++ offered b.
Proof. induction a as [|[| |] a IH]; cbn; rewrite ?IH; reflexivity. Qed.

Definition h_inv {S} (es : list (h_event S)) (h : holder S) : Prop :=
  (ho_found h = true <-> exists sol sc, In (sol, sc) (offered es) /\ sc_feasible sc = true) /\
  holds_best sc_objective (filter (fun p : S * score => sc_feasible (snd p)) (offered es)) (ho_feasible h) /\
  holds_best sc_global_aug (offered es) (ho_global h) /\
  holds_best sc_local_aug (since_reset es) (ho_local h).

Lemma h_inv_step {S} minimize (es : list (h_event S)) h e : h_inv es h -> h_inv (es ++ [e]) (h_step minimize h e).
Proof.
  intros (H1 & H2 & H3 & H4). unfold h_inv. rewrite offered_app. unfold since_reset in *. rewrite fold_left_app.
  destruct e as [sol sc| |b]; cbn [offered fold_left h_step].
  - unfold try_update.
    destruct (try_slot (sc_local_aug sc) sol sc (ho_local h)) as [l bl] eqn:El.
    destruct (try_slot (sc_global_aug sc) sol sc (ho_global h)) as [g bg] eqn:Eg.
    rewrite filter_app. cbn [filter snd].
    pose proof (try_slot_best sc_local_aug _ sol sc _ H4) as K4. rewrite El in K4.
    pose proof (try_slot_best sc_global_aug _ sol sc _ H3) as K3. rewrite Eg in K3.
    pose proof (try_slot_best sc_objective _ sol sc _ H2) as K2.
    assert (F : (ho_found h || sc_feasible sc = true <->
       exists s0 c0, In (s0, c0) (offered es ++ [(sol, sc)]) /\ sc_feasible c0 = true)).
    { rewrite orb_true_iff, H1. split.
      - intros [(s0 & c0 & Hi & Hf)|Hf]; [exists s0, c0|exists sol, sc]; (split; [apply in_or_app|assumption]); [now left|right; now left].
      - intros (s0 & c0 & Hi & Hf). apply in_app_or in Hi as [Hi|[Hi|[]]]; [left; eauto|]. injection Hi as <- <-. now right. }
    destruct (sc_feasible sc) eqn:Ef.
    + destruct (try_slot (sc_objective sc) sol sc (ho_feasible h)) as [f bf]. cbn [fst snd] in *.
      repeat split; try assumption; apply F.
    + cbn [fst snd] in *. rewrite app_nil_r.
      repeat split; try assumption; apply F.
  - rewrite app_nil_r. repeat split; try assumption; try apply H1. cbn. left. split; reflexivity.
  - rewrite app_nil_r. repeat split; try assumption; apply H1.
Qed.

Lemma h_inv_run {S} minimize (es : list (h_event S)) : h_inv es (fold_left (h_step minimize) es (ho_init S)).
Proof.
  induction es as [|e es IH] using rev_ind.
  - split; [split; [discriminate|intros (? & ? & [] & _)]|]. split; [left; split; reflexivity|].
    split; left; split; reflexivity.
  - rewrite fold_left_app. cbn [fold_left]. now apply h_inv_step.
Qed.

(** The status returned tells exactly which incumbents were replaced. *)
Lemma try_update_status {S} (h : holder S) sol sc :
  let h' := fst (try_update h sol sc) in
  let status := snd (try_update h sol sc) in
  let changed (f : Q) (old new : slot S) (bit : bool) :=
    (bit = true -> new = mkSlot (Some f) (Some (sol, sc)) /\ match sl_obj old with Some q => f + EPS < q | None => True end) /\
    (bit = false -> new = old) in
  (0 <= status < 8)%Z /\
  changed (sc_local_aug sc) (ho_local h) (ho_local h') (Z.testbit status 0) /\
  changed (sc_global_aug sc) (ho_global h) (ho_global h') (Z.testbit status 1) /\
  changed (sc_objective sc) (ho_feasible h) (ho_feasible h') (Z.testbit status 2) /\
  (Z.testbit status 2 = true -> sc_feasible sc = true).
Proof.
  cbv zeta. unfold try_update.
  assert (T : forall v (sl : slot S), let r := try_slot v sol sc sl in
    (snd r = true -> fst r = mkSlot (Some v) (Some (sol, sc)) /\ match sl_obj sl with Some q => v + EPS < q | None => True end) /\
    (snd r = false -> fst r = sl)).
  { intros v sl. cbv zeta. unfold try_slot, improves. destruct (sl_obj sl) as [q|]; [destruct (Qlt_le_dec (v + EPS) q)|]; cbn; split; intros; try discriminate; auto. }
  pose proof (T (sc_local_aug sc) (ho_local h)) as TL. pose proof (T (sc_global_aug sc) (ho_global h)) as TG.
  pose proof (T (sc_objective sc) (ho_feasible h)) as TF. cbv zeta in *.
  destruct (try_slot (sc_local_aug sc) sol sc (ho_local h)) as [l bl].
  destruct (try_slot (sc_global_aug sc) sol sc (ho_global h)) as [g bg].
  destruct (try_slot (sc_objective sc) sol sc (ho_feasible h)) as [f bf]. cbn [fst snd] in *.
  destruct (sc_feasible sc); cbn [fst snd ho_local ho_global ho_feasible].
  - destruct bl, bg, bf; cbn; repeat split; intros; try lia; try discriminate; try (apply TL; reflexivity); try (apply TG; reflexivity); try (apply TF; reflexivity).
  - destruct bl, bg; cbn; repeat split; intros; try lia; try discriminate; try (apply TL; reflexivity); try (apply TG; reflexivity).
Qed.

(** Incumbent objectives never get worse (the local one until it is reset). *)
Lemma not_worse_refl o : not_worse o o. Proof. destruct o; cbn; lra || exact I. Qed.
Lemma not_worse_trans a b c : not_worse a b -> not_worse b c -> not_worse a c.
Proof. destruct a, b, c; cbn; intros; try lra; tauto. Qed.
Lemma try_slot_not_worse {S} v sol sc (sl : slot S) : not_worse (sl_obj sl) (sl_obj (fst (try_slot v sol sc sl))).
Proof.
  unfold try_slot, improves. assert (0 <= EPS) by (vm_compute; discriminate).
  destruct (sl_obj sl) as [q|] eqn:E; [destruct (Qlt_le_dec (v + EPS) q)|]; cbn; rewrite ?E; cbn; try lra; exact I.
Qed.
Lemma incumbents_monotone {S} minimize (es : list (h_event S)) : forall h,
  let h' := fold_left (h_step minimize) es h in
  not_worse (sl_obj (ho_feasible h)) (sl_obj (ho_feasible h')) /\
  not_worse (sl_obj (ho_global h)) (sl_obj (ho_global h')) /\
  (ho_found h = true -> ho_found h' = true) /\
  (if minimize then ho_dual h <= ho_dual h' else ho_dual h' <= ho_dual h).
Proof.
  cbv zeta. induction es as [|e es IH]; intros h; cbn [fold_left].
  - repeat split; try apply not_worse_refl; auto. destruct minimize; lra.
  - destruct (IH (h_step minimize h e)) as (I1 & I2 & I3 & I4).
    assert (St : not_worse (sl_obj (ho_feasible h)) (sl_obj (ho_feasible (h_step minimize h e))) /\
                 not_worse (sl_obj (ho_global h)) (sl_obj (ho_global (h_step minimize h e))) /\
                 (ho_found h = true -> ho_found (h_step minimize h e) = true) /\
                 (if minimize then ho_dual h <= ho_dual (h_step minimize h e) else ho_dual (h_step minimize h e) <= ho_dual h)).
    { destruct e as [sol sc| |b]; cbn [h_step].
      - unfold try_update.
        pose proof (try_slot_not_worse (sc_global_aug sc) sol sc (ho_global h)) as Ng.
        pose proof (try_slot_not_worse (sc_objective sc) sol sc (ho_feasible h)) as Nf.
        destruct (try_slot (sc_local_aug sc) sol sc (ho_local h)) as [l bl].
        destruct (try_slot (sc_global_aug sc) sol sc (ho_global h)) as [g bg].
        destruct (try_slot (sc_objective sc) sol sc (ho_feasible h)) as [f bf].
        destruct (sc_feasible sc); cbn in *; (split; [first [exact Nf|apply not_worse_refl]|]); (split; [exact Ng|]);
          (split; [intros ->; reflexivity|destruct minimize; lra]).
      - cbn. repeat split; try apply not_worse_refl; auto. destruct minimize; lra.
      - cbn. repeat split; try apply not_worse_refl; auto. destruct minimize.
        + destruct (Qlt_le_dec (ho_dual h) b); lra.
        + destruct (Qlt_le_dec (- b) (ho_dual h)); lra. }
    destruct St as (S1 & S2 & S3 & S4).
    split; [eapply not_worse_trans; eassumption|]. split; [eapply not_worse_trans; eassumption|].
    split; [auto|]. destruct minimize; lra.
Qed.

(** ** Archive *)
Lemma vars_eqb_spec a b : vars_eqb a b = true <-> a = b.
Proof.
  revert b. induction a as [|[i x] a IH]; intros [|[j y] b]; cbn [vars_eqb]; split; intros H; try reflexivity; try discriminate.
  - apply andb_true_iff in H as [H H3]. apply andb_true_iff in H as [H1 H2].
    apply Nat.eqb_eq in H1. apply Z.eqb_eq in H2. apply IH in H3. congruence.
  - injection H as -> -> ->. rewrite Nat.eqb_refl, Z.eqb_refl. now apply IH.
Qed.

Definition sorted_mode (m : sort_mode) : Prop := m <> SortOff.
Lemma before_rank m a b : sorted_mode m -> (before m a b = true <-> rank m a < rank m b).
Proof.
  unfold sorted_mode. destruct m; cbn; intros H; [congruence| |].
  - destruct (Qlt_le_dec _ _); split; intros; auto; try discriminate; lra.
  - destruct (Qlt_le_dec _ _); split; intros; auto; try discriminate; lra.
Qed.

(** All elements of a list have rank at least [q]. *)
Definition from_on (m : sort_mode) (q : Q) (l : list ssol) := forall s, In s l -> q <= rank m s.
Lemma in_order_cons m a l : in_order m (a :: l) <-> from_on m (rank m a) l /\ in_order m l.
Proof.
  revert a. induction l as [|b l IH]; intros a.
  - cbn. split; [intros _; split; [intros s []|exact I]|tauto].
  - change (in_order m (a :: b :: l)) with (rank m a <= rank m b /\ in_order m (b :: l)). split.
    + intros [H1 H2]. split; [|exact H2]. intros s [<-|Hs]; [exact H1|]. apply IH in H2 as [H2 _]. specialize (H2 s Hs). lra.
    + intros [H1 H2]. split; [apply H1; now left|exact H2].
Qed.
Lemma in_sol_insert m s t l : In t (sol_insert m s l) <-> t = s \/ In t l.
Proof.
  induction l as [|u l IH]; cbn [sol_insert].
  - cbn. intuition.
  - destruct (before m u s); cbn [In]; rewrite ?IH; cbn [In]; intuition.
Qed.
Lemma in_sol_sort m t l : In t (sol_sort m l) <-> In t l.
Proof. induction l as [|u l IH]; [reflexivity|]. change (sol_sort m (u :: l)) with (sol_insert m u (sol_sort m l)). rewrite in_sol_insert, IH. cbn. intuition. Qed.
Lemma sol_insert_order m s l : sorted_mode m -> in_order m l -> in_order m (sol_insert m s l).
Proof.
  intros Hm. induction l as [|t l IH]; intros H; cbn [sol_insert]; [exact I|].
  apply in_order_cons in H as [H1 H2].
  destruct (before m t s) eqn:E.
  - apply before_rank in E; [|exact Hm]. apply in_order_cons. split; [|now apply IH].
    intros u Hu. apply in_sol_insert in Hu as [->|Hu]; [lra|now apply H1].
  - assert (E' : rank m s <= rank m t).
    { destruct (Qlt_le_dec (rank m t) (rank m s)) as [L|L]; [|exact L]. apply (before_rank m t s Hm) in L. congruence. }
    apply in_order_cons. split; [|apply in_order_cons; now split].
    intros u [<-|Hu]; [exact E'|]. specialize (H1 u Hu). lra.
Qed.
Lemma sol_sort_order m l : sorted_mode m -> in_order m (sol_sort m l).
Proof. intros Hm. induction l as [|t l IH]; [exact I|]. now apply sol_insert_order. Qed.

Inductive subseq : list ssol -> list ssol -> Prop :=
| sub_nil l : subseq [] l
| sub_take a l l' : subseq l l' -> subseq (a :: l) (a :: l')
| sub_skip a l l' : subseq l l' -> subseq l (a :: l').
Lemma subseq_tail a l l' : subseq (a :: l) l' -> subseq l l'.
Proof.
  intros H. remember (a :: l) as k eqn:E. revert a l E. induction H as [l0|b l0 l1 H IH|b l0 l1 H IH]; intros a l E; [discriminate| |].
  - injection E as -> ->. now apply sub_skip.
  - apply sub_skip. eapply IH; eassumption.
Qed.
Lemma subseq_insert m s r : sorted_mode m -> in_order m (s :: r) -> forall M, subseq r M -> subseq (s :: r) (sol_insert m s M).
Proof.
  intros Hm Ho M. apply in_order_cons in Ho as [Hf _].
  induction M as [|y M IH]; intros H; cbn [sol_insert].
  - inversion H; subst. apply sub_take, sub_nil.
  - destruct (before m y s) eqn:E; [|now apply sub_take]. apply before_rank in E; [|exact Hm].
    apply sub_skip, IH. inversion H as [|a l l' H1|a l l' H1]; subst; [apply sub_nil| |exact H1].
    exfalso. specialize (Hf y (or_introl eq_refl)). lra.
Qed.
Lemma subseq_sort m old new : sorted_mode m -> in_order m old -> subseq old (sol_sort m (old ++ new)).
Proof.
  intros Hm. induction old as [|s r IH]; intros Ho; [apply sub_nil|].
  change (sol_sort m ((s :: r) ++ new)) with (sol_insert m s (sol_sort m (r ++ new))).
  apply subseq_insert; auto. apply IH. now apply in_order_cons in Ho as [_ Ho].
Qed.
Lemma subseq_filter P l l' : subseq l l' -> (forall s, In s l -> P s = true) -> subseq l (filter P l').
Proof.
  induction 1 as [l|a l l' H IH|a l l' H IH]; intros HP; cbn [filter].
  - apply sub_nil.
  - rewrite (HP a (or_introl eq_refl)). apply sub_take, IH. intros s Hs. apply HP. now right.
  - destruct (P a); [apply sub_skip|]; apply IH; exact HP.
Qed.

Definition chg (a b : list (nat * Z)) : nat := if vars_eqb a b then 0 else 1.
Lemma chg_tri a b c : (chg a c <= chg a b + chg b c)%nat.
Proof.
  unfold chg. destruct (vars_eqb a c) eqn:E1, (vars_eqb a b) eqn:E2, (vars_eqb b c) eqn:E3; try lia.
  apply vars_eqb_spec in E2, E3. subst. assert (vars_eqb c c = true) by now apply vars_eqb_spec. congruence.
Qed.
Lemma uniq_after_length p s l : length (uniq_after p (s :: l)) = (chg p (so_vars s) + length (uniq_after (so_vars s) l))%nat.
Proof.
  cbn [uniq_after]. unfold chg. destruct (vars_eqb p (so_vars s)) eqn:E; [|reflexivity].
  apply vars_eqb_spec in E. now subst.
Qed.
Lemma subseq_uniq_after l l' : subseq l l' -> forall a b, (length (uniq_after a l) <= length (uniq_after b l') + chg a b)%nat.
Proof.
  induction 1 as [l|c l l' H IH|c l l' H IH]; intros a b.
  - cbn. lia.
  - rewrite !uniq_after_length. specialize (IH (so_vars c) (so_vars c)).
    assert (C : chg (so_vars c) (so_vars c) = 0%nat) by (unfold chg; now rewrite (proj2 (vars_eqb_spec _ _) eq_refl)).
    pose proof (chg_tri a b (so_vars c)). lia.
  - rewrite uniq_after_length. specialize (IH a (so_vars c)).
    assert (S1 : chg a (so_vars c) = chg (so_vars c) a).
    { unfold chg. destruct (vars_eqb a (so_vars c)) eqn:E1, (vars_eqb (so_vars c) a) eqn:E2; try reflexivity.
      - apply vars_eqb_spec in E1. subst. assert (vars_eqb (so_vars c) (so_vars c) = true) by now apply vars_eqb_spec. congruence.
      - apply vars_eqb_spec in E2. subst. assert (vars_eqb (so_vars c) (so_vars c) = true) by now apply vars_eqb_spec. congruence. }
    pose proof (chg_tri a b (so_vars c)). lia.
Qed.
Lemma subseq_uniq l l' : subseq l l' -> (length (uniq l) <= length (uniq l'))%nat.
Proof.
  intros H. induction H as [l|c l l' H IH|c l l' H IH].
  - cbn. lia.
  - cbn [uniq length]. pose proof (subseq_uniq_after l l' H (so_vars c) (so_vars c)).
    assert (C : chg (so_vars c) (so_vars c) = 0%nat) by (unfold chg; now rewrite (proj2 (vars_eqb_spec _ _) eq_refl)). lia.
  - destruct l as [|d l]; [cbn; lia|]. cbn [uniq length].
    pose proof (subseq_uniq_after _ _ H (so_vars c) (so_vars c)) as K. rewrite uniq_after_length in K.
    assert (C : chg (so_vars c) (so_vars c) = 0%nat) by (unfold chg; now rewrite (proj2 (vars_eqb_spec _ _) eq_refl)). lia.
Qed.

Lemma uniq_after_no_adj l : forall p, no_adjacent_duplicates (uniq_after p l) /\
  match uniq_after p l with s :: _ => so_vars s <> p | [] => True end.
Proof.
  induction l as [|s l IH]; intros p; cbn [uniq_after]; [split; exact I|].
  destruct (vars_eqb p (so_vars s)) eqn:E; [apply IH|].
  assert (N : so_vars s <> p). { intros H. rewrite (proj2 (vars_eqb_spec _ _) (eq_sym H)) in E. discriminate. }
  split; [|exact N]. destruct (IH (so_vars s)) as [H1 H2].
  destruct (uniq_after (so_vars s) l) as [|t r]; [exact I|]. split; [auto|exact H1].
Qed.
Lemma uniq_no_adj l : no_adjacent_duplicates (uniq l).
Proof.
  destruct l as [|s l]; [exact I|]. cbn [uniq]. destruct (uniq_after_no_adj l (so_vars s)) as [H1 H2].
  destruct (uniq_after (so_vars s) l) as [|t r]; [exact I|]. split; [auto|exact H1].
Qed.
Lemma uniq_id l : no_adjacent_duplicates l -> uniq l = l.
Proof.
  destruct l as [|s l]; [reflexivity|]. cbn [uniq]. intros H. f_equal. revert s H.
  induction l as [|t l IH]; intros s H; [reflexivity|]. cbn [uniq_after]. destruct H as [H1 H2].
  destruct (vars_eqb (so_vars s) (so_vars t)) eqn:E; [apply vars_eqb_spec in E; congruence|]. f_equal. now apply IH.
Qed.
Lemma in_uniq_after s l : forall p, In s (uniq_after p l) -> In s l.
Proof.
  induction l as [|t l IH]; intros p; cbn [uniq_after]; [auto|].
  destruct (vars_eqb p (so_vars t)); intros H; [right; eapply IH; exact H|].
  destruct H as [<-|H]; [now left|right; eapply IH; exact H].
Qed.
Lemma in_uniq s l : In s (uniq l) -> In s l.
Proof. destruct l as [|t l]; [auto|]. intros [<-|H]; [now left|right; eapply in_uniq_after; exact H]. Qed.
Lemma uniq_after_order m l : forall p, in_order m l -> in_order m (uniq_after p l).
Proof.
  induction l as [|s l IH]; intros p H; [exact I|]. cbn [uniq_after]. apply in_order_cons in H as [H1 H2].
  destruct (vars_eqb p (so_vars s)); [now apply IH|]. apply in_order_cons. split; [|now apply IH].
  intros t Ht. apply H1. eapply in_uniq_after. exact Ht.
Qed.
Lemma uniq_order m l : in_order m l -> in_order m (uniq l).
Proof.
  destruct l as [|s l]; [auto|]. intros H. apply in_order_cons in H as [H1 H2]. cbn [uniq]. apply in_order_cons.
  split; [|now apply uniq_after_order]. intros t Ht. apply H1. eapply in_uniq_after. exact Ht.
Qed.
(** Every element has a kept representative that is at least as good. *)
Lemma uniq_after_rep m s l : in_order m l -> In s l -> forall p,
  so_vars s = p \/ exists r, In r (uniq_after p l) /\ so_vars r = so_vars s /\ rank m r <= rank m s.
Proof.
  induction l as [|t l IH]; intros Ho Hin p; [destruct Hin|].
  apply in_order_cons in Ho as [Hf Ho]. cbn [uniq_after].
  destruct Hin as [<-|Hin].
  - destruct (vars_eqb p (so_vars t)) eqn:E; [left; now apply vars_eqb_spec in E|].
    right. exists t. split; [now left|]. split; [reflexivity|lra].
  - destruct (vars_eqb p (so_vars t)) eqn:E; [now apply IH|].
    destruct (IH Ho Hin (so_vars t)) as [Es|(r & Hr & Er & Hk)].
    + right. exists t. split; [now left|]. split; [now symmetry|]. now apply Hf.
    + right. exists r. split; [now right|]. split; assumption.
Qed.
Lemma uniq_rep m s l : in_order m l -> In s l -> exists r, In r (uniq l) /\ so_vars r = so_vars s /\ rank m r <= rank m s.
Proof.
  destruct l as [|t l]; intros Ho Hin; [destruct Hin|]. cbn [uniq]. apply in_order_cons in Ho as [Hf Ho].
  destruct Hin as [<-|Hin]; [exists t; split; [now left|]; split; [reflexivity|lra]|].
  destruct (uniq_after_rep m s l Ho Hin (so_vars t)) as [Es|(r & Hr & Er & Hk)].
  - exists t. split; [now left|]. split; [now symmetry|]. now apply Hf.
  - exists r. split; [now right|]. split; assumption.
Qed.

(** Elements up to rank [v] of the deduplicated sorted list. *)
Lemma prefix_count m v l : in_order m l ->
  (length (uniq (filter (fun s => Qle_bool (rank m s) v) l)) <= length (filter (fun s => Qle_bool (rank m s) v) (uniq l)))%nat.
Proof.
  assert (A : forall l p, in_order m l ->
    uniq_after p (filter (fun s => Qle_bool (rank m s) v) l) = filter (fun s => Qle_bool (rank m s) v) (uniq_after p l)).
  { clear l. induction l as [|s l IH]; intros p Ho; [reflexivity|]. apply in_order_cons in Ho as [Hf Ho].
    cbn [filter uniq_after]. destruct (Qle_bool (rank m s) v) eqn:E.
    - cbn [uniq_after]. destruct (vars_eqb p (so_vars s)); [now apply IH|]. cbn [filter]. rewrite E. f_equal. now apply IH.
    - assert (Hn : forall k, incl k l -> filter (fun s => Qle_bool (rank m s) v) k = []).
      { induction k as [|t k IHk]; intros Hi; [reflexivity|]. cbn [filter].
        assert (E' : Qle_bool (rank m t) v = false).
        { destruct (Qle_bool (rank m t) v) eqn:Et; [|reflexivity]. apply Qle_bool_iff in Et.
          specialize (Hf t (Hi t (or_introl eq_refl))). assert (K : rank m s <= v) by lra. apply Qle_bool_iff in K. congruence. }
        rewrite E'. apply IHk. intros u Hu. apply Hi. now right. }
      rewrite (Hn l (incl_refl _)). cbn [uniq_after]. symmetry.
      destruct (vars_eqb p (so_vars s)); [apply Hn; intros u; apply in_uniq_after|]. cbn [filter]. rewrite E.
      apply Hn. intros u. apply in_uniq_after. }
  destruct l as [|s l]; intros Ho; [cbn; lia|]. apply in_order_cons in Ho as [Hf Ho].
  cbn [filter uniq]. destruct (Qle_bool (rank m s) v) eqn:E.
  - cbn [uniq]. rewrite (A l (so_vars s) Ho). cbn [filter]. rewrite ?E. cbn. lia.
  - assert (Hn : filter (fun s => Qle_bool (rank m s) v) l = []).
    { clear - E Hf. induction l as [|t l IH]; [reflexivity|]. cbn [filter].
      assert (E' : Qle_bool (rank m t) v = false).
      { destruct (Qle_bool (rank m t) v) eqn:Et; [|reflexivity]. apply Qle_bool_iff in Et.
        specialize (Hf t (or_introl eq_refl)). assert (K : rank m s <= v) by lra. apply Qle_bool_iff in K. congruence. }
      rewrite E'. apply IH. intros u Hu. apply Hf. now right. }
    rewrite Hn. cbn. lia.
Qed.
Lemma firstn_le m v k l : in_order m l -> (k <= length (filter (fun s => Qle_bool (rank m s) v) l))%nat ->
  forall s, In s (firstn k l) -> rank m s <= v.
Proof.
  revert k. induction l as [|t l IH]; intros k Ho Hk s Hs; [destruct k; destruct Hs|].
  destruct k as [|k]; [destruct Hs|]. apply in_order_cons in Ho as [Hf Ho]. cbn [filter] in Hk.
  destruct (Qle_bool (rank m t) v) eqn:E.
  - cbn [firstn] in Hs. destruct Hs as [<-|Hs]; [now apply Qle_bool_iff|]. cbn [length] in Hk. eapply IH; [exact Ho| |exact Hs]. lia.
  - exfalso. assert (Hn : filter (fun s => Qle_bool (rank m s) v) l = []).
    { clear - E Hf. induction l as [|u l IHl]; [reflexivity|]. cbn [filter].
      assert (E' : Qle_bool (rank m u) v = false).
      { destruct (Qle_bool (rank m u) v) eqn:Et; [|reflexivity]. apply Qle_bool_iff in Et.
        specialize (Hf u (or_introl eq_refl)). assert (K : rank m t <= v) by lra. apply Qle_bool_iff in K. congruence. }
      rewrite E'. apply IHl. intros w Hw. apply Hf. now right. }
    rewrite Hn in Hk. cbn in Hk. lia.
Qed.

Lemma in_order_firstn m k l : in_order m l -> in_order m (firstn k l).
Proof.
  revert k. induction l as [|s l IH]; intros [|k] H; try exact I. cbn [firstn]. apply in_order_cons in H as [H1 H2].
  apply in_order_cons. split; [|now apply IH]. intros t Ht. apply H1.
  rewrite <- (firstn_skipn k l). apply in_or_app. now left.
Qed.
Lemma no_adj_firstn k l : no_adjacent_duplicates l -> no_adjacent_duplicates (firstn k l).
Proof.
  revert k. induction l as [|s l IH]; intros [|k] H; try exact I. cbn [firstn].
  destruct l as [|t l]; [destruct k; exact I|]. destruct H as [H1 H2]. destruct k as [|k]; [exact I|].
  specialize (IH (S k) H2). cbn [firstn] in *. split; assumption.
Qed.
Lemma no_adj_skipn k : forall l, no_adjacent_duplicates l -> no_adjacent_duplicates (skipn k l).
Proof.
  induction k as [|k IH]; intros [|s l] H; try exact I; try exact H. cbn [skipn]. apply IH.
  destruct l; [exact I|apply H].
Qed.

Definition arch_inv (max : Z) (m : sort_mode) (pushed arch : list ssol) : Prop :=
  ((0 < max)%Z -> (Z.of_nat (length arch) <= max)%Z) /\ incl arch pushed /\ in_order m arch /\ no_adjacent_duplicates arch /\
  forall s, In s pushed ->
    (exists r, In r arch /\ so_vars r = so_vars s /\ rank m r <= rank m s) \/
    ((0 < max)%Z /\ Z.of_nat (length arch) = max /\ forall r, In r arch -> rank m r <= rank m s).

Lemma arch_push_inv max m pushed arch new : sorted_mode m -> arch_inv max m pushed arch ->
  arch_inv max m (pushed ++ new) (archive_push max m arch new).
Proof.
  intros Hm (I1 & I2 & I3 & I4 & I5).
  unfold archive_push.
  assert (Em : (match m with SortOff => arch ++ new | _ => sol_sort m (arch ++ new) end) = sol_sort m (arch ++ new)).
  { destruct m; [exfalso; now apply Hm|reflexivity|reflexivity]. }
  rewrite Em. clear Em. set (L := sol_sort m (arch ++ new)). cbv zeta.
  pose proof (sol_sort_order m (arch ++ new) Hm) as OL. fold L in OL.
  pose proof (uniq_order m L OL) as OU. pose proof (uniq_no_adj L) as NU.
  assert (InU : forall s, In s (uniq L) -> In s (pushed ++ new)).
  { intros s Hs. apply in_uniq in Hs. unfold L in Hs. apply in_sol_sort in Hs. apply in_app_or in Hs as [Hs|Hs]; apply in_or_app; auto. }
  assert (Rep : forall s, In s arch \/ In s new -> exists r, In r (uniq L) /\ so_vars r = so_vars s /\ rank m r <= rank m s).
  { intros s Hs. apply uniq_rep; [exact OL|]. apply in_sol_sort. apply in_or_app. exact Hs. }
  (* the elements that are at most as bad as an already full archive fill the new one *)
  assert (Full : forall s, (forall r, In r arch -> rank m r <= rank m s) ->
     (length arch <= length (filter (fun t => Qle_bool (rank m t) (rank m s)) (uniq L)))%nat).
  { intros s Hs. eapply Nat.le_trans; [|apply (prefix_count m (rank m s) L OL)].
    rewrite <- (uniq_id arch I4) at 1. apply subseq_uniq. apply subseq_filter; [now apply subseq_sort|].
    intros t Ht. apply Qle_bool_iff. now apply Hs. }
  destruct ((0 <? max) && (max <? Z.of_nat (length (uniq L))))%Z eqn:Eb.
  - apply andb_true_iff in Eb as [E1 E2]. apply Z.ltb_lt in E1, E2.
    assert (Er : (match m with SortOff => skipn (length (uniq L) - Z.to_nat max) (uniq L) | _ => firstn (Z.to_nat max) (uniq L) end) = firstn (Z.to_nat max) (uniq L)).
    { destruct m; [exfalso; now apply Hm|reflexivity|reflexivity]. }
    rewrite Er. clear Er.
    assert (Len : Z.of_nat (length (firstn (Z.to_nat max) (uniq L))) = max) by (rewrite firstn_length; lia).
    assert (Cut : forall r, In r (uniq L) -> ~ In r (firstn (Z.to_nat max) (uniq L)) -> forall q, In q (firstn (Z.to_nat max) (uniq L)) -> rank m q <= rank m r).
    { intros r Hr Hn q Hq. clear - OU Hr Hn Hq. revert Hr Hn Hq OU. generalize (Z.to_nat max) as k. generalize (uniq L) as l.
      induction l as [|t l IH]; intros k Hr Hn Hq Ho; [destruct Hr|]. destruct k as [|k]; [destruct Hq|]. cbn [firstn] in *.
      apply in_order_cons in Ho as [Hf Ho]. destruct Hr as [<-|Hr]; [exfalso; apply Hn; now left|].
      destruct Hq as [<-|Hq]; [now apply Hf|]. eapply IH; eauto. intros K. apply Hn. now right. }
    split; [intros _; lia|]. split.
    { intros s Hs. apply InU. rewrite <- (firstn_skipn (Z.to_nat max) (uniq L)). apply in_or_app. now left. }
    split; [now apply in_order_firstn|]. split; [now apply no_adj_firstn|].
    assert (Done : forall s r, In r (uniq L) -> so_vars r = so_vars s -> rank m r <= rank m s ->
      (exists r, In r (firstn (Z.to_nat max) (uniq L)) /\ so_vars r = so_vars s /\ rank m r <= rank m s) \/
      ((0 < max)%Z /\ Z.of_nat (length (firstn (Z.to_nat max) (uniq L))) = max /\ forall q, In q (firstn (Z.to_nat max) (uniq L)) -> rank m q <= rank m s)).
    { intros s r Hr Er Hk.
      assert (D : {In r (firstn (Z.to_nat max) (uniq L))} + {~ In r (firstn (Z.to_nat max) (uniq L))}).
      { apply in_dec. intros a b. repeat decide equality. }
      destruct D as [D|D]; [left; exists r; auto|]. right. split; [exact E1|]. split; [exact Len|].
      intros q Hq. pose proof (Cut r Hr D q Hq). lra. }
    intros s Hs. apply in_app_or in Hs as [Hs|Hs].
    + destruct (I5 s Hs) as [(r & Hr & Er & Hk)|(_ & Hl & Hall)].
      * destruct (Rep r (or_introl Hr)) as (r' & Hr' & Er' & Hk'). apply (Done s r'); [exact Hr'|congruence|lra].
      * right. split; [exact E1|]. split; [exact Len|].
        apply firstn_le; [exact OU|]. specialize (Full s Hall). lia.
    + destruct (Rep s (or_intror Hs)) as (r' & Hr' & Er' & Hk'). now apply (Done s r').
  - assert (Hle : (0 < max)%Z -> (Z.of_nat (length (uniq L)) <= max)%Z).
    { intros Hp. apply andb_false_iff in Eb as [E|E]; [apply Z.ltb_ge in E; lia|apply Z.ltb_ge in E; lia]. }
    split; [exact Hle|]. split; [exact InU|]. split; [exact OU|]. split; [exact NU|].
    intros s Hs. apply in_app_or in Hs as [Hs|Hs].
    + destruct (I5 s Hs) as [(r & Hr & Er & Hk)|(Hp & Hl & Hall)].
      * destruct (Rep r (or_introl Hr)) as (r' & Hr' & Er' & Hk'). left. exists r'. split; [exact Hr'|]. split; [congruence|lra].
      * right. specialize (Full s Hall). specialize (Hle Hp).
        assert (Hlen : (length (filter (fun t => Qle_bool (rank m t) (rank m s)) (uniq L)) <= length (uniq L))%nat).
        { clear. induction (uniq L) as [|t l IH]; cbn; [lia|]. destruct (Qle_bool _ _); cbn; lia. }
        split; [exact Hp|]. split; [lia|].
        intros r Hr. apply (firstn_le m (rank m s) (length (uniq L)) (uniq L) OU); [lia|]. now rewrite firstn_all.
    + left. apply Rep. now right.
Qed.

Lemma arch_run_inv max m pushes : sorted_mode m -> arch_inv max m (concat pushes) (archive_run max m pushes).
Proof.
  intros Hm. unfold archive_run. induction pushes as [|new pushes IH] using rev_ind.
  - split; [cbn; lia|]. split; [intros s []|]. split; [exact I|]. split; [exact I|]. intros s [].
  - rewrite concat_app, fold_left_app. cbn [concat fold_left]. rewrite app_nil_r. now apply arch_push_inv.
Qed.

(** Unsorted archives keep the most recent solutions. *)
Lemma uniq_app_last l new : forall p, uniq_after p (l ++ new) = uniq_after p l ++ uniq_after (last (map so_vars l) p) new.
Proof.
  induction l as [|s l IH]; intros p; [reflexivity|]. cbn [app uniq_after].
  assert (La : last (map so_vars (s :: l)) p = last (map so_vars l) (so_vars s)).
  { cbn [map]. destruct l as [|t l]; [reflexivity|]. cbn [map]. clear.
    change (last (so_vars s :: so_vars t :: map so_vars l) p) with (last (so_vars t :: map so_vars l) p).
    generalize (so_vars t) as a. generalize (map so_vars l) as k. induction k as [|b k IH]; intros a; [reflexivity|]. apply (IH b). }
  rewrite La. destruct (vars_eqb p (so_vars s)) eqn:E.
  - apply vars_eqb_spec in E. subst p. apply IH.
  - cbn [app]. f_equal. apply IH.
Qed.
Lemma uniq_last l : forall p, last (map so_vars (uniq_after p l)) p = last (map so_vars l) p.
Proof.
  assert (La : forall s l p, last (map so_vars (s :: l)) p = last (map so_vars l) (so_vars s)).
  { clear. intros s l p. cbn [map]. destruct l as [|t l]; [reflexivity|]. cbn [map].
    change (last (so_vars s :: so_vars t :: map so_vars l) p) with (last (so_vars t :: map so_vars l) p).
    generalize (so_vars t) as a. generalize (map so_vars l) as k. induction k as [|b k IH]; intros a; [reflexivity|]. apply (IH b). }
  induction l as [|s l IH]; intros p; [reflexivity|]. cbn [uniq_after]. rewrite La.
  destruct (vars_eqb p (so_vars s)) eqn:E.
  - apply vars_eqb_spec in E. subst p. apply IH.
  - rewrite La. apply IH.
Qed.

Definition uniq_opt (o : option (list (nat * Z))) (l : list ssol) : list ssol :=
  match o with None => uniq l | Some p => uniq_after p l end.
Definition last_vars (l : list ssol) : option (list (nat * Z)) :=
  match rev l with [] => None | s :: _ => Some (so_vars s) end.
Lemma last_vars_app l s : last_vars (l ++ [s]) = Some (so_vars s).
Proof. unfold last_vars. rewrite rev_app_distr. reflexivity. Qed.
Lemma last_map l s p : last (map so_vars (l ++ [s])) p = so_vars s.
Proof. rewrite map_app. cbn [map]. apply last_last. Qed.
Lemma uniq_app l new : uniq (l ++ new) = uniq l ++ uniq_opt (last_vars l) new.
Proof.
  destruct l as [|s l]; [reflexivity|]. cbn [app uniq]. rewrite uniq_app_last. f_equal. f_equal.
  destruct (exists_last (l := s :: l)) as (k & t & E); [discriminate|]. rewrite E, last_vars_app. cbn [uniq_opt].
  f_equal. destruct k as [|u k]; cbn in E; injection E as -> E.
  - destruct l; [reflexivity|discriminate].
  - rewrite E. apply last_map.
Qed.
Lemma last_vars_uniq l : last_vars (uniq l) = last_vars l.
Proof.
  destruct l as [|s l]; [reflexivity|]. cbn [uniq].
  assert (G : forall k, last_vars (s :: k) = Some (last (map so_vars k) (so_vars s))).
  { intros k. destruct (exists_last (l := s :: k)) as (j & t & E); [discriminate|]. rewrite E, last_vars_app. f_equal.
    destruct j as [|u j]; cbn in E; injection E as -> E; [subst; reflexivity|]. rewrite E. symmetry. apply last_map. }
  rewrite !G, uniq_last. reflexivity.
Qed.
Lemma last_vars_last_n n l : (0 < n)%nat -> last_vars (last_n n l) = last_vars l.
Proof.
  intros Hn. destruct l as [|s l]; [destruct n; reflexivity|].
  destruct (exists_last (l := s :: l)) as (k & t & E); [discriminate|]. rewrite E. unfold last_n.
  rewrite skipn_app. rewrite app_length. cbn [length].
  replace (length k + 1 - n - length k)%nat with 0%nat by lia. cbn [skipn]. now rewrite !last_vars_app.
Qed.
Lemma no_adj_last_n n l : no_adjacent_duplicates l -> no_adjacent_duplicates (last_n n l).
Proof. apply no_adj_skipn. Qed.
Lemma skipn_skipn' {A} a b : forall l : list A, skipn a (skipn b l) = skipn (b + a) l.
Proof. induction b as [|b IH]; intros l; [reflexivity|]. destruct l; [now rewrite !skipn_nil|]. cbn [Nat.add skipn]. apply IH. Qed.
Lemma last_n_app n (l k : list ssol) : last_n n (last_n n l ++ k) = last_n n (l ++ k).
Proof.
  unfold last_n. rewrite !skipn_app, !app_length, !skipn_length.
  destruct (Nat.le_gt_cases (length l) n) as [L|L].
  - replace (length l - n)%nat with 0%nat by lia. cbn [skipn]. f_equal; f_equal; lia.
  - f_equal.
    + rewrite skipn_skipn'. f_equal. lia.
    + f_equal. lia.
Qed.

Lemma archive_off max pushes : (0 < max)%Z -> archive_run max SortOff pushes = last_n (Z.to_nat max) (uniq (concat pushes)).
Proof.
  intros Hp. unfold archive_run. induction pushes as [|new pushes IH] using rev_ind; [reflexivity|].
  rewrite concat_app, fold_left_app. cbn [concat fold_left]. rewrite app_nil_r, IH.
  set (U := uniq (concat pushes)). unfold archive_push. cbv zeta.
  assert (N : no_adjacent_duplicates (last_n (Z.to_nat max) U)) by (apply no_adj_last_n, uniq_no_adj).
  rewrite (uniq_app (concat pushes) new), (uniq_app (last_n (Z.to_nat max) U) new), (uniq_id _ N).
  assert (EU : last_vars U = last_vars (concat pushes)) by apply last_vars_uniq.
  rewrite last_vars_last_n by lia. rewrite EU. fold U.
  set (T := uniq_opt (last_vars (concat pushes)) new).
  rewrite <- (last_n_app (Z.to_nat max) U T).
  set (W := last_n (Z.to_nat max) U ++ T).
  destruct (Z.ltb_spec 0 max); [|lia]. cbn [andb].
  destruct (Z.ltb_spec max (Z.of_nat (length W))); [reflexivity|].
  unfold last_n. replace (length W - Z.to_nat max)%nat with 0%nat by lia. reflexivity.
Qed.

(** ** argmin *)
Lemma argmin_loop_spec {A} (f : A -> Q) l : forall pre b best,
  nth_error pre best = Some b -> (forall k c, nth_error pre k = Some c -> f b <= f c) ->
  (forall k c, (k < best)%nat -> nth_error pre k = Some c -> f b < f c) ->
  exists a, nth_error (pre ++ l) (argmin_loop f l (length pre) best (f b)) = Some a /\
  (forall k c, nth_error (pre ++ l) k = Some c -> f a <= f c) /\
  (forall k c, (k < argmin_loop f l (length pre) best (f b))%nat -> nth_error (pre ++ l) k = Some c -> f a < f c).
Proof.
  induction l as [|a l IH]; intros pre b best Hb Hm Hs; cbn [argmin_loop].
  - rewrite app_nil_r. exists b. auto.
  - assert (Lb : (best < length pre)%nat) by (apply nth_error_Some; congruence).
    assert (Nth : forall k c, nth_error (pre ++ [a]) k = Some c -> nth_error pre k = Some c \/ (k = length pre /\ c = a)).
    { intros k c Hk. destruct (Nat.lt_ge_cases k (length pre)) as [L|L].
      - left. now rewrite nth_error_app1 in Hk.
      - right. rewrite nth_error_app2 in Hk by exact L. destruct (k - length pre)%nat eqn:E; [|destruct n; discriminate].
        injection Hk as <-. split; [lia|reflexivity]. }
    change (pre ++ a :: l) with (pre ++ [a] ++ l). rewrite app_assoc.
    replace (S (length pre)) with (length (pre ++ [a])) by (rewrite app_length; cbn; lia).
    destruct (Qlt_le_dec (f a) (f b)) as [L|L].
    + apply (IH (pre ++ [a]) a (length pre)).
      * rewrite nth_error_app2, Nat.sub_diag by lia. reflexivity.
      * intros k c Hk. destruct (Nth k c Hk) as [H|[_ ->]]; [specialize (Hm k c H); lra|lra].
      * intros k c Hlt Hk. destruct (Nth k c Hk) as [H|[E _]]; [specialize (Hm k c H); lra|lia].
    + apply (IH (pre ++ [a]) b best).
      * now rewrite nth_error_app1.
      * intros k c Hk. destruct (Nth k c Hk) as [H|[_ ->]]; [now apply (Hm k c)|exact L].
      * intros k c Hlt Hk. destruct (Nth k c Hk) as [H|[E _]]; [now apply (Hs k c)|lia].
Qed.
Lemma argmin_index_spec {A} (f : A -> Q) l i : argmin_index f l = Some i ->
  exists a, nth_error l i = Some a /\ (forall k c, nth_error l k = Some c -> f a <= f c) /\
  (forall k c, (k < i)%nat -> nth_error l k = Some c -> f a < f c).
Proof.
  destruct l as [|a l]; [discriminate|]. cbn [argmin_index]. intros E. injection E as <-.
  apply (argmin_loop_spec f l [a] a 0%nat); [reflexivity| |intros; lia].
  intros [|[|k]] c Hk; try discriminate. injection Hk as <-. lra.
Qed.
Lemma argmax_loop_neg {A} (f : A -> Q) l : forall i best bv,
  argmax_loop f l i best bv = argmin_loop (fun a => - f a) l i best (- bv).
Proof.
  induction l as [|a l IH]; intros i best bv; cbn [argmax_loop argmin_loop]; [reflexivity|].
  destruct (Qlt_le_dec bv (f a)), (Qlt_le_dec (- f a) (- bv)); try lra; apply IH.
Qed.
Lemma argmax_index_spec {A} (f : A -> Q) l i : argmax_index f l = Some i ->
  exists a, nth_error l i = Some a /\ (forall k c, nth_error l k = Some c -> f c <= f a) /\
  (forall k c, (k < i)%nat -> nth_error l k = Some c -> f c < f a).
Proof.
  intros H. assert (H' : argmin_index (fun a => - f a) l = Some i).
  { destruct l as [|a l]; [discriminate|]. cbn [argmax_index argmin_index] in *. now rewrite <- argmax_loop_neg. }
  destruct (argmin_index_spec _ _ _ H') as (a & H1 & H2 & H3). exists a. split; [exact H1|].
  split; intros; [specialize (H2 k c H0); lra|specialize (H3 k c H0 H4); lra].
Qed.

Lemma uniq_without_repeats l : uniq l = without_repeats l.
Proof.
  assert (A : forall l p, uniq_after p l = map snd (filter (fun p : option (list (nat * Z)) * ssol =>
                     match fst p with Some v => negb (vars_eqb v (so_vars (snd p))) | None => true end)
                  (combine (Some p :: map (fun s => Some (so_vars s)) l) l))).
  { clear l. induction l as [|s l IH]; intros p; [reflexivity|].
    cbn [uniq_after map combine filter fst snd]. destruct (vars_eqb p (so_vars s)) eqn:E; cbn [negb].
    - apply vars_eqb_spec in E. subst p. apply IH.
    - cbn [map snd]. f_equal. apply IH. }
  destruct l as [|s l]; [reflexivity|]. unfold without_repeats. cbn [uniq map combine filter fst snd]. f_equal. apply A.
Qed.
Lemma archive_off_spec max pushes : (0 < max)%Z ->
  archive_run max SortOff pushes = last_n (Z.to_nat max) (without_repeats (concat pushes)).
Proof. intros H. rewrite <- uniq_without_repeats. now apply archive_off. Qed.

Lemma argmin_index_total (A : Type) (f : A -> Q) (l : list A) : l <> [] -> exists i, argmin_index f l = Some i /\
  exists a, nth_error l i = Some a /\ (forall k c, nth_error l k = Some c -> f a <= f c) /\
  (forall k c, (k < i)%nat -> nth_error l k = Some c -> f a < f c).
Proof.
  intros N. destruct (argmin_index f l) as [i|] eqn:E; [|destruct l; [congruence|discriminate E]].
  exists i. split; [reflexivity|]. now apply argmin_index_spec.
Qed.

Lemma argmax_index_total (A : Type) (f : A -> Q) (l : list A) : l <> [] -> exists i, argmax_index f l = Some i /\
  exists a, nth_error l i = Some a /\ (forall k c, nth_error l k = Some c -> f c <= f a) /\
  (forall k c, (k < i)%nat -> nth_error l k = Some c -> f c < f a).
Proof.
  intros N. destruct (argmax_index f l) as [i|] eqn:E; [|destruct l; [congruence|discriminate E]].
  exists i. split; [reflexivity|]. now apply argmax_index_spec.
Qed.

(** * The dual bound *)
Lemma dual_run S es : forall h : holder S,
  let d m := ho_dual (fold_left (h_step m) es h) in
  ((d true = ho_dual h \/ In (OfferDual (d true)) es) /\ ho_dual h <= d true /\ (forall b, In (OfferDual b) es -> b <= d true)) /\
  ((d false = ho_dual h \/ exists b, In (OfferDual b) es /\ d false = - b) /\ d false <= ho_dual h /\ (forall b, In (OfferDual b) es -> d false <= - b)).
Proof.
  induction es as [|e tl IH]; intros h; cbn [fold_left].
  { cbv zeta. split; (split; [left; reflexivity|split; [lra|intros b []]]). }
  cbv zeta. destruct (IH (h_step true h e)) as [(T1 & T2 & T3) _]. destruct (IH (h_step false h e)) as [_ (F1 & F2 & F3)].
  set (dt := ho_dual (fold_left (h_step true) tl (h_step true h e))) in *. set (df := ho_dual (fold_left (h_step false) tl (h_step false h e))) in *.
  assert (Keep : forall m, (forall b, e <> OfferDual b) -> ho_dual (h_step m h e) = ho_dual h).
  { intros m N. destruct e as [sol sc| |b]; [|reflexivity|now destruct (N b)]. cbn [h_step]. unfold try_update. destruct (try_slot _ _ _ (ho_local h)), (try_slot _ _ _ (ho_global h)).
    destruct (sc_feasible sc); [destruct (try_slot _ _ _ (ho_feasible h))|]; reflexivity. }
  destruct e as [sol sc| |b].
  1, 2: rewrite Keep in T1, T2 by discriminate; rewrite Keep in F1, F2 by discriminate; split;
    [split; [destruct T1; [auto|right; right; auto]|split; [exact T2|intros b [E|H]; [discriminate E|auto]]]
    |split; [destruct F1 as [F1|(b & F1 & E)]; [auto|right; exists b; split; [right; exact F1|exact E]]|split; [exact F2|intros b [E|H]; [discriminate E|auto]]]].
  cbn [h_step offer_dual ho_dual] in T1, T2, F1, F2.
  split.
  - destruct (Qlt_le_dec (ho_dual h) b) as [L|L]; (split; [|split; [lra|]]).
    + destruct T1 as [T1|T1]; [right; left; now rewrite T1|right; right; exact T1].
    + intros b' [E|H]; [injection E as ->; exact T2|auto].
    + destruct T1 as [T1|T1]; [left; exact T1|right; right; exact T1].
    + intros b' [E|H]; [injection E as ->; lra|auto].
  - destruct (Qlt_le_dec (- b) (ho_dual h)) as [L|L]; (split; [|split; [lra|]]).
    + destruct F1 as [F1|(b' & F1 & E)]; [right; exists b; split; [now left|exact F1]|right; exists b'; split; [now right|exact E]].
    + intros b' [E|H]; [injection E as ->; exact F2|auto].
    + destruct F1 as [F1|(b' & F1 & E)]; [left; exact F1|right; exists b'; split; [now right|exact E]].
    + intros b' [E|H]; [injection E as ->; lra|auto].
Qed.
