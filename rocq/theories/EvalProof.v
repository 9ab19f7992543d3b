From Coq Require Import List ZArith QArith Qabs Bool Lia Lqa Permutation.
From Verif Require Import ExprModel ExprSpec ExprProof ConstraintModel ConstraintSpec ConstraintProof EvalModel EvalSpec.
Import ListNotations.
Local Open Scope Q_scope.

(** * Sums *)
Fixpoint sumf {A} (f : A -> Q) (l : list A) : Q := match l with [] => 0 | a :: tl => f a + sumf f tl end.

Lemma sumf_perm {A} (f : A -> Q) l l' : Permutation l l' -> sumf f l == sumf f l'.
Proof. induction 1; cbn; lra. Qed.
Lemma sumf_ext {A} (f g : A -> Q) l : (forall a, In a l -> f a == g a) -> sumf f l == sumf g l.
Proof.
  induction l as [|a tl IH]; cbn; intros H; [lra|]. rewrite (H a) by now left.
  rewrite IH by (intros; apply H; now right). lra.
Qed.
Lemma sumf_app {A} (f : A -> Q) l l' : sumf f (l ++ l') == sumf f l + sumf f l'.
Proof. induction l as [|a tl IH]; cbn; [lra|].  rewrite IH. lra. Qed.
Lemma sumf_zero {A} (f : A -> Q) l : (forall a, In a l -> f a == 0) -> sumf f l == 0.
Proof.
  intros H. rewrite (sumf_ext f (fun _ => 0) l H). induction l as [|a tl IH]; cbn; [lra|].
   rewrite IH; [lra|]. intros; apply H; now right.
Qed.
Lemma sumf_map {A B} (f : B -> Q) (g : A -> B) l : sumf f (map g l) == sumf (fun a => f (g a)) l.
Proof. induction l as [|a tl IH]; cbn; [lra|].  rewrite IH. reflexivity. Qed.
Lemma sumf_filter_nonzero {A} (f : A -> Q) l : sumf f (filter (fun a => negb (Qeq_bool (f a) 0)) l) == sumf f l.
Proof.
  induction l as [|a tl IH]; cbn [filter]; [reflexivity|].
  destruct (Qeq_bool (f a) 0) eqn:E; cbn [negb].
  - apply Qeq_bool_eq in E. rewrite IH. cbn.  lra.
  - cbn.  rewrite IH. lra.
Qed.
Lemma sumf_cover (f : nat -> Q) l l' : NoDup l -> NoDup l' ->
  (forall i, In i l -> ~ In i l' -> f i == 0) -> (forall i, In i l' -> ~ In i l -> f i == 0) ->
  sumf f l == sumf f l'.
Proof.
  intros N N' H H'. rewrite <- (sumf_filter_nonzero f l), <- (sumf_filter_nonzero f l').
  apply sumf_perm, NoDup_Permutation; try now apply NoDup_filter.
  intros i. rewrite !filter_In. split; intros [Hi Hz]; (split; [|exact Hz]).
  - destruct (in_dec Nat.eq_dec i l'); [assumption|]. rewrite (proj2 (Qeq_bool_iff _ _) (H i Hi n)) in Hz. discriminate.
  - destruct (in_dec Nat.eq_dec i l); [assumption|]. rewrite (proj2 (Qeq_bool_iff _ _) (H' i Hi n)) in Hz. discriminate.
Qed.

(** Change of a sum over the enabled constraints, by index. *)
Definition at_index (cons : list constr) (f : constr -> Q) (i : nat) : Q :=
  match nth_error cons i with Some c => if ct_enabled c then f c else 0 | None => 0 end.

Lemma sum_enabled_index f cons : sum_enabled f cons == sumf (at_index cons f) (seq 0 (length cons)).
Proof.
  induction cons as [|c tl IH]; cbn [sum_enabled length seq]; [reflexivity|].
  cbn [sumf fold_right at_index nth_error]. 
  rewrite <- seq_shift, sumf_map.
  rewrite (sumf_ext (fun i => at_index (c :: tl) f (S i)) (at_index tl f)) by reflexivity.
  rewrite IH. reflexivity.
Qed.
Lemma sum_enabled_minus f g cons : sum_enabled (fun c => f c - g c) cons == sum_enabled f cons - sum_enabled g cons.
Proof. induction cons as [|c tl IH]; cbn [sum_enabled]; [lra|]. rewrite IH. destruct (ct_enabled c); lra. Qed.
Lemma sum_enabled_ext f g cons : (forall c, In c cons -> ct_enabled c = true -> f c == g c) ->
  sum_enabled f cons == sum_enabled g cons.
Proof.
  induction cons as [|c tl IH]; cbn [sum_enabled]; intros H; [lra|].
  rewrite IH by (intros; apply H; [now right|assumption]).
  destruct (ct_enabled c) eqn:E; [|lra]. rewrite (H c (or_introl eq_refl) E). lra.
Qed.
Lemma sum_by_cover f g cons L : NoDup L ->
  (forall i c, nth_error cons i = Some c -> ct_enabled c = true -> ~ In i L -> f c == g c) ->
  sum_enabled f cons == sum_enabled g cons + sumf (at_index cons (fun c => f c - g c)) L.
Proof.
  intros N H.
  assert (E : sumf (at_index cons (fun c => f c - g c)) L == sum_enabled (fun c => f c - g c) cons).
  { rewrite sum_enabled_index. apply sumf_cover; [exact N|apply seq_NoDup| |].
    - intros i _ Hi. unfold at_index. destruct (nth_error cons i) eqn:E; [|reflexivity].
      exfalso. apply Hi, in_seq. split; [lia|]. cbn. apply nth_error_Some. congruence.
    - intros i _ Hi. unfold at_index. destruct (nth_error cons i) as [c|] eqn:E; [|reflexivity].
      destruct (ct_enabled c) eqn:Ee; [|reflexivity]. rewrite (H i c E Ee Hi). lra. }
  rewrite E, sum_enabled_minus. lra.
Qed.

(** * Violations as functions of the constraint value *)
Definition vfun (c : constr) (v : Q) : Q :=
  (if ct_le c then qmax v 0 else 0) + (if ct_ge c then qmax (- v) 0 else 0).
Definition pfun (c : constr) (v : Q) : Q :=
  (if ct_le c then qmax v 0 * ct_pen_less c else 0) + (if ct_ge c then qmax (- v) 0 * ct_pen_greater c else 0).

Global Instance vfun_comp c : Proper (Qeq ==> Qeq) (vfun c).
Proof. intros a b H. unfold vfun. destruct (ct_le c), (ct_ge c); rewrite ?H; reflexivity. Qed.
Global Instance pfun_comp c : Proper (Qeq ==> Qeq) (pfun c).
Proof. intros a b H. unfold pfun. destruct (ct_le c), (ct_ge c); rewrite ?H; reflexivity. Qed.

Lemma above_qmax c x : above c x == qmax (e_eval (ct_expr c) x) 0.
Proof. unfold above. destruct (Qlt_le_dec _ _), (qmax_spec (e_eval (ct_expr c) x) 0) as [[? E]|[? E]]; rewrite E; lra. Qed.
Lemma below_qmax c x : below c x == qmax (- e_eval (ct_expr c) x) 0.
Proof. unfold below. destruct (Qlt_le_dec _ _), (qmax_spec (- e_eval (ct_expr c) x) 0) as [[? E]|[? E]]; rewrite E; lra. Qed.
Lemma viol_vfun c x : viol c x == vfun c (e_eval (ct_expr c) x).
Proof. unfold viol, vfun, ct_le, ct_ge. destruct (ct_sense c); rewrite ?above_qmax, ?below_qmax; lra. Qed.
Lemma penalty_pfun c x : penalty c x == pfun c (e_eval (ct_expr c) x).
Proof. unfold penalty, pfun, ct_le, ct_ge. destruct (ct_sense c); rewrite ?above_qmax, ?below_qmax; lra. Qed.

(** * finish *)
Lemma finish_scores md x m tv lp fi : consistent md x -> proper m ->
  tv == sum_enabled (fun c => viol c (apply_move x m)) (md_cons md) ->
  lp == sum_enabled (fun c => penalty c (apply_move x m)) (md_cons md) ->
  scores md x (apply_move x m) (finish md x m tv lp fi).
Proof.
  intros (_ & Hwo & _ & Hobj) Hp Htv Hlp. unfold scores, finish.
  cbn [sc_objective sc_improvement sc_violation sc_local sc_global sc_local_aug sc_global_aug sc_feasible sc_obj_improvable].
  set (o' := if md_defined md then e_eval_move _ _ x m * md_sign md else 0).
  set (i' := if md_defined md then md_obj_value md * md_sign md - o' else 0).
  set (o := if md_defined md then md_sign md * e_eval (md_obj md) (apply_move x m) else 0).
  set (b := if md_defined md then md_sign md * e_eval (md_obj md) x else 0).
  assert (Eo : o' == o).
  { unfold o', o. destruct (md_defined md); [|reflexivity]. destruct (Hobj eq_refl) as [H1 H2].
    rewrite (e_eval_move_correct _ _ x m Hwo Hp H1). lra. }
  assert (Ei : i' == b - o).
  { unfold i', b. destruct (md_defined md) eqn:Ed.
    - destruct (Hobj eq_refl) as [H1 H2]. rewrite Eo, H2. lra.
    - unfold o. lra. }
  clearbody o' i'. split; [exact Eo|]. split; [exact Ei|]. split; [exact Htv|]. split; [exact Hlp|].
  split; [now rewrite Htv|]. split; [rewrite Eo, Hlp; lra|]. split; [rewrite Eo, Htv; lra|]. split.
  - destruct (Qlt_le_dec EPS tv); cbn [negb]; split; intros; try discriminate; try reflexivity; lra.
  - destruct (Qlt_le_dec EPS i'); split; intros; try discriminate; try reflexivity; lra.
Qed.

(** * Full evaluation *)
Lemma agrees_value c x m : wf (ct_expr c) -> agrees c x -> proper m ->
  c_eval_move c x m == e_eval (ct_expr c) (apply_move x m).
Proof. intros W A Hp. apply e_eval_move_correct; [exact W|exact Hp|apply A]. Qed.

Lemma full_step_spec x m c tv lp fi : ct_enabled c = true -> wf (ct_expr c) -> agrees c x -> proper m ->
  let '(tv', lp', _) := eval_full_step x m (tv, lp, fi) c in
  tv' == tv + viol c (apply_move x m) /\ lp' == lp + penalty c (apply_move x m).
Proof.
  intros He W A Hp. pose proof (agrees_value c x m W A Hp) as Hv.
  pose proof (viol_vfun c (apply_move x m)) as Ev. pose proof (penalty_pfun c (apply_move x m)) as Ep.
  rewrite <- Hv in Ev, Ep. unfold vfun in Ev. unfold pfun in Ep.
  unfold eval_full_step. rewrite He.
  destruct (ct_le c), (ct_ge c); split; lra.
Qed.

Lemma full_fold x m cons : proper m -> (forall c, In c cons -> wf (ct_expr c)) ->
  (forall c, In c cons -> ct_enabled c = true -> agrees c x) -> forall tv lp fi,
  let '(tv', lp', _) := fold_left (eval_full_step x m) cons (tv, lp, fi) in
  tv' == tv + sum_enabled (fun c => viol c (apply_move x m)) cons /\
  lp' == lp + sum_enabled (fun c => penalty c (apply_move x m)) cons.
Proof.
  intros Hp. induction cons as [|c tl IH]; intros W A tv lp fi; cbn [fold_left sum_enabled]; [split; lra|].
  destruct (ct_enabled c) eqn:Ec.
  - pose proof (full_step_spec x m c tv lp fi Ec (W c (or_introl eq_refl)) (A c (or_introl eq_refl) Ec) Hp) as Hs.
    destruct (eval_full_step x m (tv, lp, fi) c) as [[tv1 lp1] fi1].
    specialize (IH (fun d H => W d (or_intror H)) (fun d H => A d (or_intror H)) tv1 lp1 fi1).
    destruct (fold_left _ tl _) as [[tv2 lp2] fi2]. destruct Hs, IH. split; lra.
  - unfold eval_full_step at 2. rewrite Ec.
    specialize (IH (fun d H => W d (or_intror H)) (fun d H => A d (or_intror H)) tv lp fi).
    destruct (fold_left _ tl _) as [[tv2 lp2] fi2]. destruct IH. split; lra.
Qed.

Lemma full_correct md x m : consistent md x -> proper m -> scores md x (apply_move x m) (evaluate md x m).
Proof.
  intros C Hp. unfold evaluate.
  pose proof (full_fold x m (md_cons md) Hp (proj1 C) (proj1 (proj2 (proj2 C))) 0 0 false) as H.
  destruct (fold_left _ _ _) as [[tv lp] fi]. destruct H as [H1 H2].
  apply finish_scores; [exact C|exact Hp|rewrite H1; lra|rewrite H2; lra].
Qed.

(** The feasibility-improvable flag of the full evaluation. *)
Definition side_improves (c : constr) (x x' : nat -> Z) : Prop :=
  (ct_le c = true /\ above c x' + EPS < above c x) \/ (ct_ge c = true /\ below c x' + EPS < below c x).

Lemma full_fold_flag x m cons : proper m -> (forall c, In c cons -> wf (ct_expr c)) ->
  (forall c, In c cons -> ct_enabled c = true -> agrees c x) -> forall tv lp fi,
  let '(_, _, fi') := fold_left (eval_full_step x m) cons (tv, lp, fi) in
  fi' = true <-> fi = true \/ exists c, In c cons /\ ct_enabled c = true /\ side_improves c x (apply_move x m).
Proof.
  intros Hp. induction cons as [|c tl IH]; intros W A tv lp fi; cbn [fold_left].
  - split; [auto|]. intros [H|(c & [] & _)]. exact H.
  - assert (IH' := IH (fun d H => W d (or_intror H)) (fun d H => A d (or_intror H))). clear IH.
    destruct (ct_enabled c) eqn:Ec.
    + pose proof (A c (or_introl eq_refl) Ec) as Ac.
      pose proof (agrees_value c x m (W c (or_introl eq_refl)) Ac Hp) as Hv.
      destruct Ac as (_ & _ & Ap & An & _).
      destruct (eval_full_step x m (tv, lp, fi) c) as [[tv1 lp1] fi1] eqn:Es.
      specialize (IH' tv1 lp1 fi1). destruct (fold_left _ tl _) as [[tv2 lp2] fi2]. rewrite IH'. clear IH'.
      assert (Hf : fi1 = true <-> fi = true \/ side_improves c x (apply_move x m)).
      { unfold eval_full_step in Es. rewrite Ec in Es. unfold side_improves.
        rewrite !above_qmax, !below_qmax, <- Hv, <- Ap, <- An.
        destruct (ct_le c), (ct_ge c); injection Es as _ _ <-; rewrite ?orb_true_iff;
          repeat match goal with |- context [Qlt_le_dec ?a ?b] => destruct (Qlt_le_dec a b) end;
          intuition (try discriminate; try lra). }
      rewrite Hf. split.
      * intros [[H|H]|(d & Hd & R)]; [now left|right; exists c; intuition|right; exists d; intuition].
      * intros [H|(d & [->|Hd] & He & R)]; [now left; left|now left; right|right; eauto].
    + unfold eval_full_step at 2. rewrite Ec. specialize (IH' tv lp fi).
      destruct (fold_left _ tl _) as [[tv2 lp2] fi2]. rewrite IH'. split.
      * intros [H|(d & Hd & R)]; [now left|right; exists d; intuition].
      * intros [H|(d & [->|Hd] & He & R)]; [now left|congruence|right; eauto].
Qed.
Lemma full_flag md x m : consistent md x -> proper m ->
  (sc_feas_improvable (evaluate md x m) = true <->
   exists c, In c (md_cons md) /\ ct_enabled c = true /\ side_improves c x (apply_move x m)).
Proof.
  intros C Hp. unfold evaluate.
  pose proof (full_fold_flag x m (md_cons md) Hp (proj1 C) (proj1 (proj2 (proj2 C))) 0 0 false) as H.
  destruct (fold_left _ _ _) as [[tv lp] fi]. unfold finish. cbn [sc_feas_improvable]. rewrite H. split.
  - intros [E|E]; [discriminate|exact E].
  - now right.
Qed.

(** * Constraint sensitivities of a variable *)
Lemma sens_entry cons v : forall k i a,
  In (i, a) (flat_map (fun ic =>
    map (fun p => (fst ic, snd p)) (filter (fun p => Nat.eqb (fst p) v) (ex_sens (ct_expr (snd ic)))))
    (combine (seq k (length cons)) cons)) <->
  exists c, nth_error cons (i - k) = Some c /\ (k <= i)%nat /\ In (v, a) (ex_sens (ct_expr c)).
Proof.
  induction cons as [|c tl IH]; intros k i a; cbn [length seq combine flat_map].
  - split; [intros []|]. intros (c & H & _). destruct (i - k)%nat; discriminate.
  - rewrite in_app_iff, IH. cbn [fst snd]. rewrite in_map_iff. split.
    + intros [((w & b) & E & Hin)|(d & Hd & Hk & Hin)].
      * injection E as <- <-. apply filter_In in Hin as [Hin Hw]. cbn in Hw. apply Nat.eqb_eq in Hw. subst w.
        exists c. rewrite Nat.sub_diag. cbn. auto.
      * exists d. replace (i - k)%nat with (S (i - S k)) by lia. cbn. intuition lia.
    + intros (d & Hd & Hk & Hin). destruct (Nat.eq_dec i k) as [->|N].
      * left. rewrite Nat.sub_diag in Hd. cbn in Hd. injection Hd as ->. exists (v, a). split; [reflexivity|].
        apply filter_In. cbn. now rewrite Nat.eqb_refl.
      * right. exists d. replace (i - k)%nat with (S (i - S k)) in Hd by lia. cbn in Hd. intuition lia.
Qed.
Lemma sens_entry0 cons v i a : In (i, a) (constraint_sensitivities cons v) <->
  exists c, nth_error cons i = Some c /\ In (v, a) (ex_sens (ct_expr c)).
Proof.
  unfold constraint_sensitivities. rewrite sens_entry. rewrite Nat.sub_0_r. split; intros (c & H); exists c; intuition lia.
Qed.

Lemma filter_key_le1 (s : sens) v : NoDup (map fst s) ->
  (length (filter (fun p => Nat.eqb (fst p) v) s) <= 1)%nat.
Proof.
  induction s as [|[w d] tl IH]; intros H; cbn [filter length fst]; [lia|].
  inversion H as [|? ? Hni Hnd]; subst. destruct (Nat.eqb_spec w v) as [->|]; [|auto].
  assert (E : filter (fun p => Nat.eqb (fst p) v) tl = []).
  { clear -Hni. induction tl as [|[u b] t IH]; cbn [filter fst map] in *; [reflexivity|].
    cbn [In] in Hni. destruct (Nat.eqb_spec u v) as [->|]; [tauto|apply IH; tauto]. }
  rewrite E. cbn. lia.
Qed.
Lemma sens_nodup cons v : (forall c, In c cons -> wf (ct_expr c)) -> NoDup (map fst (constraint_sensitivities cons v)).
Proof.
  unfold constraint_sensitivities. generalize 0%nat. induction cons as [|c tl IH]; intros k W; cbn [length seq combine flat_map map]; [constructor|].
  rewrite map_app. cbn [fst snd].
  pose proof (filter_key_le1 (ex_sens (ct_expr c)) v (W c (or_introl eq_refl))) as Hl.
  specialize (IH (S k) (fun d H => W d (or_intror H))).
  destruct (filter _ (ex_sens (ct_expr c))) as [|p [|q r]]; cbn [map app fst length] in *; [exact IH| |lia].
  constructor; [|exact IH]. intros Hin. apply in_map_iff in Hin as ((i & a) & E & Hin). cbn in E. subst i.
  apply sens_entry in Hin as (d & _ & Hk & _). lia.
Qed.

(** * Single *)
Definition diff_at (cons : list constr) (f : constr -> Q -> Q) (x x' : nat -> Z) (i : nat) : Q :=
  at_index cons (fun c => f c (e_eval (ct_expr c) x') - f c (e_eval (ct_expr c) x)) i.

Lemma fold_pair {A} (f : Q * Q -> A -> Q * Q) (g h : A -> Q) l :
  (forall a tv lp, In a l -> fst (f (tv, lp) a) == tv + g a /\ snd (f (tv, lp) a) == lp + h a) ->
  forall tv lp, fst (fold_left f l (tv, lp)) == tv + sumf g l /\ snd (fold_left f l (tv, lp)) == lp + sumf h l.
Proof.
  induction l as [|a tl IH]; intros H tv lp; cbn [fold_left sumf fold_right fst snd]; [split; lra|].
  destruct (H a tv lp (or_introl eq_refl)) as [H1 H2].
  destruct (f (tv, lp) a) as [tv1 lp1]. cbn [fst snd] in H1, H2.
  destruct (IH (fun b t l Hb => H b t l (or_intror Hb)) tv1 lp1) as [H3 H4].
   split; lra.
Qed.

Lemma single_step_spec skip cons diff i a c tv lp : nth_error cons i = Some c -> skip c = false ->
  forall x, agrees c x ->
  fst (single_step skip cons diff (tv, lp) (i, a)) == tv + (vfun c (e_eval (ct_expr c) x + a * inject_Z diff) - vfun c (e_eval (ct_expr c) x)) /\
  snd (single_step skip cons diff (tv, lp) (i, a)) == lp + (pfun c (e_eval (ct_expr c) x + a * inject_Z diff) - pfun c (e_eval (ct_expr c) x)).
Proof.
  intros Hn Hs x (_ & Av & Ap & An & _). unfold single_step. cbn [fst snd]. rewrite Hn, Hs.
  set (w := ct_value c + a * inject_Z diff).
  assert (Ew : e_eval (ct_expr c) x + a * inject_Z diff == w) by (unfold w; rewrite Av; lra).
  rewrite Ew. unfold vfun, pfun.
  assert (En : qmin w 0 == - qmax (- w) 0) by (rewrite <- neg_qmin; lra).
  destruct (ct_le c), (ct_ge c); cbn [fst snd]; rewrite ?En, ?Ap, ?An; split; lra.
Qed.

(** A flagged constraint has zero violation before and after. *)
Lemma vfun_zero c v : (ct_le c = true -> v <= 0) -> (ct_ge c = true -> 0 <= v) -> vfun c v == 0 /\ pfun c v == 0.
Proof.
  intros H1 H2. unfold vfun, pfun.
  assert (ct_le c = true -> qmax v 0 == 0).
  { intros H. specialize (H1 H). destruct (qmax_spec v 0) as [[? E]|[? E]]; rewrite E; lra. }
  assert (ct_ge c = true -> qmax (- v) 0 == 0).
  { intros H'. specialize (H2 H'). destruct (qmax_spec (- v) 0) as [[? E]|[? E]]; rewrite E; lra. }
  destruct (ct_le c), (ct_ge c); rewrite ?H, ?H0 by reflexivity; split; lra.
Qed.

Lemma abs_step a d : (Z.abs d <= 1)%Z -> Qabs (a * inject_Z d) <= Qabs a.
Proof.
  intros H. rewrite Qabs_Qmult.
  assert (Qabs (inject_Z d) <= 1).
  { assert (d = 0 \/ d = 1 \/ d = -1)%Z as [->|[->| ->]] by lia; vm_compute; discriminate. }
  pose proof (Qabs_nonneg a). nra.
Qed.

Lemma eval_single_value c x v n : wf (ct_expr c) ->
  e_eval (ct_expr c) (apply_move x [(v, n)]) == e_eval (ct_expr c) x + coef (ex_sens (ct_expr c)) v * inject_Z (n - x v).
Proof.
  intros W. rewrite !eval_lin, (lin_apply _ [(v, n)] W x) by (repeat constructor; intros []). cbn [delta]. lra.
Qed.

Lemma margin_zero c x a d : Qabs a <= ct_margin c -> (Z.abs d <= 1)%Z ->
  ct_margin c == match ct_sense c with Less => below c x | Equal => 0 | Greater => above c x end ->
  (vfun c (e_eval (ct_expr c) x + a * inject_Z d) - vfun c (e_eval (ct_expr c) x) == 0 /\
   pfun c (e_eval (ct_expr c) x + a * inject_Z d) - pfun c (e_eval (ct_expr c) x) == 0).
Proof.
  intros Ha Hd Hm. pose proof (abs_step a d Hd) as Hs. pose proof (Qabs_nonneg a) as Hn.
  set (v := e_eval (ct_expr c) x) in *. set (t := a * inject_Z d) in *.
  assert (Hle : t <= Qabs t) by apply Qle_Qabs.
  assert (Hge : - t <= Qabs t) by (rewrite <- Qabs_opp; apply Qle_Qabs).
  destruct (Qlt_le_dec 0 (ct_margin c)) as [Hp|Hp].
  - assert (Z1 : (ct_le c = true -> v <= 0) /\ (ct_ge c = true -> 0 <= v)
               /\ (ct_le c = true -> v + t <= 0) /\ (ct_ge c = true -> 0 <= v + t)).
    { unfold below, above in Hm. fold v in Hm. unfold ct_le, ct_ge. destruct (ct_sense c).
      - destruct (Qlt_le_dec v 0); [|lra]. repeat split; intros; try discriminate; lra.
      - lra.
      - destruct (Qlt_le_dec 0 v); [|lra]. repeat split; intros; try discriminate; lra. }
    destruct Z1 as (Z1 & Z2 & Z3 & Z4).
    destruct (vfun_zero c v Z1 Z2) as [E1 E2], (vfun_zero c (v + t) Z3 Z4) as [E3 E4].
    rewrite E1, E2, E3, E4. split; lra.
  - assert (Et : t == 0) by lra.
    assert (Ev : v + t == v) by lra. rewrite Ev. split; lra.
Qed.

Lemma in_coef s v a : NoDup (map fst s) -> In (v, a) s -> coef s v = a.
Proof. intros W H. unfold coef. now rewrite (in_find s v a W H). Qed.
Lemma coef_absent s v : ~ In v (map fst s) -> coef s v = 0.
Proof. intros H. unfold coef. apply find_none in H. now rewrite H. Qed.

Lemma lin_unchanged e x v n : ~ In v (keys e) -> wf e -> e_eval e (apply_move x [(v, n)]) == e_eval e x.
Proof.
  intros H W. rewrite !eval_lin, (lin_apply _ [(v, n)] W x) by (repeat constructor; intros []). cbn [delta].
  rewrite (coef_absent _ _ H). lra.
Qed.

(** Sum of the changes over a permutation of the variable's sensitivities. *)
Lemma single_fold skip md x v n cs : consistent md x ->
  Permutation cs (constraint_sensitivities (md_cons md) v) ->
  (forall i c a, nth_error (md_cons md) i = Some c -> In (v, a) (ex_sens (ct_expr c)) -> skip c = true ->
     ct_enabled c = true ->
     vfun c (e_eval (ct_expr c) (apply_move x [(v, n)])) - vfun c (e_eval (ct_expr c) x) == 0 /\
     pfun c (e_eval (ct_expr c) (apply_move x [(v, n)])) - pfun c (e_eval (ct_expr c) x) == 0) ->
  (forall c, ct_enabled c = false -> skip c = true) ->
  forall tv lp,
  let r := fold_left (single_step skip (md_cons md) (n - x v)) cs (tv, lp) in
  fst r == tv + sumf (diff_at (md_cons md) vfun x (apply_move x [(v, n)])) (map fst cs) /\
  snd r == lp + sumf (diff_at (md_cons md) pfun x (apply_move x [(v, n)])) (map fst cs).
Proof.
  intros C Hperm Hskip Hdis tv lp. cbv zeta. rewrite !sumf_map. apply fold_pair.
  intros (i & a) tv' lp' Hin.
  apply (Permutation_in _ Hperm) in Hin. apply sens_entry0 in Hin as (c & Hn & Hin).
  assert (Hc : In c (md_cons md)) by (eapply nth_error_In; eassumption).
  pose proof (proj1 C c Hc) as W.
  unfold diff_at, at_index. cbn [fst]. rewrite Hn.
  destruct (ct_enabled c) eqn:Ee.
  - destruct (skip c) eqn:Es.
    + destruct (Hskip i c a Hn Hin Es Ee) as [E1 E2]. unfold single_step. cbn [fst snd]. rewrite Hn, Es. cbn [fst snd].
      rewrite E1, E2. split; lra.
    + destruct (single_step_spec skip (md_cons md) (n - x v) i a c tv' lp' Hn Es x
                  (proj1 (proj2 (proj2 C)) c Hc Ee)) as [E1 E2].
      rewrite E1, E2. rewrite (eval_single_value c x v n W), (in_coef _ _ _ W Hin). split; lra.
  - unfold single_step. cbn [fst snd]. rewrite Hn, (Hdis c Ee). cbn [fst snd]. split; lra.
Qed.

Lemma diff_at_index cons f x x' i : diff_at cons f x x' i =
  at_index cons (fun c => f c (e_eval (ct_expr c) x') - f c (e_eval (ct_expr c) x)) i.
Proof. reflexivity. Qed.

Lemma sum_viol_cover cons x x' L : NoDup L ->
  (forall i c, nth_error cons i = Some c -> ct_enabled c = true -> ~ In i L ->
     e_eval (ct_expr c) x' == e_eval (ct_expr c) x) ->
  sum_enabled (fun c => viol c x') cons == sum_enabled (fun c => viol c x) cons + sumf (diff_at cons vfun x x') L /\
  sum_enabled (fun c => penalty c x') cons == sum_enabled (fun c => penalty c x) cons + sumf (diff_at cons pfun x x') L.
Proof.
  intros N H.
  rewrite (sum_enabled_ext (fun c => viol c x') (fun c => vfun c (e_eval (ct_expr c) x'))) by (intros; apply viol_vfun).
  rewrite (sum_enabled_ext (fun c => viol c x) (fun c => vfun c (e_eval (ct_expr c) x))) by (intros; apply viol_vfun).
  rewrite (sum_enabled_ext (fun c => penalty c x') (fun c => pfun c (e_eval (ct_expr c) x'))) by (intros; apply penalty_pfun).
  rewrite (sum_enabled_ext (fun c => penalty c x) (fun c => pfun c (e_eval (ct_expr c) x))) by (intros; apply penalty_pfun).
  split.
  - apply (sum_by_cover _ _ cons L N). intros i c Hn He Hi. now rewrite (H i c Hn He Hi).
  - apply (sum_by_cover _ _ cons L N). intros i c Hn He Hi. now rewrite (H i c Hn He Hi).
Qed.

Lemma occurs_dec v (e : expr) : {In v (keys e)} + {~ In v (keys e)}.
Proof. apply in_dec, Nat.eq_dec. Qed.

Lemma not_listed_absent cons v cs i c : Permutation cs (constraint_sensitivities cons v) ->
  nth_error cons i = Some c -> ~ In i (map fst cs) -> ~ In v (keys (ct_expr c)).
Proof.
  intros Hp Hn Hi Hin. apply Hi. apply in_map_iff in Hin as ((w & a) & E & Hin). cbn in E. subst w.
  apply (Permutation_in i (Permutation_map fst (Permutation_sym Hp))).
  apply in_map_iff. exists (i, a). split; [reflexivity|]. apply sens_entry0. eauto.
Qed.

Lemma single_correct md x v n cs cur : consistent md x -> current md x cur ->
  Permutation cs (constraint_sensitivities (md_cons md) v) -> margin_truthful md x v n ->
  scores md x (apply_move x [(v, n)]) (evaluate_single md x (v, n) cs cur).
Proof.
  intros C (Ctv & Clp) Hperm Hm. unfold evaluate_single. cbn [fst snd].
  pose proof (single_fold c_ignorable md x v n cs C Hperm) as H.
  destruct (fold_left _ _ _) as [tv lp] eqn:Ef.
  assert (H' : tv == sc_violation cur + sumf (diff_at (md_cons md) vfun x (apply_move x [(v, n)])) (map fst cs) /\
               lp == sc_local cur + sumf (diff_at (md_cons md) pfun x (apply_move x [(v, n)])) (map fst cs)).
  { specialize (H) with (tv := sc_violation cur) (lp := sc_local cur). rewrite Ef in H. apply H.
    - intros i c a Hn Hin Hs He. unfold c_ignorable in Hs. rewrite He in Hs. cbn in Hs.
      assert (Hc : In c (md_cons md)) by (eapply nth_error_In; eassumption).
      destruct (Hm c a Hc He Hs Hin) as (Hd & Ha & Hma).
      rewrite (eval_single_value c x v n (proj1 C c Hc)), (in_coef _ _ _ (proj1 C c Hc) Hin).
      now apply margin_zero.
    - intros c Hd. unfold c_ignorable. now rewrite Hd. }
  destruct H' as [H1 H2].
  destruct (sum_viol_cover (md_cons md) x (apply_move x [(v, n)]) (map fst cs)) as [S1 S2].
  - apply (Permutation_NoDup (Permutation_map fst (Permutation_sym Hperm))). apply sens_nodup, C.
  - intros i c Hn He Hi. assert (Hc : In c (md_cons md)) by (eapply nth_error_In; eassumption).
    apply lin_unchanged; [|apply (proj1 C c Hc)]. eapply not_listed_absent; eassumption.
  - apply finish_scores; [exact C|repeat constructor; intros []| |].
    + rewrite H1, Ctv, S1. lra.
    + rewrite H2, Clp, S2. lra.
Qed.

(** * Multi *)
Lemma delta_absent s x m : (forall v, In v (map fst m) -> ~ In v (map fst s)) -> delta s x m == 0.
Proof.
  induction m as [|[v n] tl IH]; cbn [delta map fst]; intros H; [lra|].
  rewrite IH by (intros w Hw; apply H; now right). rewrite (coef_absent _ _ (H v (or_introl eq_refl))). lra.
Qed.
Lemma unchanged e x m : wf e -> proper m -> (forall v, In v (map fst m) -> ~ In v (keys e)) ->
  e_eval e (apply_move x m) == e_eval e x.
Proof. intros W Hp H. rewrite !eval_lin, (lin_apply _ _ W _ Hp), (delta_absent _ _ _ H). lra. Qed.

Lemma fold_triple {A} (f : Q * Q * bool -> A -> Q * Q * bool) (g h : A -> Q) (k : A -> bool) l :
  (forall a tv lp fi, In a l -> let '(tv', lp', fi') := f (tv, lp, fi) a in
     tv' == tv + g a /\ lp' == lp + h a /\ fi' = fi || k a) ->
  forall tv lp fi, let '(tv', lp', fi') := fold_left f l (tv, lp, fi) in
     tv' == tv + sumf g l /\ lp' == lp + sumf h l /\ fi' = fi || existsb k l.
Proof.
  induction l as [|a tl IH]; intros H tv lp fi; cbn [fold_left sumf existsb].
  - rewrite orb_false_r. split; [lra|]. split; [lra|reflexivity].
  - pose proof (H a tv lp fi (or_introl eq_refl)) as Ha.
    destruct (f (tv, lp, fi) a) as [[tv1 lp1] fi1]. destruct Ha as (H1 & H2 & H3).
    pose proof (IH (fun b t l' b' Hb => H b t l' b' (or_intror Hb)) tv1 lp1 fi1) as Hi.
    destruct (fold_left f tl (tv1, lp1, fi1)) as [[tv2 lp2] fi2]. destruct Hi as (H4 & H5 & H6).
    split; [lra|]. split; [lra|]. now rewrite H6, H3, orb_assoc.
Qed.

Lemma ltb_comp a b k : a == b -> (if Qlt_le_dec a k then true else false) = (if Qlt_le_dec b k then true else false).
Proof. intros E. destruct (Qlt_le_dec a k), (Qlt_le_dec b k); try reflexivity; exfalso; lra. Qed.

Definition decreases (cons : list constr) (x x' : nat -> Z) (i : nat) : bool :=
  if Qlt_le_dec (diff_at cons vfun x x' i) (- EPS) then true else false.

Lemma multi_step_spec md x m i tv lp fi : consistent md x -> proper m ->
  no_tiny_change md x (apply_move x m) ->
  let '(tv', lp', fi') := multi_step (md_cons md) x m (tv, lp, fi) i in
  tv' == tv + diff_at (md_cons md) vfun x (apply_move x m) i /\
  lp' == lp + diff_at (md_cons md) pfun x (apply_move x m) i /\
  fi' = fi || decreases (md_cons md) x (apply_move x m) i.
Proof.
  intros C Hp Ht. unfold multi_step, decreases, diff_at, at_index.
  assert (Z0 : (if Qlt_le_dec 0 (- EPS) then true else false) = false).
  { destruct (Qlt_le_dec 0 (- EPS)) as [q|q]; [discriminate q|reflexivity]. }
  destruct (nth_error (md_cons md) i) as [c|] eqn:Hn; [|rewrite Z0, orb_false_r; split; [lra|]; split; [lra|reflexivity]].
  destruct (ct_enabled c) eqn:Ee; [|rewrite Z0, orb_false_r; split; [lra|]; split; [lra|reflexivity]].
  assert (Hc : In c (md_cons md)) by (eapply nth_error_In; eassumption).
  pose proof (proj1 (proj2 (proj2 C)) c Hc Ee) as A.
  pose proof (agrees_value c x m (proj1 C c Hc) A Hp) as Hv.
  destruct A as (_ & Av & Ap & An & _).
  set (v := e_eval (ct_expr c) x) in *. set (w := e_eval (ct_expr c) (apply_move x m)) in *.
  destruct (Qlt_le_dec (Qabs (c_eval_move c x m - ct_value c)) EPS10) as [q|q].
  - rewrite Hv, Av in q. pose proof (Ht c Hc Ee q) as E. fold w v in E.
    assert (Ez : vfun c w - vfun c v == 0) by (rewrite E; lra).
    assert (Ey : pfun c w - pfun c v == 0) by (rewrite E; lra).
    split; [lra|]. split; [lra|].
    destruct (Qlt_le_dec (vfun c w - vfun c v) (- EPS)) as [r|r]; [|now rewrite orb_false_r].
    rewrite Ez in r. discriminate r.
  - assert (E1 : (if ct_le c then qmax (c_eval_move c x m) 0 - ct_positive c else 0) +
                 (if ct_ge c then qmax (- c_eval_move c x m) 0 - ct_negative c else 0) == vfun c w - vfun c v).
    { unfold vfun. destruct (ct_le c), (ct_ge c); rewrite ?Hv, ?Ap, ?An; lra. }
    split; [rewrite E1; lra|]. split.
    + unfold pfun. destruct (ct_le c), (ct_ge c); rewrite ?Hv, ?Ap, ?An; lra.
    + f_equal. now apply ltb_comp.
Qed.

Lemma multi_correct md x m related cur : consistent md x -> current md x cur -> proper m ->
  NoDup related -> covers (md_cons md) (map fst m) related -> no_tiny_change md x (apply_move x m) ->
  scores md x (apply_move x m) (evaluate_multi md x m related cur) /\
  (sc_feas_improvable (evaluate_multi md x m related cur) = true <->
   exists c, In c (md_cons md) /\ ct_enabled c = true /\ viol c (apply_move x m) < viol c x - EPS).
Proof.
  intros C (Ctv & Clp) Hp N Hc Ht. unfold evaluate_multi.
  pose proof (fold_triple (multi_step (md_cons md) x m)
    (diff_at (md_cons md) vfun x (apply_move x m)) (diff_at (md_cons md) pfun x (apply_move x m))
    (decreases (md_cons md) x (apply_move x m)) related
    (fun a tv lp fi _ => multi_step_spec md x m a tv lp fi C Hp Ht) (sc_violation cur) (sc_local cur) false) as H.
  destruct (fold_left _ _ _) as [[tv lp] fi]. destruct H as (H1 & H2 & H3).
  assert (Hun : forall i c, nth_error (md_cons md) i = Some c -> ct_enabled c = true -> ~ In i related ->
     e_eval (ct_expr c) (apply_move x m) == e_eval (ct_expr c) x).
  { intros i c Hn He Hi. assert (Hin : In c (md_cons md)) by (eapply nth_error_In; eassumption).
    apply unchanged; [apply (proj1 C c Hin)|exact Hp|]. intros v Hv Hk. apply Hi. eapply Hc; eassumption. }
  destruct (sum_viol_cover (md_cons md) x (apply_move x m) related N Hun) as [S1 S2]. split.
  - apply finish_scores; [exact C|exact Hp| |]; [rewrite H1, Ctv, S1; lra|rewrite H2, Clp, S2; lra].
  - unfold finish. cbn [sc_feas_improvable]. rewrite H3. cbn [orb]. rewrite existsb_exists. unfold decreases. split.
    + intros (i & Hi & Hd). unfold diff_at, at_index in Hd.
      destruct (nth_error (md_cons md) i) as [c|] eqn:Hn.
      * destruct (ct_enabled c) eqn:Ee.
        -- exists c. split; [eapply nth_error_In; eassumption|]. split; [exact Ee|].
           rewrite !viol_vfun. destruct (Qlt_le_dec _ _); [lra|discriminate].
        -- destruct (Qlt_le_dec _ _) as [q|]; [discriminate q|discriminate].
      * destruct (Qlt_le_dec _ _) as [q|]; [discriminate q|discriminate].
    + intros (c & Hin & Ee & Hlt). apply In_nth_error in Hin as (i & Hn). exists i.
      rewrite !viol_vfun in Hlt. split.
      * destruct (in_dec Nat.eq_dec i related); [assumption|].
        rewrite (Hun i c Hn Ee n) in Hlt. unfold EPS in Hlt. lra.
      * unfold diff_at, at_index. rewrite Hn, Ee. destruct (Qlt_le_dec _ _); [reflexivity|lra].
Qed.
