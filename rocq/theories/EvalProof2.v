From Coq Require Import List ZArith QArith Qabs Bool Lia Lqa Permutation.
From Verif Require Import ExprModel ExprSpec ExprProof ConstraintModel ConstraintSpec ConstraintProof EvalModel EvalSpec EvalProof.
Import ListNotations.
Local Open Scope Q_scope.

(** * Multi without the no-tiny-change hypothesis: error bound *)
Lemma qmax_lipschitz a b : Qabs (qmax a 0 - qmax b 0) <= Qabs (a - b).
Proof.
  apply Qabs_Qle_condition.
  assert (a - b <= Qabs (a - b)) by apply Qle_Qabs.
  assert (- (a - b) <= Qabs (a - b)) by (rewrite <- Qabs_opp; apply Qle_Qabs).
  destruct (qmax_spec a 0) as [[? E]|[? E]], (qmax_spec b 0) as [[? F]|[? F]]; rewrite E, F; split; lra.
Qed.
Lemma vfun_lipschitz c a b : Qabs (vfun c a - vfun c b) <= Qabs (a - b).
Proof.
  apply Qabs_Qle_condition.
  assert (a - b <= Qabs (a - b)) by apply Qle_Qabs.
  assert (- (a - b) <= Qabs (a - b)) by (rewrite <- Qabs_opp; apply Qle_Qabs).
  unfold vfun.
  destruct (qmax_spec a 0) as [[? E]|[? E]], (qmax_spec b 0) as [[? F]|[? F]],
    (qmax_spec (-a) 0) as [[? G]|[? G]], (qmax_spec (-b) 0) as [[? K]|[? K]], (ct_le c), (ct_ge c); rewrite ?E, ?F, ?G, ?K; split; lra.
Qed.

Lemma multi_step_close md x m i tv lp fi : consistent md x -> proper m ->
  let '(tv', _, _) := multi_step (md_cons md) x m (tv, lp, fi) i in
  Qabs (tv' - (tv + diff_at (md_cons md) vfun x (apply_move x m) i)) <= EPS10.
Proof.
  intros C Hp. unfold multi_step, diff_at, at_index.
  assert (Z0 : forall q, Qabs (q - (q + 0)) <= EPS10).
  { intros q. setoid_replace (q - (q + 0)) with 0 by lra. discriminate. }
  destruct (nth_error (md_cons md) i) as [c|] eqn:Hn; [|apply Z0].
  destruct (ct_enabled c) eqn:Ee; [|apply Z0].
  assert (Hc : In c (md_cons md)) by (eapply nth_error_In; eassumption).
  pose proof (proj1 (proj2 (proj2 C)) c Hc Ee) as A.
  pose proof (agrees_value c x m (proj1 C c Hc) A Hp) as Hv.
  destruct A as (_ & Av & Ap & An & _).
  set (v := e_eval (ct_expr c) x) in *. set (w := e_eval (ct_expr c) (apply_move x m)) in *.
  destruct (Qlt_le_dec (Qabs (c_eval_move c x m - ct_value c)) EPS10) as [q|q].
  - rewrite Hv, Av in q. pose proof (vfun_lipschitz c w v).
    setoid_replace (tv - (tv + (vfun c w - vfun c v))) with (- (vfun c w - vfun c v)) by lra.
    rewrite Qabs_opp. lra.
  - assert (E1 : (if ct_le c then qmax (c_eval_move c x m) 0 - ct_positive c else 0) +
                 (if ct_ge c then qmax (- c_eval_move c x m) 0 - ct_negative c else 0) == vfun c w - vfun c v).
    { unfold vfun. destruct (ct_le c), (ct_ge c); rewrite ?Hv, ?Ap, ?An; lra. }
    rewrite E1. setoid_replace (tv + (vfun c w - vfun c v) - (tv + (vfun c w - vfun c v))) with 0 by lra. discriminate.
Qed.

Lemma multi_fold_close md x m : consistent md x -> proper m -> forall related tv lp fi,
  let '(tv', _, _) := fold_left (multi_step (md_cons md) x m) related (tv, lp, fi) in
  Qabs (tv' - (tv + sumf (diff_at (md_cons md) vfun x (apply_move x m)) related))
  <= EPS10 * inject_Z (Z.of_nat (length related)).
Proof.
  intros C Hp. induction related as [|i tl IH]; intros tv lp fi; cbn [fold_left sumf].
  - setoid_replace (tv - (tv + 0)) with 0 by lra. discriminate.
  - pose proof (multi_step_close md x m i tv lp fi C Hp) as Hs.
    destruct (multi_step (md_cons md) x m (tv, lp, fi) i) as [[tv1 lp1] fi1].
    specialize (IH tv1 lp1 fi1). destruct (fold_left _ tl _) as [[tv2 lp2] fi2].
    set (D := diff_at (md_cons md) vfun x (apply_move x m) i) in *.
    set (S := sumf (diff_at (md_cons md) vfun x (apply_move x m)) tl) in *.
    assert (Ht : Qabs (tv2 - (tv + (D + S))) <= Qabs (tv2 - (tv1 + S)) + Qabs (tv1 - (tv + D))).
    { setoid_replace (tv2 - (tv + (D + S))) with ((tv2 - (tv1 + S)) + (tv1 - (tv + D))) by lra. apply Qabs_triangle. }
    cbn [length]. rewrite Nat2Z.inj_succ. unfold Z.succ. rewrite inject_Z_plus. change (inject_Z 1) with 1. lra.
Qed.

Lemma multi_close md x m related cur : consistent md x -> current md x cur -> proper m ->
  NoDup related -> covers (md_cons md) (map fst m) related ->
  Qabs (sc_violation (evaluate_multi md x m related cur)
        - sum_enabled (fun c => viol c (apply_move x m)) (md_cons md))
  <= EPS10 * inject_Z (Z.of_nat (length related)).
Proof.
  intros C (Ctv & _) Hp N Hc. unfold evaluate_multi.
  pose proof (multi_fold_close md x m C Hp related (sc_violation cur) (sc_local cur) false) as H.
  destruct (fold_left _ _ _) as [[tv lp] fi]. cbn [finish sc_violation].
  destruct (sum_viol_cover (md_cons md) x (apply_move x m) related N) as [S1 _].
  { intros i c Hn He Hi. assert (Hin : In c (md_cons md)) by (eapply nth_error_In; eassumption).
    apply unchanged; [apply (proj1 C c Hin)|exact Hp|]. intros v Hv Hk. apply Hi. eapply Hc; eassumption. }
  rewrite S1, <- Ctv. exact H.
Qed.

(** Integral data never triggers the skip wrongly. *)
Definition integral_expr (e : expr) : Prop := forall v a, In (v, a) (ex_sens e) -> exists z, a == inject_Z z.
Lemma delta_integral s x m : (forall v a, In (v, a) s -> exists z, a == inject_Z z) ->
  exists z, delta s x m == inject_Z z.
Proof.
  intros H. assert (Hc : forall v, exists z, coef s v == inject_Z z).
  { intros v. unfold coef. destruct (sens_find s v) eqn:E; [apply find_in in E; eauto|exists 0%Z; reflexivity]. }
  induction m as [|[v n] tl IH]; cbn [delta]; [exists 0%Z; reflexivity|].
  destruct IH as [z Hz], (Hc v) as [y Hy]. exists (y * (n - x v) + z)%Z.
  rewrite inject_Z_plus, inject_Z_mult, Hz, Hy. reflexivity.
Qed.
Lemma no_tiny_integral md x m : (forall c, In c (md_cons md) -> wf (ct_expr c)) -> proper m ->
  (forall c, In c (md_cons md) -> ct_enabled c = true -> integral_expr (ct_expr c)) ->
  no_tiny_change md x (apply_move x m).
Proof.
  intros W Hp H c Hc He Ht.
  destruct (delta_integral (ex_sens (ct_expr c)) x m (H c Hc He)) as [z Hz].
  assert (E : e_eval (ct_expr c) (apply_move x m) - e_eval (ct_expr c) x == inject_Z z).
  { rewrite !eval_lin, (lin_apply _ _ (W c Hc) _ Hp), Hz. lra. }
  rewrite E in Ht. assert (z = 0)%Z.
  { destruct (Z.eq_dec z 0) as [|N]; [assumption|exfalso].
    assert (1 <= Qabs (inject_Z z)).
    { destruct (Z_lt_le_dec z 0).
      - rewrite Qabs_neg; [|change 0 with (inject_Z 0); rewrite <- Zle_Qle; lia].
        rewrite <- inject_Z_opp. change 1 with (inject_Z 1). rewrite <- Zle_Qle. lia.
      - rewrite Qabs_pos; [|change 0 with (inject_Z 0); rewrite <- Zle_Qle; lia].
        change 1 with (inject_Z 1). rewrite <- Zle_Qle. lia. }
    unfold EPS10 in Ht. lra. }
  subst z. change (inject_Z 0) with 0 in E. lra.
Qed.

(** * Sorting by name and removing adjacent duplicates *)
Lemma in_insert name i j l : In j (insert_by name i l) <-> j = i \/ In j l.
Proof.
  induction l as [|k tl IH]; cbn [insert_by]; [cbn; intuition|].
  destruct (Nat.leb _ _); cbn [In]; rewrite ?IH; cbn [In]; intuition.
Qed.
Lemma in_sort name j l : In j (stable_sort_by name l) <-> In j l.
Proof. induction l as [|k tl IH]; cbn; [tauto|]. rewrite in_insert. fold (stable_sort_by name tl). rewrite IH. intuition. Qed.
Lemma in_unique j l : In j (unique_adjacent l) <-> In j l.
Proof.
  induction l as [|k tl IH]; cbn [unique_adjacent]; [tauto|].
  destruct (unique_adjacent tl) as [|h t] eqn:E.
  - cbn in *. intuition.
  - destruct (Nat.eqb_spec k h) as [->|]; cbn [In] in *; intuition.
Qed.
Lemma in_sort_unique name j l : In j (sort_and_unique name l) <-> In j l.
Proof. unfold sort_and_unique. now rewrite in_unique, in_sort. Qed.

Fixpoint sorted_by (name : nat -> nat) (l : list nat) : Prop :=
  match l with [] => True | i :: tl => (forall j, In j tl -> (name i <= name j)%nat) /\ sorted_by name tl end.
Lemma sorted_insert name i l : sorted_by name l -> sorted_by name (insert_by name i l).
Proof.
  induction l as [|k tl IH]; cbn [insert_by sorted_by]; intros H; [split; [intros ? []|exact I]|].
  destruct H as [H1 H2]. destruct (Nat.leb_spec (name i) (name k)); cbn [sorted_by].
  - split; [|split; assumption]. intros j [->|Hj]; [assumption|]. specialize (H1 j Hj). lia.
  - split; [|auto]. intros j Hj. apply in_insert in Hj as [->|Hj]; [lia|auto].
Qed.
Lemma sorted_sort name l : sorted_by name (stable_sort_by name l).
Proof. induction l as [|k tl IH]; cbn; [exact I|]. now apply sorted_insert. Qed.
Lemma sorted_unique_nodup name l : (forall i j, In i l -> In j l -> name i = name j -> i = j) ->
  sorted_by name l -> NoDup (unique_adjacent l).
Proof.
  induction l as [|k tl IH]; intros Hinj Hs; cbn [unique_adjacent]; [constructor|].
  destruct Hs as [H1 H2].
  assert (IH' : NoDup (unique_adjacent tl)) by (apply IH; [intros; apply Hinj; cbn; auto|exact H2]). clear IH.
  pose proof (fun j => in_unique j tl) as Hin.
  destruct (unique_adjacent tl) as [|h t] eqn:E; [repeat constructor; intros []|].
  destruct (Nat.eqb_spec k h) as [->|N]; [exact IH'|].
  constructor; [|exact IH']. intros Hk.
  assert (Hkt : In k tl) by now apply Hin.
  assert (Hht : In h tl) by (apply Hin; now left).
  (* h is the head of the sorted tail, so name k <= name h <= name k *)
  assert (name h <= name k)%nat.
  { destruct tl as [|h0 t0]; [destruct Hht|]. cbn [sorted_by] in H2.
    assert (h = h0).
    { cbn [unique_adjacent] in E. destruct (unique_adjacent t0) as [|a b]; [congruence|].
      destruct (Nat.eqb_spec h0 a); congruence. }
    subst h0. destruct Hkt as [->|Hkt]; [lia|]. now apply (proj1 H2). }
  specialize (H1 h Hht). apply N. apply Hinj; cbn; auto. lia.
Qed.
Lemma move_related_ok name cons m :
  (forall i j, (i < length cons)%nat -> (j < length cons)%nat -> name i = name j -> i = j) ->
  NoDup (move_related name cons m) /\ covers cons (map fst m) (move_related name cons m).
Proof.
  intros Hinj. unfold move_related.
  assert (Hr : forall v i, In i (related_constraints cons v) <-> exists c, nth_error cons i = Some c /\ In v (keys (ct_expr c))).
  { intros v i. unfold related_constraints. rewrite in_map_iff. split.
    - intros ((j & a) & E & Hin). cbn in E. subst j. apply sens_entry0 in Hin as (c & Hn & Hin).
      exists c. split; [exact Hn|]. apply (in_map fst) in Hin. exact Hin.
    - intros (c & Hn & Hin). apply in_map_iff in Hin as ((w & a) & E & Hin). cbn in E. subst w.
      exists (i, a). split; [reflexivity|]. apply sens_entry0. eauto. }
  split.
  - apply sorted_unique_nodup with (name := name); [|apply sorted_sort].
    intros i j Hi Hj. rewrite in_sort in Hi, Hj. apply in_flat_map in Hi as (a & _ & Hi), Hj as (b & _ & Hj).
    apply Hr in Hi as (c & Hi & _), Hj as (d & Hj & _).
    apply Hinj; apply nth_error_Some; congruence.
  - intros i c v Hn He Hv Hin. apply in_sort_unique. apply in_map_iff in Hv as ((w & n) & E & Hv). cbn in E. subst w.
    apply in_flat_map. exists (v, n). split; [exact Hv|]. apply Hr. eauto.
Qed.

(** * Selection *)
Definition hits (cons : list constr) (related : list nat) (v : nat) (k : nat) : Prop :=
  exists i c, nth_error related k = Some i /\ nth_error cons i = Some c /\ ct_enabled c = true /\ In v (keys (ct_expr c)).

Lemma occurs_iff c v : occurs c v = true <-> In v (keys (ct_expr c)).
Proof.
  unfold occurs, keys. rewrite existsb_exists, in_map_iff. split; intros ((w & a) & H1 & H2); exists (w, a); cbn in *.
  - apply Nat.eqb_eq in H2. auto.
  - split; [exact H2|]. now apply Nat.eqb_eq.
Qed.

Lemma hits_cons cons i related v k : hits cons (i :: related) v (S k) <-> hits cons related v k.
Proof. reflexivity. Qed.
Lemma hits_head cons i related v : hits cons (i :: related) v 0 <->
  match nth_error cons i with Some c => ct_enabled c && occurs c v = true | None => False end.
Proof.
  unfold hits. cbn [nth_error]. split.
  - intros (j & c & E & Hn & He & Ho). injection E as <-. rewrite Hn. apply andb_true_iff. split; [exact He|]. now apply occurs_iff.
  - destruct (nth_error cons i) as [c|] eqn:Hn; [|tauto]. intros H. apply andb_true_iff in H as [He Ho].
    exists i, c. repeat split; auto. now apply occurs_iff.
Qed.

Lemma index_min_spec cons v related : forall z, (0 <= z)%Z ->
  (index_min cons v related z = (-1)%Z /\ forall k, ~ hits cons related v k) \/
  (exists k, index_min cons v related z = (z + Z.of_nat k)%Z /\ hits cons related v k /\ forall j, (j < k)%nat -> ~ hits cons related v j).
Proof.
  induction related as [|i tl IH]; intros z Hz; cbn [index_min].
  - left. split; [reflexivity|]. intros k (j & c & H & _). destruct k; discriminate.
  - pose proof (hits_head cons i tl v) as Hh. specialize (IH (z + 1)%Z ltac:(lia)).
    assert (Step : ~ hits cons (i :: tl) v 0 ->
      (index_min cons v tl (z + 1) = (-1)%Z /\ forall k, ~ hits cons (i :: tl) v k) \/
      (exists k, index_min cons v tl (z + 1) = (z + Z.of_nat k)%Z /\ hits cons (i :: tl) v k /\ forall j, (j < k)%nat -> ~ hits cons (i :: tl) v j)).
    { intros H0. destruct IH as [[E N]|(k & E & Hk & Hm)].
      - left. split; [exact E|]. intros [|k]; [exact H0|apply N].
      - right. exists (S k). split; [rewrite E; lia|]. split; [exact Hk|].
        intros [|j] Hj; [exact H0|apply Hm; lia]. }
    destruct (nth_error cons i) as [c|]; [|apply Step; tauto].
    destruct (ct_enabled c && occurs c v) eqn:Eb.
    + right. exists 0%nat. split; [lia|]. split; [now apply Hh|]. intros j Hj. lia.
    + apply Step. intros H. apply Hh in H. congruence.
Qed.

Lemma index_max_spec cons v related : forall z best, (0 <= z)%Z ->
  (index_max cons v related z best = best /\ forall k, ~ hits cons related v k) \/
  (exists k, index_max cons v related z best = (z + Z.of_nat k)%Z /\ hits cons related v k /\ forall j, (k < j)%nat -> ~ hits cons related v j).
Proof.
  induction related as [|i tl IH]; intros z best Hz; cbn [index_max].
  - left. split; [reflexivity|]. intros k (j & c & H & _). destruct k; discriminate.
  - pose proof (hits_head cons i tl v) as Hh.
    assert (No : forall b, ~ hits cons (i :: tl) v 0 ->
      (index_max cons v tl (z + 1) b = b /\ forall k, ~ hits cons (i :: tl) v k) \/
      (exists k, index_max cons v tl (z + 1) b = (z + Z.of_nat k)%Z /\ hits cons (i :: tl) v k /\ forall j, (k < j)%nat -> ~ hits cons (i :: tl) v j)).
    { intros b H0. destruct (IH (z + 1)%Z b ltac:(lia)) as [[E N]|(k & E & Hk & Hm)].
      - left. split; [exact E|]. intros [|k]; [exact H0|apply N].
      - right. exists (S k). split; [rewrite E; lia|]. split; [exact Hk|].
        intros [|j] Hj; [lia|apply Hm; lia]. }
    destruct (nth_error cons i) as [c|]; [|apply No; tauto].
    destruct (ct_enabled c && occurs c v) eqn:Eb.
    + right. destruct (IH (z + 1)%Z z ltac:(lia)) as [[E N]|(k & E & Hk & Hm)].
      * exists 0%nat. split; [rewrite E; lia|]. split; [now apply Hh|].
        intros [|j] Hj; [lia|apply N].
      * exists (S k). split; [rewrite E; lia|]. split; [exact Hk|]. intros [|j] Hj; [lia|apply Hm; lia].
    + apply No. intros H. apply Hh in H. congruence.
Qed.

Lemma nth_error_skipn' {A} n : forall (l : list A) k, nth_error (skipn n l) k = nth_error l (n + k).
Proof. induction n as [|n IH]; intros [|a l] k; cbn; try reflexivity; [destruct k; reflexivity|apply IH]. Qed.
Lemma nth_error_firstn' {A} n : forall (l : list A) k, (k < n)%nat -> nth_error (firstn n l) k = nth_error l k.
Proof. induction n as [|n IH]; intros [|a l] [|k] H; cbn; try reflexivity; try lia. apply IH. lia. Qed.

Lemma in_slice l lo hi k i : nth_error l k = Some i -> (0 <= lo)%Z -> (lo <= Z.of_nat k <= hi)%Z -> In i (slice l lo hi).
Proof.
  intros H Hlo Hk. unfold slice.
  assert (E : nth_error (skipn (Z.to_nat lo) l) (k - Z.to_nat lo) = Some i).
  { rewrite nth_error_skipn'. replace (Z.to_nat lo + (k - Z.to_nat lo))%nat with k by lia. exact H. }
  assert (G : nth_error (firstn (Z.to_nat (hi - lo + 1)) (skipn (Z.to_nat lo) l)) (k - Z.to_nat lo) = Some i).
  { rewrite nth_error_firstn' by lia. exact E. }
  eapply nth_error_In; exact G.
Qed.

Lemma nodup_app_l {A} (l l' : list A) : NoDup (l ++ l') -> NoDup l.
Proof.
  induction l as [|a l IH]; intros H; [constructor|]. cbn in H. inversion H as [|? ? Ha Hn]; subst.
  constructor; [|now apply IH]. intros K. apply Ha, in_or_app. now left.
Qed.
Lemma nodup_app_r {A} (l l' : list A) : NoDup (l ++ l') -> NoDup l'.
Proof. induction l as [|a l IH]; intros H; [exact H|]. inversion H; auto. Qed.
Lemma nodup_slice l lo hi : NoDup l -> NoDup (slice l lo hi).
Proof.
  intros H. unfold slice.
  assert (S : NoDup (skipn (Z.to_nat lo) l)).
  { rewrite <- (firstn_skipn (Z.to_nat lo) l) in H. now apply nodup_app_r in H. }
  rewrite <- (firstn_skipn (Z.to_nat (hi - lo + 1)) (skipn (Z.to_nat lo) l)) in S.
  now apply nodup_app_l in S.
Qed.

Lemma selection_as_multi md x a0 a1 L cur tv lp fi :
  fold_left (multi_step (md_cons md) x [a0; a1]) L (sc_violation cur, sc_local cur, false) = (tv, lp, fi) ->
  finish md x [a0; a1] tv lp fi = evaluate_multi md x [a0; a1] L cur.
Proof. intros E. unfold evaluate_multi. rewrite E. reflexivity. Qed.

Lemma apply_two x v0 n0 v1 n1 : v0 <> v1 -> forall e, wf e ->
  e_eval e (apply_move x [(v0, n0); (v1, n1)]) == e_eval e x + coef (ex_sens e) v0 * inject_Z (n0 - x v0) + coef (ex_sens e) v1 * inject_Z (n1 - x v1).
Proof.
  intros N e W. rewrite !eval_lin, (lin_apply _ _ W).
  - cbn [delta]. lra.
  - constructor; [cbn; intuition|]. repeat constructor. intros [].
Qed.
Lemma apply_one x v n e : wf e ->
  e_eval e (apply_move x [(v, n)]) == e_eval e x + coef (ex_sens e) v * inject_Z (n - x v).
Proof.
  intros W. rewrite !eval_lin, (lin_apply _ _ W); [cbn [delta]; lra|]. repeat constructor; intros [].
Qed.

Lemma sum_enabled_plus f g cons : sum_enabled (fun c => f c + g c) cons == sum_enabled f cons + sum_enabled g cons.
Proof. induction cons as [|c tl IH]; cbn [sum_enabled]; [lra|]. rewrite IH. destruct (ct_enabled c); lra. Qed.

Lemma single_plain md x v n cs : consistent md x ->
  Permutation cs (constraint_sensitivities (md_cons md) v) -> forall tv lp,
  let r := fold_left (single_step (fun c => negb (ct_enabled c)) (md_cons md) (n - x v)) cs (tv, lp) in
  fst r == tv + (sum_enabled (fun c => viol c (apply_move x [(v, n)])) (md_cons md) - sum_enabled (fun c => viol c x) (md_cons md)) /\
  snd r == lp + (sum_enabled (fun c => penalty c (apply_move x [(v, n)])) (md_cons md) - sum_enabled (fun c => penalty c x) (md_cons md)).
Proof.
  intros C Hp tv lp. cbv zeta.
  destruct (single_fold (fun c => negb (ct_enabled c)) md x v n cs C Hp) with (tv := tv) (lp := lp) as [H1 H2].
  - intros i c a _ _ Hs He. rewrite He in Hs. discriminate.
  - intros c Hd. now rewrite Hd.
  - destruct (sum_viol_cover (md_cons md) x (apply_move x [(v, n)]) (map fst cs)) as [S1 S2].
    + apply (Permutation_NoDup (Permutation_map fst (Permutation_sym Hp))). apply sens_nodup, C.
    + intros i c Hn He Hi. assert (Hc : In c (md_cons md)) by (eapply nth_error_In; eassumption).
      apply lin_unchanged; [|apply (proj1 C c Hc)]. eapply not_listed_absent; eassumption.
    + rewrite H1, H2, S1, S2. split; lra.
Qed.

Lemma selection_correct md x v0 n0 v1 n1 cs0 cs1 related cur :
  consistent md x -> current md x cur -> v0 <> v1 ->
  Permutation cs0 (constraint_sensitivities (md_cons md) v0) ->
  Permutation cs1 (constraint_sensitivities (md_cons md) v1) ->
  NoDup related -> covers (md_cons md) [v0; v1] related ->
  no_tiny_change md x (apply_move x [(v0, n0); (v1, n1)]) ->
  scores md x (apply_move x [(v0, n0); (v1, n1)])
    (evaluate_selection md x (v0, n0) (v1, n1) cs0 cs1 related cur).
Proof.
  intros C Hcur Nv P0 P1 N Hcov Ht.
  assert (Hp : proper [(v0, n0); (v1, n1)]).
  { constructor; [cbn; intuition|]. repeat constructor. intros []. }
  unfold evaluate_selection. cbn [fst snd].
  set (cons := md_cons md) in *.
  assert (Hhit : forall v i c, v = v0 \/ v = v1 -> nth_error cons i = Some c -> ct_enabled c = true ->
    In v (keys (ct_expr c)) -> exists k, nth_error related k = Some i /\ hits cons related v k).
  { intros v i c Hv Hn He Hin. assert (Hi : In i related).
    { apply (Hcov i c v Hn He); [destruct Hv as [->| ->]; cbn; auto|exact Hin]. }
    apply In_nth_error in Hi as (k & Hk). exists k. split; [exact Hk|]. exists i, c. auto. }
  pose proof (index_min_spec cons v0 related 0 ltac:(lia)) as M0.
  pose proof (index_min_spec cons v1 related 0 ltac:(lia)) as M1.
  pose proof (index_max_spec cons v0 related 0 (-1) ltac:(lia)) as X0.
  pose proof (index_max_spec cons v1 related 0 (-1) ltac:(lia)) as X1.
  set (mn0 := index_min cons v0 related 0) in *. set (mn1 := index_min cons v1 related 0) in *.
  set (mx0 := index_max cons v0 related 0 (-1)) in *. set (mx1 := index_max cons v1 related 0 (-1)) in *.
  (* bounds on the positions *)
  assert (B0 : (mn0 = -1 /\ mx0 = -1 /\ (forall k, ~ hits cons related v0 k))%Z \/
               (0 <= mn0 /\ 0 <= mx0 /\ forall k, hits cons related v0 k -> mn0 <= Z.of_nat k <= mx0)%Z).
  { destruct M0 as [[E0 Nk]|(k & E0 & Hk & Hm)], X0 as [[E1 Nk']|(k' & E1 & Hk' & Hm')].
    - left. auto.
    - exfalso. eapply Nk; eassumption.
    - exfalso. eapply Nk'; eassumption.
    - right. split; [lia|]. split; [lia|]. intros j Hj. split.
      + destruct (Nat.lt_ge_cases j k) as [L|L]; [exfalso; eapply Hm; eassumption|lia].
      + destruct (Nat.lt_ge_cases k' j) as [L|L]; [exfalso; eapply Hm'; eassumption|lia]. }
  assert (B1 : (mn1 = -1 /\ mx1 = -1 /\ (forall k, ~ hits cons related v1 k))%Z \/
               (0 <= mn1 /\ 0 <= mx1 /\ forall k, hits cons related v1 k -> mn1 <= Z.of_nat k <= mx1)%Z).
  { destruct M1 as [[E0 Nk]|(k & E0 & Hk & Hm)], X1 as [[E1 Nk']|(k' & E1 & Hk' & Hm')].
    - left. auto.
    - exfalso. eapply Nk; eassumption.
    - exfalso. eapply Nk'; eassumption.
    - right. split; [lia|]. split; [lia|]. intros j Hj. split.
      + destruct (Nat.lt_ge_cases j k) as [L|L]; [exfalso; eapply Hm; eassumption|lia].
      + destruct (Nat.lt_ge_cases k' j) as [L|L]; [exfalso; eapply Hm'; eassumption|lia]. }
  clear M0 M1 X0 X1. clearbody mn0 mn1 mx0 mx1.
  destruct ((0 <=? join_index Z.min mn0 mn1)%Z && (0 <=? join_index Z.max mx0 mx1)%Z) eqn:Eb.
  - destruct ((mx0 <? mn1) || (mx1 <? mn0))%Z eqn:Ed.
    + (* disjoint ranges *)
      pose proof (single_plain md x v0 n0 cs0 C P0 (sc_violation cur) (sc_local cur)) as F0. cbv zeta in F0. fold cons in F0.
      destruct (fold_left _ cs0 _) as [tv0 lp0]. cbn [fst snd] in F0. destruct F0 as [T0 L0].
      pose proof (single_plain md x v1 n1 cs1 C P1 tv0 lp0) as F1. cbv zeta in F1. fold cons in F1.
      destruct (fold_left _ cs1 _) as [tv1 lp1]. cbn [fst snd] in F1. destruct F1 as [T1 L1].
      assert (Excl : forall i c, nth_error cons i = Some c -> ct_enabled c = true ->
         In v0 (keys (ct_expr c)) -> In v1 (keys (ct_expr c)) -> False).
      { intros i c Hn He H0 H1.
        destruct (Hhit v0 i c (or_introl eq_refl) Hn He H0) as (k & Hk & K0).
        destruct (Hhit v1 i c (or_intror eq_refl) Hn He H1) as (k' & Hk' & K1).
        assert (k = k').
        { apply (proj1 (NoDup_nth_error related) N); [apply nth_error_Some; congruence|congruence]. }
        subst k'. destruct B0 as [(_ & _ & Z0)|(_ & _ & R0)]; [now apply (Z0 k)|].
        destruct B1 as [(_ & _ & Z1)|(_ & _ & R1)]; [now apply (Z1 k)|].
        specialize (R0 k K0). specialize (R1 k K1).
        apply orb_true_iff in Ed as [Ed|Ed]; apply Z.ltb_lt in Ed; lia. }
      assert (Add : forall f : constr -> (nat -> Z) -> Q, (forall c y z, e_eval (ct_expr c) y == e_eval (ct_expr c) z -> f c y == f c z) ->
        sum_enabled (fun c => f c (apply_move x [(v0, n0); (v1, n1)])) cons ==
        sum_enabled (fun c => f c (apply_move x [(v0, n0)])) cons + sum_enabled (fun c => f c (apply_move x [(v1, n1)])) cons
        - sum_enabled (fun c => f c x) cons).
      { intros f Hf. rewrite <- sum_enabled_plus, <- sum_enabled_minus. apply sum_enabled_ext.
        intros c Hc He. pose proof (proj1 C c Hc) as W. apply In_nth_error in Hc as (i & Hn).
        destruct (occurs_dec v0 (ct_expr c)) as [O0|O0].
        - assert (O1 : ~ In v1 (keys (ct_expr c))) by (intros O1; eapply Excl; eassumption).
          rewrite (Hf c (apply_move x [(v0, n0); (v1, n1)]) (apply_move x [(v0, n0)])).
          + rewrite (Hf c (apply_move x [(v1, n1)]) x); [lra|]. now apply lin_unchanged.
          + rewrite (apply_two x v0 n0 v1 n1 Nv _ W), (apply_one x v0 n0 _ W), (coef_absent _ _ O1). lra.
        - rewrite (Hf c (apply_move x [(v0, n0); (v1, n1)]) (apply_move x [(v1, n1)])).
          + rewrite (Hf c (apply_move x [(v0, n0)]) x); [lra|]. now apply lin_unchanged.
          + rewrite (apply_two x v0 n0 v1 n1 Nv _ W), (apply_one x v1 n1 _ W), (coef_absent _ _ O0). lra. }
      destruct Hcur as [Ctv Clp]. fold cons in Ctv, Clp.
      apply finish_scores; [exact C|exact Hp| |].
      * fold cons. rewrite (Add viol) by (intros c y z E; rewrite !viol_vfun, E; reflexivity). rewrite T1, T0, Ctv. lra.
      * fold cons. rewrite (Add penalty) by (intros c y z E; rewrite !penalty_pfun, E; reflexivity). rewrite L1, L0, Clp. lra.
    + (* one range *)
      destruct (fold_left _ (slice _ _ _) _) as [[tv lp] fi] eqn:Ef.
      rewrite (selection_as_multi md x (v0, n0) (v1, n1) _ cur tv lp fi Ef).
      apply multi_correct; auto; [now apply nodup_slice|].
      apply andb_true_iff in Eb as [Eb1 Eb2]. apply Z.leb_le in Eb1, Eb2.
      intros i c v Hn He Hv Hin. cbn [map fst] in Hv.
      assert (Hv' : v = v0 \/ v = v1) by (destruct Hv as [<-|[<-|[]]]; auto).
      destruct (Hhit v i c Hv' Hn He Hin) as (k & Hk & K).
      apply (in_slice _ _ _ k); [exact Hk|exact Eb1|].
      unfold join_index in *.
      destruct Hv' as [->| ->].
      * destruct B0 as [(_ & _ & Z0)|(G1 & G2 & R0)]; [exfalso; eapply Z0; eassumption|]. specialize (R0 k K).
        destruct B1 as [(E1 & E2 & _)|(G3 & G4 & _)].
        -- rewrite E1, E2. rewrite E1 in Eb1. rewrite E2 in Eb2.
           destruct (Z.eqb_spec mn0 (-1)), (Z.eqb_spec mx0 (-1)), (Z.leb_spec 0 mn0), (Z.leb_spec 0 mx0); cbn in *; lia.
        -- destruct (Z.eqb_spec mn0 (-1)), (Z.eqb_spec mx0 (-1)), (Z.eqb_spec mn1 (-1)), (Z.eqb_spec mx1 (-1)),
             (Z.leb_spec 0 mn0), (Z.leb_spec 0 mx0), (Z.leb_spec 0 mn1), (Z.leb_spec 0 mx1); cbn in *; lia.
      * destruct B1 as [(_ & _ & Z0)|(G1 & G2 & R0)]; [exfalso; eapply Z0; eassumption|]. specialize (R0 k K).
        destruct B0 as [(E1 & E2 & _)|(G3 & G4 & _)].
        -- rewrite E1, E2. cbn.
           destruct (Z.leb_spec 0 mn1), (Z.leb_spec 0 mx1); cbn in *; lia.
        -- destruct (Z.eqb_spec mn0 (-1)), (Z.eqb_spec mx0 (-1)), (Z.eqb_spec mn1 (-1)), (Z.eqb_spec mx1 (-1)),
             (Z.leb_spec 0 mn0), (Z.leb_spec 0 mx0), (Z.leb_spec 0 mn1), (Z.leb_spec 0 mx1); cbn in *; lia.
  - (* no related constraint *)
    rewrite (selection_as_multi md x (v0, n0) (v1, n1) [] cur (sc_violation cur) (sc_local cur) false eq_refl).
    apply multi_correct; auto; [constructor|].
    intros i c v Hn He Hv Hin. exfalso. cbn [map fst] in Hv.
    assert (Hv' : v = v0 \/ v = v1) by (destruct Hv as [<-|[<-|[]]]; auto).
    destruct (Hhit v i c Hv' Hn He Hin) as (k & Hk & K).
    unfold join_index in Eb.
    destruct Hv' as [->| ->].
    + destruct B0 as [(_ & _ & Z0)|(G1 & G2 & R0)]; [eapply Z0; eassumption|].
      destruct B1 as [(E1 & E2 & _)|(G3 & G4 & _)].
      * rewrite E1, E2 in Eb.
        destruct (Z.eqb_spec mn0 (-1)), (Z.eqb_spec mx0 (-1)), (Z.leb_spec 0 mn0), (Z.leb_spec 0 mx0); cbn in Eb;
        repeat match type of Eb with context [Z.leb ?a ?b] => destruct (Z.leb_spec a b) end; cbn in Eb; try discriminate; lia.
      * destruct (Z.eqb_spec mn0 (-1)), (Z.eqb_spec mx0 (-1)), (Z.eqb_spec mn1 (-1)), (Z.eqb_spec mx1 (-1)); try lia.
        destruct (Z.leb_spec 0 mn0), (Z.leb_spec 0 mx0), (Z.leb_spec 0 mn1), (Z.leb_spec 0 mx1); try lia. cbn in Eb.
        repeat match type of Eb with context [Z.leb ?a ?b] => destruct (Z.leb_spec a b) end; cbn in Eb; try discriminate; lia.
    + destruct B1 as [(_ & _ & Z0)|(G1 & G2 & R0)]; [eapply Z0; eassumption|].
      destruct B0 as [(E1 & E2 & _)|(G3 & G4 & _)].
      * rewrite E1, E2 in Eb. cbn in Eb.
        destruct (Z.leb_spec 0 mn1), (Z.leb_spec 0 mx1); cbn in Eb; try lia;
        repeat match type of Eb with context [Z.leb ?a ?b] => destruct (Z.leb_spec a b) end; cbn in Eb; try discriminate; lia.
      * destruct (Z.eqb_spec mn0 (-1)), (Z.eqb_spec mx0 (-1)), (Z.eqb_spec mn1 (-1)), (Z.eqb_spec mx1 (-1)); try lia.
        destruct (Z.leb_spec 0 mn0), (Z.leb_spec 0 mx0), (Z.leb_spec 0 mn1), (Z.leb_spec 0 mx1); try lia. cbn in Eb.
        repeat match type of Eb with context [Z.leb ?a ?b] => destruct (Z.leb_spec a b) end; cbn in Eb; try discriminate; lia.
Qed.

Lemma selection_related_ok cons own vars related : Permutation related (selection_related cons own vars) ->
  (forall c, nth_error cons own = Some c -> ct_enabled c = false) ->
  NoDup related /\ forall vs, incl vs vars -> covers cons vs related.
Proof.
  intros Hp Hown. split.
  - apply (Permutation_NoDup (Permutation_sym Hp)). apply NoDup_nodup.
  - intros vs Hin i c v Hn He Hv Hk. apply (Permutation_in i (Permutation_sym Hp)).
    unfold selection_related. apply nodup_In, filter_In. split.
    + apply in_flat_map. exists v. split; [now apply Hin|]. unfold related_constraints. apply in_map_iff.
      apply in_map_iff in Hk as ((w & a) & E & Hk). cbn in E. subst w. exists (i, a). split; [reflexivity|].
      apply sens_entry0. eauto.
    + destruct (Nat.eqb_spec i own) as [->|]; [|reflexivity]. rewrite (Hown c Hn) in He. discriminate.
Qed.
