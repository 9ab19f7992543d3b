(** Proofs for C14, C15 and the margin flag. *)
From Coq Require Import List ZArith QArith Qabs Lia Lqa Permutation Bool.
From Verif Require Import ExprModel ExprSpec ExprProof ConstraintModel ConstraintSpec ConstraintProof
  EvalModel EvalSpec EvalSpec2 EvalProof EvalProof2.
Import ListNotations.
Local Open Scope Q_scope.

Definition skel (c : constr) := (ct_expr c, ct_sense c, ct_enabled c).

Lemma nth_update_nth l : forall i j f, nth_error (update_nth l i f) j =
  if Nat.eqb i j then option_map f (nth_error l j) else nth_error l j.
Proof.
  induction l as [|c tl IH]; intros [|i] [|j] f; cbn; try reflexivity.
  - destruct (Nat.eqb i j); reflexivity.
  - apply IH.
Qed.
Lemma nth_fold_update f L : NoDup L -> forall l j,
  nth_error (fold_left (fun l i => update_nth l i f) L l) j =
  if existsb (Nat.eqb j) L then option_map f (nth_error l j) else nth_error l j.
Proof.
  induction L as [|i L IH]; intros N l j; cbn [fold_left existsb]; [reflexivity|].
  inversion N as [|? ? Hi Hn]; subst. rewrite (IH Hn), nth_update_nth.
  rewrite (Nat.eqb_sym j i). destruct (Nat.eqb_spec i j) as [E|E].
  - subst j. cbn [orb]. destruct (existsb (Nat.eqb i) L) eqn:Ex; [|reflexivity].
    apply existsb_exists in Ex as (k & Hk & Ek). apply Nat.eqb_eq in Ek. subst k. contradiction.
  - reflexivity.
Qed.

Definition margin_spec (c : constr) (x : nat -> Z) : Prop :=
  ct_margin c == match ct_sense c with Less => below c x | Equal => 0 | Greater => above c x end.

Lemma refresh_margin c v x t : v == e_eval (ct_expr c) x -> margin_spec (c_refresh c v v t) x.
Proof.
  intros Hv. unfold margin_spec. cbn [c_refresh ct_margin ct_sense].
  destruct (ct_sense c); [|reflexivity|].
  - rewrite neg_qmin, below_qmax. cbn [c_refresh ct_expr]. now rewrite Hv.
  - rewrite above_qmax. cbn [c_refresh ct_expr]. now rewrite Hv.
Qed.

Lemma distance_comp l l' s d : l == l' -> distance l s 0 d -> distance l' s 0 d.
Proof.
  intros E A5. inversion A5 as [s' r' d' H1 H2|r' d' H1 H2|r' d' H1 H2|r' d' H1 H2]; subst.
  - apply dist_sat; [|exact H2]. unfold holds in *. destruct s; rewrite <- E; exact H1.
  - apply dist_less; rewrite <- E; assumption.
  - apply dist_greater; rewrite <- E; assumption.
  - apply dist_equal; rewrite <- E; assumption.
Qed.
(** Invariant of a history. *)
Definition good (s : mstate) : Prop :=
  (forall c, In c (md_cons (ms_model s)) -> ct_enabled c = true -> agrees c (ms_x s) /\ margin_spec c (ms_x s)) /\
  (forall p, In p (ms_exprs s) -> snd (fst p) = true -> snd p == e_eval (fst (fst p)) (ms_x s)) /\
  (md_defined (ms_model s) = true ->
     md_obj_evalue (ms_model s) == e_eval (md_obj (ms_model s)) (ms_x s) /\
     md_obj_value (ms_model s) == e_eval (md_obj (ms_model s)) (ms_x s)) /\
  ms_violative s = violative (md_cons (ms_model s)) /\
  ms_feasible s = Nat.eqb (length (violative (md_cons (ms_model s)))) 0.

Definition same_static (s t : mstate) : Prop :=
  map skel (md_cons (ms_model s)) = map skel (md_cons (ms_model t)) /\
  map (@fst (expr * bool) Q) (ms_exprs s) = map (@fst (expr * bool) Q) (ms_exprs t) /\
  md_obj (ms_model s) = md_obj (ms_model t) /\ md_defined (ms_model s) = md_defined (ms_model t) /\
  ms_fixed s = ms_fixed t /\ ms_user_defined s = ms_user_defined t /\ ms_deps s = ms_deps t.

Lemma static_trans s t u : same_static s t -> same_static t u -> same_static s u.
Proof. unfold same_static. intuition congruence. Qed.

Lemma map_skel_in l l' : map skel l = map skel l' -> forall c, In c l -> exists c', In c' l' /\ skel c = skel c'.
Proof.
  intros E c H. assert (K : In (skel c) (map skel l')) by (rewrite <- E; now apply in_map).
  apply in_map_iff in K as (c' & K1 & K2). eauto.
Qed.
Lemma map_skel_nth l : forall l', map skel l = map skel l' -> forall i c, nth_error l i = Some c ->
  exists c', nth_error l' i = Some c' /\ skel c = skel c'.
Proof.
  induction l as [|d l IH]; intros [|d' l'] E [|i] c H; try discriminate.
  - injection H as <-. exists d'. split; [reflexivity|]. exact (f_equal (hd (skel d)) E).
  - apply (f_equal (@tl _)) in E. now apply (IH l' E i c).
Qed.

Lemma wf_static s t : same_static s t -> model_wf t -> model_wf s.
Proof.
  intros (E1 & E2 & E3 & _) (W1 & W2 & W3). split; [|split].
  - intros c Hc. destruct (map_skel_in _ _ E1 c Hc) as (c' & H' & Es). injection Es as -> _ _. auto.
  - now rewrite E3.
  - intros p Hp. assert (K : In (fst p) (map fst (ms_exprs t))) by (rewrite <- E2; now apply in_map).
    apply in_map_iff in K as (q & K1 & K2). rewrite <- K1. auto.
Qed.
Lemma move_ok_static s t ml : same_static s t -> move_ok t ml -> move_ok s ml.
Proof.
  intros (E1 & _ & _ & _ & E5 & E6 & _) (P & F & U). split; [exact P|]. split; [now rewrite E5|].
  rewrite E6. destruct U as [U|[N C]]; [now left|right]. split; [exact N|].
  intros i c v Hn He Hv Hi. destruct (map_skel_nth _ _ E1 i c Hn) as (c' & H' & Es). unfold skel in Es.
  assert (ct_expr c = ct_expr c') by congruence. assert (ct_enabled c = ct_enabled c') by congruence.
  eapply C; [exact H'|congruence|exact Hv|congruence].
Qed.

Lemma with_violative_good s : 
  (forall c, In c (md_cons (ms_model s)) -> ct_enabled c = true -> agrees c (ms_x s) /\ margin_spec c (ms_x s)) ->
  (forall p, In p (ms_exprs s) -> snd (fst p) = true -> snd p == e_eval (fst (fst p)) (ms_x s)) ->
  (md_defined (ms_model s) = true ->
     md_obj_evalue (ms_model s) == e_eval (md_obj (ms_model s)) (ms_x s) /\
     md_obj_value (ms_model s) == e_eval (md_obj (ms_model s)) (ms_x s)) ->
  good (with_violative s).
Proof. intros H1 H2 H3. split; [exact H1|]. split; [exact H2|]. split; [exact H3|]. split; reflexivity. Qed.

Lemma set_vals_other deps f v : ~ In v (map fst deps) -> forall y,
  fold_left (fun y (d : nat * nat) => set_val y (fst d) (f y d)) deps y v = y v.
Proof.
  induction deps as [|d tl IH]; intros H y; cbn [fold_left]; [reflexivity|].
  rewrite IH by (intros K; apply H; now right). unfold set_val.
  destruct (Nat.eqb_spec v (fst d)) as [E|]; [exfalso; apply H; left; auto|reflexivity].
Qed.
Lemma lin_ext s x y : (forall v, In v (map fst s) -> x v = y v) -> lin s x == lin s y.
Proof.
  induction s as [|[v a] tl IH]; intros H; cbn [lin]; [lra|].
  rewrite (IH (fun w Hw => H w (or_intror Hw))), (H v (or_introl eq_refl)). lra.
Qed.
Lemma eval_ext e x y : (forall v, In v (keys e) -> x v = y v) -> e_eval e x == e_eval e y.
Proof. intros H. rewrite !eval_lin. now rewrite (lin_ext _ _ _ H). Qed.

Lemma ms_update_static s : same_static (ms_update s) s.
Proof.
  unfold same_static, ms_update. cbn [with_violative ms_model ms_exprs ms_fixed ms_user_defined ms_deps md_cons md_obj md_defined].
  rewrite !map_map. cbn [fst]. repeat split; try reflexivity.
Qed.
Lemma ms_update_x s v : ~ In v (map fst (ms_deps s)) -> ms_x (ms_update s) v = ms_x s v.
Proof.
  intros H. unfold ms_update. cbn [with_violative ms_x].
  apply (set_vals_other (ms_deps s) (fun y d => match nth_error _ (snd d) with Some p => Qtrunc (snd p) | None => y (fst d) end) v H).
Qed.

(** update(): everything except the named expressions refers to the new
    assignment; the named expressions were evaluated before the dependent
    variables were written. *)
Lemma ms_update_good s :
  (forall p, In p (ms_exprs s) -> snd (fst p) = true -> forall d, In d (map fst (ms_deps s)) -> ~ In d (keys (fst (fst p)))) ->
  good (ms_update s).
Proof.
  intros Hd. apply with_violative_good; cbn [ms_model ms_exprs ms_x md_cons md_obj md_defined md_obj_evalue md_obj_value].
  - intros c Hc _. apply in_map_iff in Hc as (c0 & <- & _). split; [apply refresh_agrees|apply refresh_margin]; reflexivity.
  - intros p Hp He. apply in_map_iff in Hp as (q & <- & Hq). cbn [fst snd] in *.
    apply eval_ext. intros v Hv. symmetry. apply ms_update_x. intros K. now apply (Hd q Hq He v K).
  - intros ->. split; reflexivity.
Qed.

Lemma write_mutable_apply fixed m : (forall v n, In (v, n) m -> fixed v = false) -> forall x,
  write_mutable fixed x m = apply_move x m.
Proof.
  unfold write_mutable, apply_move.
  induction m as [|[v n] tl IH]; intros H x; cbn [fold_left fst snd]; [reflexivity|].
  rewrite (H v n (or_introl eq_refl)). apply IH. intros w k K. apply (H w k). now right.
Qed.

Lemma step_static s ml : same_static (ms_update_move s (fst ml) (snd ml)) s.
Proof.
  unfold same_static, ms_update_move. cbn [with_violative ms_model ms_exprs ms_fixed ms_user_defined ms_deps md_cons md_obj md_defined].
  split; [|split; [|repeat split; reflexivity]].
  - destruct (ms_user_defined s).
    + rewrite map_map. apply map_ext. intros c. destruct (ct_enabled c) eqn:E; reflexivity.
    + generalize (md_cons (ms_model s)) as l. induction (snd ml) as [|i L IH]; intros l; cbn [fold_left]; [reflexivity|].
      rewrite IH. revert i. induction l as [|c l IHl]; intros [|i]; cbn; try reflexivity. now rewrite IHl.
  - rewrite map_map. apply map_ext. intros p. destruct (snd (fst p)); reflexivity.
Qed.

Lemma step_good s ml : model_wf s -> move_ok s ml -> good s ->
  good (ms_update_move s (fst ml) (snd ml)) /\ ms_x (ms_update_move s (fst ml) (snd ml)) = apply_move (ms_x s) (fst ml).
Proof.
  intros (W1 & W2 & W3) (P & F & U) (G1 & G2 & G3 & _ & _).
  assert (Hx : ms_x (ms_update_move s (fst ml) (snd ml)) = apply_move (ms_x s) (fst ml)).
  { unfold ms_update_move. cbn [with_violative ms_x]. now apply write_mutable_apply. }
  split; [|exact Hx].
  assert (Upd : forall c, In c (md_cons (ms_model s)) -> ct_enabled c = true ->
    agrees (c_update_move c (ms_x s) (fst ml)) (apply_move (ms_x s) (fst ml)) /\
    margin_spec (c_update_move c (ms_x s) (fst ml)) (apply_move (ms_x s) (fst ml))).
  { intros c Hc He. destruct (G1 c Hc He) as [Ha _].
    assert (E : c_eval_move c (ms_x s) (fst ml) == e_eval (ct_expr c) (apply_move (ms_x s) (fst ml))).
    { apply e_eval_move_correct; [now apply W1|exact P|apply Ha]. }
    split; [now apply refresh_agrees|now apply refresh_margin]. }
  apply with_violative_good; cbn [ms_model ms_exprs ms_x md_cons md_obj md_defined md_obj_evalue md_obj_value];
    rewrite ?(write_mutable_apply _ _ F).
  - intros c' Hc He. destruct (ms_user_defined s).
    + apply in_map_iff in Hc as (c & <- & Hc). destruct (ct_enabled c) eqn:Ec; [now apply Upd|congruence].
    + destruct U as [U|[N C]]; [discriminate|].
      apply In_nth_error in Hc as (i & Hi). rewrite (nth_fold_update _ _ N) in Hi.
      destruct (existsb (Nat.eqb i) (snd ml)) eqn:Ex.
      * destruct (nth_error (md_cons (ms_model s)) i) as [c|] eqn:Hn; [|discriminate]. injection Hi as <-.
        apply Upd; [eapply nth_error_In; eassumption|exact He].
      * assert (Hin : In c' (md_cons (ms_model s))) by (eapply nth_error_In; eassumption).
        assert (E : e_eval (ct_expr c') (apply_move (ms_x s) (fst ml)) == e_eval (ct_expr c') (ms_x s)).
        { apply unchanged; [now apply W1|exact P|]. intros v Hv K.
          assert (Hi' : In i (snd ml)) by (eapply C; eassumption).
          assert (existsb (Nat.eqb i) (snd ml) = true) by (apply existsb_exists; exists i; split; [exact Hi'|apply Nat.eqb_refl]).
          congruence. }
        destruct (G1 c' Hin He) as [(A1 & A2 & A3 & A4 & A5) M]. split.
        -- split; [now rewrite A1, E|]. split; [now rewrite A2, E|]. split; [now rewrite A3, E|].
           split; [now rewrite A4, E|]. apply (distance_comp (e_eval (ct_expr c') (ms_x s))); [now rewrite E|exact A5].
        -- unfold margin_spec in *. rewrite M. destruct (ct_sense c'); try reflexivity; rewrite ?below_qmax, ?above_qmax, E; reflexivity.
  - intros p Hp He. apply in_map_iff in Hp as (q & <- & Hq). destruct (snd (fst q)) eqn:Eq.
    + cbn [fst snd]. apply e_eval_move_correct; [now apply W3|exact P|now apply G2].
    + congruence.
  - intros Hd. rewrite Hd. destruct (G3 Hd) as [O1 O2].
    assert (E : e_eval_move (md_obj (ms_model s)) (md_obj_evalue (ms_model s)) (ms_x s) (fst ml) == e_eval (md_obj (ms_model s)) (apply_move (ms_x s) (fst ml)))
      by now apply e_eval_move_correct.
    now split.
Qed.

Lemma run_good ms : forall s, model_wf s -> good s -> Forall (move_ok s) ms ->
  good (ms_run s ms) /\ same_static (ms_run s ms) s /\
  ms_x (ms_run s ms) = fold_left apply_move (map fst ms) (ms_x s).
Proof.
  unfold ms_run. induction ms as [|ml ms IH]; intros s W G H; cbn [fold_left map].
  - split; [exact G|]. split; [repeat split; reflexivity|reflexivity].
  - inversion H as [|? ? H1 H2]; subst. destruct (step_good s ml W H1 G) as [G' X'].
    pose proof (step_static s ml) as S'.
    destruct (IH (ms_update_move s (fst ml) (snd ml))) as (R1 & R2 & R3).
    + now apply (wf_static _ _ S').
    + exact G'.
    + apply Forall_forall. intros ml' Hin. apply (move_ok_static _ _ ml' S'). rewrite Forall_forall in H2. now apply H2.
    + split; [exact R1|]. split; [eapply static_trans; eassumption|]. now rewrite R3, X'.
Qed.

Lemma distance_unique l s r d d' : distance l s r d -> distance l s r d' -> d == d'.
Proof.
  intros H H'. inversion H as [? ? ? A1 A2|? ? A1 A2|? ? A1 A2|? ? A1 A2]; subst;
  inversion H' as [? ? ? B1 B2|? ? B1 B2|? ? B1 B2|? ? B1 B2]; subst; cbn [holds] in *; try lra;
  try (exfalso; lra); try (exfalso; tauto).
Qed.
Lemma distance_viol c x d : distance (e_eval (ct_expr c) x) (ct_sense c) 0 d -> d == viol c x.
Proof.
  intros H. apply (distance_unique _ _ _ _ _ H). unfold viol, above, below.
  set (v := e_eval (ct_expr c) x). clearbody v. destruct (ct_sense c).
  - destruct (Qlt_le_dec 0 v); [apply dist_less; lra|apply dist_sat; cbn; lra].
  - destruct (Qlt_le_dec 0 v), (Qlt_le_dec v 0); try lra.
    + apply dist_equal; [lra|]. rewrite Qabs_pos; lra.
    + apply dist_equal; [lra|]. rewrite Qabs_neg; lra.
    + apply dist_sat; cbn; lra.
  - destruct (Qlt_le_dec v 0); [apply dist_greater; lra|apply dist_sat; cbn; lra].
Qed.

Lemma agrees_same c c' x x' : skel c = skel c' ->
  (ct_enabled c = true -> e_eval (ct_expr c) x == e_eval (ct_expr c) x') ->
  (ct_enabled c = true -> agrees c x /\ margin_spec c x) -> (ct_enabled c' = true -> agrees c' x' /\ margin_spec c' x') -> same_constraint c c'.
Proof.
  intros Es E A A'. unfold skel in Es. assert (E1 : ct_expr c = ct_expr c') by congruence.
  assert (E2 : ct_sense c = ct_sense c') by congruence. assert (E3 : ct_enabled c = ct_enabled c') by congruence.
  split; [exact E1|]. split; [exact E2|]. split; [exact E3|]. intros He. specialize (E He).
  destruct (A He) as ((_ & A2 & A3 & A4 & A5) & M). rewrite E3 in He. destruct (A' He) as ((_ & B2 & B3 & B4 & B5) & M').
  rewrite <- E1 in *. rewrite <- E2 in *.
  split; [now rewrite A2, B2, E|]. split; [now rewrite A3, B3, E|]. split; [now rewrite A4, B4, E|]. split.
  - apply (distance_unique _ _ _ _ _ (distance_comp _ _ _ _ E A5) B5).
  - unfold margin_spec in *. rewrite <- E2 in M'. rewrite M, M'.
    destruct (ct_sense c); try reflexivity; rewrite ?below_qmax, ?above_qmax, <- E1, E; reflexivity.
Qed.

Lemma forall2_skel x x' : forall l l', map skel l = map skel l' ->
  (forall c, In c l -> ct_enabled c = true -> e_eval (ct_expr c) x == e_eval (ct_expr c) x') ->
  (forall c, In c l -> ct_enabled c = true -> agrees c x /\ margin_spec c x) ->
  (forall c, In c l' -> ct_enabled c = true -> agrees c x' /\ margin_spec c x') ->
  Forall2 same_constraint l l'.
Proof.
  induction l as [|c l IH]; intros [|c' l'] E H1 H2 H3; try discriminate; constructor.
  - apply (agrees_same c c' x x'); [exact (f_equal (hd (skel c)) E)|apply H1; now left|apply H2; now left|apply H3; now left].
  - apply IH; [exact (f_equal (@tl _) E)|intros; apply H1|intros; apply H2|intros; apply H3]; cbn; auto.
Qed.

Lemma violative_same l l' : Forall2 same_constraint l l' -> violative l = violative l'.
Proof.
  unfold violative. intros H.
  assert (L : length l = length l') by (clear - H; induction H; cbn; congruence). rewrite <- L.
  generalize (seq 0 (length l)) as q. clear L. induction H as [|c c' l l' Hc H IH]; intros [|i q]; cbn; try reflexivity.
  destruct Hc as (_ & _ & E3 & E). rewrite <- E3. destruct (ct_enabled c); cbn [andb]; [|apply IH].
  destruct (E eq_refl) as (_ & _ & _ & V & _). unfold c_is_feasible.
  rewrite (ltb_comp _ _ EPS V). destruct (Qlt_le_dec (ct_violation c') EPS); cbn; [apply IH|now rewrite IH].
Qed.

Lemma history_same s0 ms : model_wf s0 -> dependents_eliminated s0 ->
  (forall p, In p (ms_exprs s0) -> snd (fst p) = true -> forall d, In d (map fst (ms_deps s0)) -> ~ In d (keys (fst (fst p)))) ->
  Forall (move_ok s0) ms ->
  let s := ms_run (ms_update s0) ms in
  ms_x s = fold_left apply_move (map fst ms) (ms_x (ms_update s0)) /\ same_caches s (ms_update s).
Proof.
  intros W D Hd H. cbv zeta.
  pose proof (ms_update_static s0) as S0.
  destruct (run_good ms (ms_update s0)) as (G & S & X).
  - now apply (wf_static _ _ S0).
  - now apply ms_update_good.
  - apply Forall_forall. intros ml Hml. apply (move_ok_static _ _ _ S0). rewrite Forall_forall in H. now apply H.
  - split; [exact X|]. set (s := ms_run (ms_update s0) ms) in *.
    assert (S' : same_static s s0) by (eapply static_trans; eassumption).
    assert (Ddep : ms_deps s = ms_deps s0) by apply S'.
    pose proof (ms_update_static s) as Su.
    assert (Ex : forall v, ~ In v (map fst (ms_deps s)) -> ms_x (ms_update s) v = ms_x s v) by (intros; now apply ms_update_x).
    assert (Gu : forall c, In c (md_cons (ms_model (ms_update s))) -> ct_enabled c = true ->
       agrees c (ms_x (ms_update s)) /\ margin_spec c (ms_x (ms_update s))).
    { intros c Hc _. unfold ms_update in Hc. cbn [with_violative ms_model md_cons] in Hc.
      apply in_map_iff in Hc as (c0 & <- & _). split; [apply refresh_agrees|apply refresh_margin]; reflexivity. }
    assert (F2 : Forall2 same_constraint (md_cons (ms_model s)) (md_cons (ms_model (ms_update s)))).
    { apply (forall2_skel (ms_x s) (ms_x (ms_update s))); [symmetry; apply Su| |apply G|exact Gu].
      intros c Hc He. apply eval_ext. intros v Hv. symmetry. apply Ex. rewrite Ddep. intros K.
      destruct (map_skel_in _ _ (proj1 S') c Hc) as (c' & Hc' & Es). unfold skel in Es.
      apply (proj1 (D v K) c' Hc'); [congruence|]. assert (E1 : ct_expr c = ct_expr c') by congruence. now rewrite <- E1. }
    split; [exact F2|]. split; [|split; [|]].
    + unfold ms_update. cbn [with_violative ms_exprs]. destruct G as (_ & G2 & _). revert G2.
      generalize (ms_exprs s) as l. induction l as [|p l IH]; intros G2; cbn; constructor.
      * cbn [fst snd]. split; [reflexivity|]. intros He. apply (G2 p (or_introl eq_refl) He).
      * apply IH. intros q Hq. apply G2. now right.
    + intros Hdef. destruct G as (_ & _ & G3 & _). destruct (G3 Hdef) as [_ O]. rewrite O.
      assert (Eu : md_obj_value (ms_model (ms_update s)) = e_eval (md_obj (ms_model s)) (ms_x (ms_update s))).
      { unfold ms_update at 1. cbn [with_violative ms_model md_obj_value]. now rewrite Hdef. }
      rewrite Eu. apply eval_ext. intros v Hv. symmetry. apply Ex. rewrite Ddep. intros K.
      apply (proj2 (D v K)). destruct S' as (_ & _ & E3 & _). now rewrite <- E3.
    + destruct G as (_ & _ & _ & V & Fe). pose proof (violative_same _ _ F2) as Ev.
      rewrite V, Fe, Ev. split; reflexivity.
Qed.

(** ** Feasibility *)
Lemma violative_nil l : Nat.eqb (length (violative l)) 0 = true <-> forall c, In c l -> ct_enabled c = true -> ct_violation c < EPS.
Proof.
  unfold violative. rewrite map_length.
  assert (H : forall q, length q = length l ->
    (Nat.eqb (length (filter (fun ic : nat * constr => ct_enabled (snd ic) && negb (c_is_feasible (snd ic))) (combine q l))) 0 = true <->
     forall c, In c l -> ct_enabled c = true -> ct_violation c < EPS)).
  { induction l as [|c l IH]; intros [|i q] L; try discriminate; cbn [combine filter length].
    - cbn. split; [intros _ c []|reflexivity].
    - injection L as L. specialize (IH q L). cbn [snd].
      destruct (ct_enabled c) eqn:Ee; cbn [andb].
      + destruct (c_is_feasible c) eqn:Ef; cbn [negb].
        * rewrite IH. apply c_feasible_iff in Ef. split; [intros K d [<-|Hd]; auto|intros K d Hd; apply K; now right].
        * cbn [length]. split; [discriminate|]. intros K. specialize (K c (or_introl eq_refl) Ee).
          apply c_feasible_iff in K. congruence.
      + rewrite IH. split; [intros K d [<-|Hd] Hx; [congruence|auto]|intros K d Hd; apply K; now right]. }
  apply H. apply seq_length.
Qed.

Lemma good_feasible s : good s -> (ms_feasible s = true <->
  forall c, In c (md_cons (ms_model s)) -> ct_enabled c = true -> viol c (ms_x s) < EPS).
Proof.
  intros (G1 & _ & _ & _ & F). rewrite F, violative_nil. split; intros H c Hc He; specialize (H c Hc He).
  - destruct (G1 c Hc He) as ((_ & _ & _ & _ & A) & _). now rewrite <- (distance_viol _ _ _ A).
  - destruct (G1 c Hc He) as ((_ & _ & _ & _ & A) & _). now rewrite (distance_viol _ _ _ A).
Qed.

Lemma viol_nonneg c x : 0 <= viol c x.
Proof.
  unfold viol, above, below. destruct (ct_sense c);
  repeat match goal with |- context [Qlt_le_dec ?a ?b] => destruct (Qlt_le_dec a b) end; lra.
Qed.

Lemma integral_small q z : q == inject_Z z -> 0 <= q -> q < 1 -> q == 0.
Proof.
  intros E H0 H1. rewrite E in *. change 0 with (inject_Z 0) in *. change 1 with (inject_Z 1) in H1.
  rewrite <- Zle_Qle in H0. rewrite <- Zlt_Qlt in H1. replace z with 0%Z by lia. reflexivity.
Qed.
Lemma sum_enabled_small cons x : (forall c, In c cons -> ct_enabled c = true -> exists z, viol c x == inject_Z z) ->
  (sum_enabled (fun c => viol c x) cons <= EPS <-> forall c, In c cons -> ct_enabled c = true -> viol c x < EPS).
Proof.
  intros Hint.
  assert (Nn : forall l, 0 <= sum_enabled (fun c => viol c x) l).
  { induction l as [|c l IH]; cbn [sum_enabled]; [lra|]. pose proof (viol_nonneg c x). destruct (ct_enabled c); lra. }
  assert (HE : EPS < 1) by reflexivity. assert (HP : 0 < EPS) by reflexivity.
  induction cons as [|c l IH]; cbn [sum_enabled].
  - split; [intros _ c []|lra].
  - specialize (IH (fun d Hd => Hint d (or_intror Hd))). pose proof (Nn l). pose proof (viol_nonneg c x). split.
    + intros K d [<-|Hd] He.
      * rewrite He in K. destruct (Hint c (or_introl eq_refl) He) as (z & Hz).
        rewrite (integral_small _ _ Hz); lra.
      * apply IH; auto. destruct (ct_enabled c); lra.
    + intros K. assert (K' : sum_enabled (fun c => viol c x) l <= EPS) by (apply IH; intros; apply K; auto; now right).
      destruct (ct_enabled c) eqn:He; [|lra].
      destruct (Hint c (or_introl eq_refl) He) as (z & Hz).
      specialize (K c (or_introl eq_refl) He). rewrite (integral_small _ _ Hz); lra.
Qed.

(** ** The margin flag *)
Definition margin_ok (c : constr) (x : nat -> Z) : Prop :=
  margin_spec c x /\ (ct_has_margin c = true -> ct_only_binary_var c = true /\ ct_max_abs c <= ct_margin c).

Lemma update_move_margin c x m : wf (ct_expr c) -> proper m -> ct_evalue c == e_eval (ct_expr c) x ->
  margin_ok (c_update_move c x m) (apply_move x m).
Proof.
  intros W P E. split.
  - apply refresh_margin. now apply e_eval_move_correct.
  - unfold c_update_move. cbn [c_refresh ct_has_margin ct_only_binary_var ct_max_abs ct_margin].
    intros H. apply andb_true_iff in H as [H1 H2]. split; [exact H1|].
    destruct (Qlt_le_dec _ (ct_max_abs c)) as [|L]; [discriminate|exact L].
Qed.

Lemma lin_int s x : (forall v a, In (v, a) s -> exists z, a == inject_Z z) -> exists z, lin s x == inject_Z z.
Proof.
  induction s as [|[v a] tl IH]; intros H; cbn [lin].
  - exists 0%Z. reflexivity.
  - destruct (H v a (or_introl eq_refl)) as (za & Ea). destruct IH as (z & E); [intros; eapply H; right; eassumption|].
    exists (za * x v + z)%Z. rewrite E, Ea, inject_Z_plus, inject_Z_mult. lra.
Qed.

Lemma update_margin_int c x M : (forall v a, In (v, a) (ex_sens (ct_expr c)) -> exists z, a == inject_Z z) ->
  (exists z, ex_const (ct_expr c) == inject_Z z) -> ct_max_abs c == inject_Z M ->
  margin_ok (c_update c x) x.
Proof.
  intros H (k & Hk) HM. split; [apply refresh_margin; reflexivity|].
  unfold c_update. cbn [c_refresh ct_has_margin ct_only_binary_var ct_max_abs ct_margin].
  intros Hb. apply andb_true_iff in Hb as [H1 H2]. split; [exact H1|].
  destruct (Qlt_le_dec _ (ct_max_abs c - EPS10)) as [|L]; [discriminate|]. clear H2.
  destruct (lin_int _ x H) as (z & Hz).
  assert (V : e_eval (ct_expr c) x == inject_Z (z + k)) by (rewrite eval_lin, Hz, Hk, inject_Z_plus; lra).
  assert (Z1 : forall q, (exists w, q == inject_Z w) -> ct_max_abs c - EPS10 <= q -> ct_max_abs c <= q).
  { intros q (w & Hw) Hq. rewrite HM, Hw in *. rewrite <- Zle_Qle.
    destruct (Z_lt_le_dec w M) as [C|C]; [|exact C]. exfalso.
    assert (D : inject_Z w <= inject_Z M - 1).
    { change 1 with (inject_Z 1). unfold Qminus. rewrite <- inject_Z_opp, <- inject_Z_plus, <- Zle_Qle. lia. }
    assert (HE : EPS10 < 1) by reflexivity. lra. }
  apply Z1; [|exact L].
  destruct (ct_sense c).
  - exists (Z.max (- (z + k)) 0). rewrite neg_qmin. unfold qmax.
    destruct (Qlt_le_dec (- e_eval (ct_expr c) x) 0) as [A|A]; rewrite V, <- inject_Z_opp in A; change 0 with (inject_Z 0) in A.
    + rewrite <- Zlt_Qlt in A. rewrite Z.max_r by lia. reflexivity.
    + rewrite <- Zle_Qle in A. rewrite Z.max_l by lia. rewrite V, inject_Z_opp. reflexivity.
  - exists 0%Z. reflexivity.
  - exists (Z.max (z + k) 0). unfold qmax.
    destruct (Qlt_le_dec (e_eval (ct_expr c) x) 0) as [A|A]; rewrite V in A; change 0 with (inject_Z 0) in A.
    + rewrite <- Zlt_Qlt in A. rewrite Z.max_r by lia. reflexivity.
    + rewrite <- Zle_Qle in A. rewrite Z.max_l by lia. exact V.
Qed.

(** Integral coefficients have an integral largest absolute value. *)
Lemma max_abs_int s : (forall v a, In (v, a) s -> exists z, a == inject_Z z) -> forall m, (exists z, m == inject_Z z) ->
  exists z, fold_left (fun m p => qmax m (Qabs (@snd nat Q p))) s m == inject_Z z.
Proof.
  induction s as [|[v a] tl IH]; intros H m Hm; cbn [fold_left snd]; [exact Hm|].
  apply IH; [intros; eapply H; right; eassumption|].
  destruct (H v a (or_introl eq_refl)) as (z & Hz). destruct Hm as (w & Hw).
  unfold qmax. destruct (Qlt_le_dec m (Qabs a)); [exists (Z.abs z); rewrite Hz; reflexivity|exists w; exact Hw].
Qed.

Definition setup_integral (e : expr) : Prop :=
  (forall v a, In (v, a) (ex_sens e) -> exists z, a == inject_Z z) /\ exists z, ex_const e == inject_Z z.

Lemma margin_history c0 x0 es : wf (ct_expr c0) -> setup_integral (ct_expr c0) -> (exists M, ct_max_abs c0 == inject_Z M) ->
  Forall event_proper es ->
  let r := fold_left c_step es (c_update c0 x0, x0) in
  margin_ok (fst r) (snd r).
Proof.
  intros W (I1 & I2) (M & HM) He. cbv zeta.
  assert (Inv : forall es, Forall event_proper es -> forall c x, ct_expr c = ct_expr c0 -> ct_max_abs c = ct_max_abs c0 ->
    agrees c x -> margin_ok c x -> margin_ok (fst (fold_left c_step es (c, x))) (snd (fold_left c_step es (c, x)))).
  { clear es He. induction es as [|e es IH]; intros He c x E1 E2 A K; cbn [fold_left]; [exact K|].
    inversion He as [|? ? H1 H2]; subst. destruct e as [|m]; cbn [c_step fst snd].
    - apply IH; auto; [apply refresh_agrees; reflexivity|]. apply (update_margin_int c x M); rewrite ?E1, ?E2; auto.
    - apply IH; auto; [apply refresh_agrees; apply e_eval_move_correct; [now rewrite E1|exact H1|apply A]|].
      apply update_move_margin; [now rewrite E1|exact H1|apply A]. }
  apply Inv; auto; [apply refresh_agrees; reflexivity|]. apply (update_margin_int c0 x0 M); auto.
Qed.

Lemma margin_truthful_setup e s is01 x0 es x n : wf e -> setup_integral e -> Forall event_proper es ->
  let r := fold_left c_step es (c_update (c_setup e s is01) x0, x0) in
  let c := fst r in
  snd r = x -> forall v a, ct_has_margin c = true -> In (v, a) (ex_sens (ct_expr c)) ->
  (forall w, In w (keys e) -> is01 w = true -> (0 <= x w <= 1)%Z) -> (is01 v = true -> (0 <= n <= 1)%Z) ->
  (Z.abs (n - x v) <= 1)%Z /\ Qabs a <= ct_margin c /\
  ct_margin c == match ct_sense c with Less => below c x | Equal => 0 | Greater => above c x end.
Proof.
  intros W I He. cbv zeta. intros Hx v a Hm Hv H01 Hn.
  assert (HM : exists M, ct_max_abs (c_setup e s is01) == inject_Z M).
  { cbn [c_setup ct_max_abs]. apply max_abs_int; [apply I|]. exists 0%Z. reflexivity. }
  pose proof (margin_history (c_setup e s is01) x0 es W I HM He) as [K1 K2]. cbv zeta in K1, K2. rewrite Hx in K1.
  assert (St : forall es c x, let r := fold_left c_step es (c, x) in
     ct_expr (fst r) = ct_expr c /\ ct_max_abs (fst r) = ct_max_abs c /\ ct_only_binary_var (fst r) = ct_only_binary_var c).
  { clear. induction es as [|e0 es IH]; intros c x; cbn [fold_left]; [repeat split; reflexivity|].
    destruct e0 as [|m]; cbn [c_step fst snd]; [exact (IH (c_update c x) x)|exact (IH (c_update_move c x m) (apply_move x m))]. }
  destruct (St es (c_update (c_setup e s is01) x0) x0) as (E1 & E2 & E3). cbv zeta in E1, E2, E3.
  set (c := fst (fold_left c_step es (c_update (c_setup e s is01) x0, x0))) in *.
  destruct (K2 Hm) as [B Mx]. rewrite E1 in Hv. change (In (v, a) (ex_sens e)) in Hv.
  rewrite E3 in B. change (forallb (fun p => is01 (fst p)) (ex_sens e) = true) in B.
  assert (Hb : is01 v = true) by (rewrite forallb_forall in B; exact (B (v, a) Hv)).
  assert (Hk : In v (keys e)) by (apply in_map_iff; exists (v, a); auto).
  split; [pose proof (H01 v Hk Hb); specialize (Hn Hb); lia|]. split; [|exact K1].
  apply Qle_trans with (ct_max_abs c); [|exact Mx]. rewrite E2. now apply (setup_max_abs e s is01 v).
Qed.

(** A state reached by a history is consistent in the sense used by the
    evaluators. *)
Lemma good_consistent s : model_wf s -> good s -> consistent (ms_model s) (ms_x s).
Proof.
  intros (W1 & W2 & _) (G1 & _ & G3 & _). split; [exact W1|]. split; [exact W2|]. split; [|exact G3].
  intros c Hc He. apply (G1 c Hc He).
Qed.

Lemma reached_consistent s0 ms : model_wf s0 ->
  (forall p, In p (ms_exprs s0) -> snd (fst p) = true -> forall d, In d (map fst (ms_deps s0)) -> ~ In d (keys (fst (fst p)))) ->
  Forall (move_ok s0) ms ->
  let s := ms_run (ms_update s0) ms in
  good s /\ consistent (ms_model s) (ms_x s).
Proof.
  intros W Hd H. cbv zeta. pose proof (ms_update_static s0) as S0.
  destruct (run_good ms (ms_update s0)) as (G & S & X).
  - now apply (wf_static _ _ S0).
  - now apply ms_update_good.
  - apply Forall_forall. intros ml Hml. apply (move_ok_static _ _ _ S0). rewrite Forall_forall in H. now apply H.
  - split; [exact G|]. apply good_consistent; [|exact G]. apply (wf_static _ _ (static_trans _ _ _ S S0)). exact W.
Qed.

(** Evaluating the empty move gives the score of the current solution. *)
Lemma evaluate_current md x : consistent md x -> current md x (evaluate md x []).
Proof.
  intros C. destruct (full_correct md x [] C (NoDup_nil _)) as (_ & _ & H1 & H2 & _). split; assumption.
Qed.

Lemma feasible_reached s0 ms : model_wf s0 ->
  (forall p, In p (ms_exprs s0) -> snd (fst p) = true -> forall d, In d (map fst (ms_deps s0)) -> ~ In d (keys (fst (fst p)))) ->
  Forall (move_ok s0) ms ->
  let s := ms_run (ms_update s0) ms in
  (ms_feasible s = true <->
   forall c, In c (md_cons (ms_model s)) -> ct_enabled c = true -> viol c (ms_x s) < EPS).
Proof. intros W Hd H. apply good_feasible. now apply reached_consistent. Qed.

Lemma feasible_flags_agree s0 ms : model_wf s0 ->
  (forall p, In p (ms_exprs s0) -> snd (fst p) = true -> forall d, In d (map fst (ms_deps s0)) -> ~ In d (keys (fst (fst p)))) ->
  Forall (move_ok s0) ms ->
  let s := ms_run (ms_update s0) ms in
  (forall c, In c (md_cons (ms_model s)) -> ct_enabled c = true -> exists z, viol c (ms_x s) == inject_Z z) ->
  sc_feasible (evaluate (ms_model s) (ms_x s) []) = ms_feasible s.
Proof.
  intros W Hd H. cbv zeta. intros Hi.
  destruct (reached_consistent s0 ms W Hd H) as [G C]. cbv zeta in G, C.
  set (s := ms_run (ms_update s0) ms) in *.
  destruct (full_correct (ms_model s) (ms_x s) [] C (NoDup_nil _)) as (_ & _ & _ & _ & _ & _ & _ & F & _).
  cbv zeta in F. cbn [apply_move fold_left] in F. rewrite (sum_enabled_small _ _ Hi) in F.
  pose proof (good_feasible s G) as K. apply eq_true_iff_eq. rewrite F, K. reflexivity.
Qed.

Lemma selection_score md x v0 n0 v1 n1 cs0 cs1 own vars related cur :
  consistent md x -> current md x cur -> v0 <> v1 -> In v0 vars -> In v1 vars ->
  Permutation cs0 (constraint_sensitivities (md_cons md) v0) ->
  Permutation cs1 (constraint_sensitivities (md_cons md) v1) ->
  Permutation related (selection_related (md_cons md) own vars) ->
  (forall c, nth_error (md_cons md) own = Some c -> ct_enabled c = false) ->
  no_tiny_change md x (apply_move x [(v0, n0); (v1, n1)]) ->
  scores md x (apply_move x [(v0, n0); (v1, n1)])
    (evaluate_selection md x (v0, n0) (v1, n1) cs0 cs1 related cur).
Proof.
  intros C Hc Nv I0 I1 P0 P1 Pr Ho Ht.
  destruct (selection_related_ok _ _ _ _ Pr Ho) as [N Cv].
  apply selection_correct; auto. apply Cv. intros v [<-|[<-|[]]]; assumption.
Qed.
