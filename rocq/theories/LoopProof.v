(** Proofs for C52. *)
From Coq Require Import List ZArith QArith Qabs Permutation Lia Lqa Bool.
From Verif Require Import ExprModel ExprSpec ExprProof ConstraintModel ConstraintSpec ConstraintProof EvalModel EvalSpec EvalSpec2
  EvalProof EvalProof2 EvalProof3 SolutionModel SolutionSpec SolutionProof TabuModel TabuSpec TabuProof LoopModel LoopSpec.
Import ListNotations.
Local Open Scope Q_scope.

Definition frame (c : constr) :=
  (ct_expr c, ct_sense c, ct_enabled c, ct_only_binary_var c, ct_max_abs c, ct_pen_less c, ct_pen_greater c).
Definition same_frame (s t : mstate) : Prop :=
  map frame (md_cons (ms_model s)) = map frame (md_cons (ms_model t)) /\
  md_sign (ms_model s) = md_sign (ms_model t) /\ md_gpen (ms_model s) = md_gpen (ms_model t) /\ same_static s t.
Lemma frame_skel l : forall l', map frame l = map frame l' -> map skel l = map skel l'.
Proof.
  induction l as [|c l IH]; intros [|c' l'] H; try discriminate; [reflexivity|]. injection H as H1 H2 H3 H4 H5 H6 H7 H8.
  cbn [map]. f_equal; [unfold skel; congruence|now apply IH].
Qed.
Lemma frame_trans s t u : same_frame s t -> same_frame t u -> same_frame s u.
Proof. intros (A1 & A2 & A3 & A4) (B1 & B2 & B3 & B4). split; [congruence|]. split; [congruence|]. split; [congruence|]. eapply static_trans; eassumption. Qed.
Lemma static_sym s t : same_static s t -> same_static t s.
Proof. intros (A & B & C & D & E & F & G). repeat split; congruence. Qed.
Lemma frame_sym s t : same_frame s t -> same_frame t s.
Proof. intros (A & B & C & D). repeat split; try congruence; apply static_sym in D; apply D. Qed.
Lemma frame_in s t : same_frame s t -> forall c, In c (md_cons (ms_model s)) -> exists c', In c' (md_cons (ms_model t)) /\ frame c = frame c'.
Proof.
  intros (A & _) c Hc. assert (H : In (frame c) (map frame (md_cons (ms_model t)))) by (rewrite <- A; now apply in_map).
  apply in_map_iff in H as (c' & H1 & H2). exists c'. auto.
Qed.

Lemma sum_frame (f : constr -> Q) : (forall c c', frame c = frame c' -> f c == f c') ->
  forall l l', map frame l = map frame l' -> sum_enabled f l == sum_enabled f l'.
Proof.
  intros Hf. induction l as [|c l IH]; intros [|c' l'] H; try discriminate; [reflexivity|].
  assert (H0 : frame c = frame c') by (cbn [map] in H; injection H; intros; unfold frame; congruence).
  assert (H1 : map frame l = map frame l') by (cbn [map] in H; injection H; intros; assumption).
  cbn [sum_enabled]. rewrite (IH _ H1). assert (He : ct_enabled c = ct_enabled c') by (unfold frame in H0; congruence). rewrite He.
  destruct (ct_enabled c'); [|reflexivity]. now rewrite (Hf _ _ H0).
Qed.
Lemma viol_frame x c c' : frame c = frame c' -> viol c x == viol c' x.
Proof.
  intros H. assert (E : ct_expr c = ct_expr c' /\ ct_sense c = ct_sense c') by (unfold frame in H; split; congruence).
  unfold viol, above, below. destruct E as [-> ->]. reflexivity.
Qed.
Lemma penalty_frame x c c' : frame c = frame c' -> penalty c x == penalty c' x.
Proof.
  intros H. assert (E : ct_expr c = ct_expr c' /\ ct_sense c = ct_sense c' /\ ct_pen_less c = ct_pen_less c' /\ ct_pen_greater c = ct_pen_greater c')
    by (unfold frame in H; repeat split; congruence).
  unfold penalty, above, below. destruct E as (-> & -> & -> & ->). reflexivity.
Qed.
Lemma scores_frame s t x y sc : same_frame s t -> scores (ms_model s) x y sc -> scores (ms_model t) x y sc.
Proof.
  intros (A & B & C & (_ & _ & D & E & _)). unfold scores. rewrite B, C, D, E.
  pose proof (sum_frame (fun c => viol c y) (viol_frame y) _ _ A) as V. pose proof (sum_frame (fun c => penalty c y) (penalty_frame y) _ _ A) as P.
  cbv zeta. intros (H1 & H2 & H3 & H4 & H5 & H6 & H7 & H8 & H9). rewrite V in H3, H5, H7, H8. rewrite P in H4, H6. tauto.
Qed.
Lemma true_frame s t y sc : same_frame s t -> true_score (ms_model s) y sc -> true_score (ms_model t) y sc.
Proof. intros F (x & H). exists x. now apply (scores_frame s t). Qed.
Lemma true_current s x sc : true_score (ms_model s) x sc -> current (ms_model s) x sc.
Proof. intros (x0 & H1 & H2 & H3 & H4 & _). split; assumption. Qed.

(** ** Frames are preserved *)
Lemma update_frame s : same_frame (ms_update s) s.
Proof.
  split; [|split; [reflexivity|split; [reflexivity|apply ms_update_static]]].
  cbn [ms_update with_violative ms_model md_cons]. rewrite map_map. reflexivity.
Qed.
Lemma move_frame s ml : same_frame (ms_update_move s (fst ml) (snd ml)) s.
Proof.
  split; [|split; [reflexivity|split; [reflexivity|apply step_static]]].
  cbn [ms_update_move with_violative ms_model md_cons]. destruct (ms_user_defined s).
  - rewrite map_map. apply map_ext. intros c. destruct (ct_enabled c) eqn:E; [unfold frame; cbn; now rewrite E|reflexivity].
  - generalize (md_cons (ms_model s)) as l. induction (snd ml) as [|i L IH]; intros l; cbn [fold_left]; [reflexivity|].
    rewrite IH. revert i. induction l as [|c l IHl]; intros [|i]; cbn [update_nth map]; try reflexivity. now rewrite IHl.
Qed.
Lemma export_frame s : same_frame (ms_export s) s.
Proof.
  assert (Fr : map frame (md_cons (ms_model (ms_export s))) = map frame (md_cons (ms_model s))).
  { cbn [ms_export ms_model md_cons]. rewrite map_map. apply map_ext. intros c. destruct (ct_enabled c) eqn:E; [reflexivity|].
    unfold frame. cbn. now rewrite E. }
  split; [exact Fr|]. split; [reflexivity|]. split; [reflexivity|].
  split; [now apply frame_skel|]. split; [|repeat split; reflexivity].
  cbn [ms_export ms_exprs]. rewrite map_map. apply map_ext. reflexivity.
Qed.

(** ** The invariant of a model state *)
Definition flag_ok (c : constr) : Prop := ct_has_margin c = true -> ct_only_binary_var c = true /\ ct_max_abs c <= ct_margin c.
Definition minv (is01 : nat -> bool) (s0 s : mstate) : Prop :=
  good s /\ same_frame s s0 /\ (forall c, In c (md_cons (ms_model s)) -> ct_enabled c = true -> flag_ok c) /\
  (forall v, is01 v = true -> ~ In v (map fst (ms_deps s0)) -> (0 <= ms_x s v <= 1)%Z).

Lemma export_x s v : ~ In v (map fst (ms_deps s)) -> ms_x (ms_export s) v = ms_x s v.
Proof. exact (ms_update_x s v). Qed.
Lemma minv_static is01 s0 s : minv is01 s0 s -> model_wf s0 -> model_wf s.
Proof. intros (_ & (_ & _ & _ & St) & _). intros W. exact (wf_static _ _ St W). Qed.

Lemma start_update is01 s0 : loop_start is01 s0 -> minv is01 s0 (ms_update s0).
Proof.
  intros (W & D & Ex & C & X). split; [apply ms_update_good; exact Ex|]. split; [apply update_frame|]. split.
  - intros c' Hc He. cbn [ms_update with_violative ms_model md_cons] in Hc. apply in_map_iff in Hc as (c & <- & Hc).
    destruct (C c Hc He) as (C1 & C2 & (M & C3) & _).
    refine (proj2 (update_margin_int c _ M _ C2 C3)). intros v a Hv. apply (C1 v a Hv).
  - intros v H01 Hd. rewrite (ms_update_x s0 v Hd). now apply X.
Qed.

Lemma eval_export s0 s e : same_frame s s0 -> (forall d, In d (map fst (ms_deps s0)) -> ~ In d (keys e)) ->
  e_eval e (ms_x (ms_export s)) == e_eval e (ms_x s).
Proof.
  intros (_ & _ & _ & (_ & _ & _ & _ & _ & _ & Dp)) H. apply eval_ext. intros v Hv. apply export_x. rewrite Dp. intros K. exact (H v K Hv).
Qed.

(** A constraint that agrees with x agrees with any y giving it the same value. *)
Lemma agrees_same_value c x y : e_eval (ct_expr c) y == e_eval (ct_expr c) x -> agrees c x /\ margin_spec c x -> agrees c y /\ margin_spec c y.
Proof.
  intros E [(A1 & A2 & A3 & A4 & A5) M]. split.
  - split; [now rewrite A1, E|]. split; [now rewrite A2, E|]. split; [now rewrite A3, E|].
    split; [now rewrite A4, E|]. apply (distance_comp (e_eval (ct_expr c) x)); [now rewrite E|exact A5].
  - unfold margin_spec in *. rewrite M. destruct (ct_sense c); try reflexivity; rewrite ?below_qmax, ?above_qmax, E; reflexivity.
Qed.

Lemma violative_enabled f l : (forall c, ct_enabled c = false -> ct_enabled (f c) = false) ->
  violative (map (fun c => if ct_enabled c then c else f c) l) = violative l.
Proof.
  intros Hf. unfold violative. rewrite map_length.
  assert (G : forall l n, map fst (filter (fun ic : nat * constr => ct_enabled (snd ic) && negb (c_is_feasible (snd ic))) (combine (seq n (length l)) (map (fun c => if ct_enabled c then c else f c) l))) =
     map fst (filter (fun ic : nat * constr => ct_enabled (snd ic) && negb (c_is_feasible (snd ic))) (combine (seq n (length l)) l))).
  { clear l. induction l as [|c l IH]; intros n; cbn [length seq map combine filter]; [reflexivity|]. cbn [snd].
    destruct (ct_enabled c) eqn:E.
    - rewrite E. destruct (true && negb (c_is_feasible c)); cbn [map]; now rewrite IH.
    - rewrite (Hf c E). cbn [andb]. apply IH. }
  exact (G l 0%nat).
Qed.

Lemma export_good is01 s0 s : loop_start is01 s0 -> minv is01 s0 s -> minv is01 s0 (ms_export s).
Proof.
  intros (W & D & Ex & C & X) (G & F & Fl & R). destruct G as (G1 & G2 & G3 & G4 & G5). pose proof F as F0.
  destruct F as (F1 & F2 & F3 & (S1 & S2 & S3 & S4 & S5 & S6 & S7)).
  assert (En : forall c, In c (md_cons (ms_model (ms_export s))) -> ct_enabled c = true -> In c (md_cons (ms_model s))).
  { intros c Hc He. cbn [ms_export ms_model md_cons] in Hc. apply in_map_iff in Hc as (c0 & E & Hc). destruct (ct_enabled c0) eqn:E0; [now subst|].
    exfalso. subst c. cbn in He. congruence. }
  assert (Vi : violative (md_cons (ms_model (ms_export s))) = violative (md_cons (ms_model s))) by (apply violative_enabled; intros c H; exact H).
  split; [|split; [|split]].
  - split; [|split; [|split; [|split]]].
    + intros c Hc He. pose proof (En c Hc He) as Hc'. apply (agrees_same_value c (ms_x s)); [|now apply G1].
      apply (eval_export s0 s _ F0). intros d Hd Hk. destruct (frame_in _ _ F0 c Hc') as (c0 & Hc0 & Hf).
      assert (E : ct_expr c = ct_expr c0 /\ ct_enabled c = ct_enabled c0) by (unfold frame in Hf; split; congruence). destruct E as [E1 E2].
      apply (proj1 (D d Hd) c0 Hc0); [congruence|]. now rewrite <- E1.
    + intros p Hp He. cbn [ms_export ms_exprs] in Hp. apply in_map_iff in Hp as (q & <- & Hq). cbn [fst snd] in *.
      rewrite (eval_export s0 s _ F0); [reflexivity|]. intros d Hd.
      assert (Hq0 : In (fst q) (map (@fst (expr * bool) Q) (ms_exprs s0))) by (rewrite <- S2; now apply in_map).
      apply in_map_iff in Hq0 as (q0 & E0 & Hq0). rewrite <- E0. apply (Ex q0 Hq0); [congruence|exact Hd].
    + intros Hd. cbn [ms_export ms_model md_obj_evalue md_obj_value md_obj md_defined] in *. destruct (G3 Hd) as [O1 O2].
      assert (E : e_eval (md_obj (ms_model s)) (ms_x (ms_export s)) == e_eval (md_obj (ms_model s)) (ms_x s)).
      { apply (eval_export s0 s _ F0). intros d Hdd. rewrite S3. exact (proj2 (D d Hdd)). }
      split; rewrite E; assumption.
    + rewrite Vi. exact G4.
    + rewrite Vi. exact G5.
  - exact (frame_trans _ _ _ (export_frame s) F0).
  - intros c Hc He. apply Fl; [now apply En|exact He].
  - intros v H01 Hd. rewrite export_x; [now apply R|]. now rewrite S7.
Qed.

Lemma trial_move_ok s0 s alts related : same_frame s s0 -> proper alts -> (forall v n, In (v, n) alts -> ms_fixed s0 v = false) ->
  NoDup related -> covers (md_cons (ms_model s0)) (map fst alts) related ->
  move_ok s (alts, related) /\ covers (md_cons (ms_model s)) (map fst alts) related.
Proof.
  intros (_ & _ & _ & St) P Fx N Cv. split.
  - apply (move_ok_static _ _ _ St). split; [exact P|]. split; [exact Fx|]. right. split; assumption.
  - destruct St as (S1 & _). intros i c v Hi He Hv Hin. destruct (map_skel_nth _ _ S1 i c Hi) as (c' & Hi' & Sk).
    unfold skel in Sk. apply (Cv i c' v Hi'); [congruence|exact Hv|]. assert (E : ct_expr c = ct_expr c') by congruence. now rewrite <- E.
Qed.

Lemma apply_in v n m x : proper m -> In (v, n) m -> apply_move x m v = n.
Proof.
  unfold apply_move, proper. revert x. induction m as [|[w k] m IH]; intros x P H; [destruct H|]. cbn [map fst] in P. inversion P as [|? ? P1 P2]; subst.
  cbn [fold_left fst snd]. destruct H as [H|H].
  - injection H as <- <-. assert (G : forall y, ~ In w (map fst m) -> fold_left (fun y (a : nat * Z) => set_val y (fst a) (snd a)) m y w = y w).
    { clear. induction m as [|[u j] m IH]; intros y H; cbn [fold_left fst snd]; [reflexivity|]. cbn [map fst In] in H.
      rewrite IH by intuition. unfold set_val. destruct (Nat.eqb_spec w u); [subst; intuition|reflexivity]. }
    rewrite G by exact P1. unfold set_val. now rewrite Nat.eqb_refl.
  - now apply IH.
Qed.
Lemma apply_out v m : ~ In v (map fst m) -> forall x, apply_move x m v = x v.
Proof.
  unfold apply_move. induction m as [|[u j] m IH]; intros H x; cbn [fold_left fst snd]; [reflexivity|]. cbn [map fst In] in H.
  rewrite IH by intuition. unfold set_val. destruct (Nat.eqb_spec v u); [subst; intuition|reflexivity].
Qed.

Lemma move_minv is01 s0 s alts related : loop_start is01 s0 -> minv is01 s0 s -> proper alts ->
  (forall v n, In (v, n) alts -> ms_fixed s0 v = false /\ (is01 v = true -> (0 <= n <= 1)%Z)) ->
  NoDup related -> covers (md_cons (ms_model s0)) (map fst alts) related ->
  minv is01 s0 (ms_update_move s alts related) /\ ms_x (ms_update_move s alts related) = apply_move (ms_x s) alts.
Proof.
  intros L I P Fx N Cv. pose proof I as (G & F & Fl & R). destruct L as (W & D & Ex & C & X).
  pose proof (minv_static _ _ _ I W) as Ws.
  destruct (trial_move_ok s0 s alts related F P (fun v n H => proj1 (Fx v n H)) N Cv) as (Mo & Cvs).
  destruct (step_good s (alts, related) Ws Mo G) as [G' X']. cbn [fst snd] in G', X'.
  split; [|exact X']. split; [exact G'|]. split; [exact (frame_trans _ _ _ (move_frame s (alts, related)) F)|]. split.
  - intros c' Hc He. cbn [ms_update_move with_violative ms_model md_cons] in Hc.
    assert (Upd : forall c, flag_ok (c_update_move c (ms_x s) alts)).
    { intros c. unfold flag_ok, c_update_move. cbn [c_refresh ct_has_margin ct_only_binary_var ct_max_abs ct_margin].
      intros H. apply andb_true_iff in H as [H1 H2]. split; [exact H1|]. destruct (Qlt_le_dec _ (ct_max_abs c)) as [|Le]; [discriminate|exact Le]. }
    destruct (ms_user_defined s).
    + apply in_map_iff in Hc as (c & E & Hc). destruct (ct_enabled c) eqn:Ec; [subst c'; apply Upd|subst c'; congruence].
    + apply In_nth_error in Hc as (i & Hi). rewrite (nth_fold_update _ _ N) in Hi. destruct (existsb (Nat.eqb i) related).
      * destruct (nth_error (md_cons (ms_model s)) i) as [c|]; [|discriminate]. injection Hi as <-. apply Upd.
      * apply Fl; [eapply nth_error_In; exact Hi|exact He].
  - intros v H01 Hd. rewrite X'. destruct (in_dec Nat.eq_dec v (map fst alts)) as [Hin|Hout].
    + apply in_map_iff in Hin as ([w n] & E & Hin). cbn in E. subst w. rewrite (apply_in v n); [|exact P|exact Hin]. now apply (Fx v n).
    + rewrite apply_out by exact Hout. now apply R.
Qed.

Lemma minv_margin is01 s0 s v n : loop_start is01 s0 -> minv is01 s0 s -> (is01 v = true -> (0 <= n <= 1)%Z) ->
  margin_truthful (ms_model s) (ms_x s) v n.
Proof.
  intros (W & D & Ex & C & X) (G & F & Fl & R) Hn c a Hc He Hm Hin. destruct (Fl c Hc He Hm) as [B Mx].
  destruct (frame_in _ _ F c Hc) as (c0 & Hc0 & Hf).
  assert (E : ct_expr c = ct_expr c0 /\ ct_enabled c = ct_enabled c0 /\ ct_only_binary_var c = ct_only_binary_var c0 /\ ct_max_abs c = ct_max_abs c0)
    by (unfold frame in Hf; repeat split; congruence). destruct E as (E1 & E2 & E3 & E4).
  destruct (C c0 Hc0) as (C1 & _ & _ & C4); [congruence|]. rewrite E1 in Hin.
  assert (Hk : In v (keys (ct_expr c0))) by (apply in_map_iff; exists (v, a); auto).
  assert (H01 : is01 v = true) by (apply C4; [congruence|exact Hk]).
  assert (Hd : ~ In v (map fst (ms_deps s0))) by (intros K; exact (proj1 (D v K) c0 Hc0 (eq_trans (eq_sym E2) He) Hk)).
  split; [pose proof (R v H01 Hd); specialize (Hn H01); lia|]. split; [|apply (proj1 G c Hc He)].
  apply Qle_trans with (ct_max_abs c); [|exact Mx]. rewrite E4. apply (C1 v a Hin).
Qed.

Lemma minv_no_tiny is01 s0 s m : loop_start is01 s0 -> minv is01 s0 s -> NoDup (map fst m) -> no_tiny_change (ms_model s) (ms_x s) (apply_move (ms_x s) m).
Proof.
  intros L I N. pose proof I as (G & F & _). destruct L as (W & D & Ex & C & X). pose proof (minv_static _ _ _ I W) as (W1 & _).
  apply no_tiny_integral; [exact W1|exact N|]. intros c Hc He v a Hin. destruct (frame_in _ _ F c Hc) as (c0 & Hc0 & Hf).
  assert (E : ct_expr c = ct_expr c0 /\ ct_enabled c = ct_enabled c0) by (unfold frame in Hf; split; congruence). destruct E as [E1 E2].
  destruct (C c0 Hc0) as (C1 & _); [congruence|]. rewrite E1 in Hin. apply (C1 v a Hin).
Qed.

Lemma sensitivities_frame v l : forall l', map frame l = map frame l' -> constraint_sensitivities l v = constraint_sensitivities l' v.
Proof.
  unfold constraint_sensitivities. generalize 0%nat as k. induction l as [|c l IH]; intros k [|c' l'] H; try discriminate; [reflexivity|].
  assert (H0 : ct_expr c = ct_expr c') by (cbn [map] in H; injection H; intros; assumption).
  assert (H1 : map frame l = map frame l') by (cbn [map] in H; injection H; intros; assumption).
  cbn [length seq combine flat_map snd fst]. rewrite H0. f_equal. now apply IH.
Qed.

(** Every evaluator gives the score from scratch. *)
Lemma eval_trial_scores is01 s0 s cur fast t : loop_start is01 s0 -> minv is01 s0 s -> true_score (ms_model s) (ms_x s) cur -> trial_ok is01 s0 t ->
  scores (ms_model s) (ms_x s) (apply_move (ms_x s) (tm_alts t)) (eval_trial fast (ms_model s) (ms_x s) cur t).
Proof.
  intros L I T (P & Fx & N & Cv & K & _). pose proof I as (G & F & Fl & R).
  assert (Ws : model_wf s) by (eapply minv_static; [exact I|apply L]).
  pose proof (good_consistent s Ws G) as Co. pose proof (true_current s _ _ T) as Cu.
  unfold eval_trial. destruct fast; [|apply full_correct; [exact Co|exact P]].
  destruct (tm_kind t) as [[v n]|[v0 n0] [v1 n1] rel|m] eqn:Ek; unfold tm_alts in *; rewrite Ek in *; cbn [fst] in *.
  - apply single_correct; [exact Co|exact Cu|apply Permutation_refl|]. apply (minv_margin is01 s0); auto.
    apply (Fx v n). now left.
  - destruct K as (own & vars & I0 & I1 & Pr & Ho). pose proof F as (F1 & _ & _ & St). 
    assert (Sel : selection_related (md_cons (ms_model s0)) own vars = selection_related (md_cons (ms_model s)) own vars).
    { unfold selection_related. do 2 f_equal. apply flat_map_ext. intros v. unfold related_constraints. f_equal. apply sensitivities_frame. symmetry. exact F1. }
    apply (selection_score _ _ _ _ _ _ _ _ own vars); auto.
    + unfold proper in P. cbn [map fst] in P. inversion P as [|? ? P1 _]; subst. intros ->. apply P1. now left.
    + now rewrite <- Sel.
    + intros c Hi. destruct St as (S1 & _). destruct (map_skel_nth _ _ S1 own c Hi) as (c' & Hi' & Sk). unfold skel in Sk. rewrite <- (Ho c' Hi'). congruence.
    + apply (minv_no_tiny is01 s0); auto.
  - destruct (trial_move_ok s0 s m (tm_related t) F P (fun v n H => proj1 (Fx v n H)) N Cv) as (_ & Cvs).
    apply multi_correct; auto. apply (minv_no_tiny is01 s0); auto.
Qed.
