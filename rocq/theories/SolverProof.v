(** Proofs for C58: what survives a change of penalty coefficients; fixed values. *)
From Coq Require Import List ZArith QArith Qabs Permutation Lia Lqa Bool.
From Verif Require Import ContainerModel ExprModel ExprSpec ExprProof ConstraintModel ConstraintSpec ConstraintProof EvalModel EvalSpec EvalSpec2
  EvalProof EvalProof2 EvalProof3 SolutionModel SolutionSpec SolutionProof VariableModel PresolveModel SelectionModel SelectionSpec SelectionProof3
  TabuModel TabuSpec TabuProof LoopModel LoopSpec LoopProof LoopProof2 LoopProof3 LocalModel LocalSpec LocalProof LocalProof2
  LagrangeModel LagrangeSpec LagrangeProof LagrangeProof2 LagrangeProof3 ControllerModel ControllerSpec ControllerProof ControllerProof2 ControllerProof3 SolverModel SolverSpec.
Import ListNotations.
Local Open Scope Q_scope.

(** ** Frames without penalties *)
Definition core (c : constr) := (ct_expr c, ct_sense c, ct_enabled c, ct_only_binary_var c, ct_max_abs c).
Definition same_core (s t : mstate) : Prop :=
  map core (md_cons (ms_model s)) = map core (md_cons (ms_model t)) /\
  md_sign (ms_model s) = md_sign (ms_model t) /\ md_gpen (ms_model s) = md_gpen (ms_model t) /\ same_static s t.
Lemma frame_core l : forall l', map frame l = map frame l' -> map core l = map core l'.
Proof.
  induction l as [|c l IH]; intros [|c' l'] H; try discriminate; [reflexivity|]. injection H as H1 H2 H3 H4 H5 H6 H7 H8.
  cbn [map]. f_equal; [unfold core; congruence|now apply IH].
Qed.
Lemma core_skel l : forall l', map core l = map core l' -> map skel l = map skel l'.
Proof.
  induction l as [|c l IH]; intros [|c' l'] H; try discriminate; [reflexivity|]. injection H as H1 H2 H3 H4 H5 H6.
  cbn [map]. f_equal; [unfold skel; congruence|now apply IH].
Qed.
Lemma core_of_frame s t : same_frame s t -> same_core s t.
Proof. intros (A & B & C & D). split; [now apply frame_core|]. auto. Qed.
Lemma core_trans s t u : same_core s t -> same_core t u -> same_core s u.
Proof. intros (A1 & A2 & A3 & A4) (B1 & B2 & B3 & B4). split; [congruence|]. split; [congruence|]. split; [congruence|]. eapply static_trans; eassumption. Qed.
Lemma core_sym s t : same_core s t -> same_core t s.
Proof. intros (A & B & C & D). split; [congruence|]. split; [congruence|]. split; [congruence|]. now apply static_sym. Qed.
Lemma core_nth l : forall l' i c, map core l = map core l' -> nth_error l i = Some c -> exists c', nth_error l' i = Some c' /\ core c = core c'.
Proof.
  induction l as [|a l IH]; intros [|a' l'] i c H E; try discriminate; [destruct i; discriminate|].
  assert (H0 : core a = core a') by (cbn [map] in H; injection H; intros; unfold core; congruence).
  assert (H1 : map core l = map core l') by (cbn [map] in H; injection H; intros; assumption).
  destruct i as [|i]; cbn [nth_error] in *; [exists a'; split; [reflexivity|congruence]|now apply IH].
Qed.
Lemma core_in l l' c : map core l = map core l' -> In c l -> exists c', In c' l' /\ core c = core c'.
Proof. intros H E. apply In_nth_error in E as (i & E). destruct (core_nth l l' i c H E) as (c' & A & B). exists c'. split; [eapply nth_error_In; exact A|exact B]. Qed.
Lemma sum_core (f : constr -> Q) : (forall c c', core c = core c' -> f c == f c') ->
  forall l l', map core l = map core l' -> sum_enabled f l == sum_enabled f l'.
Proof.
  intros Hf. induction l as [|c l IH]; intros [|c' l'] H; try discriminate; [reflexivity|].
  assert (H0 : core c = core c') by (cbn [map] in H; injection H; intros; unfold core; congruence).
  assert (H1 : map core l = map core l') by (cbn [map] in H; injection H; intros; assumption).
  cbn [sum_enabled]. rewrite (IH _ H1). assert (He : ct_enabled c = ct_enabled c') by (unfold core in H0; congruence). rewrite He.
  destruct (ct_enabled c'); [|reflexivity]. now rewrite (Hf _ _ H0).
Qed.
Lemma viol_core x c c' : core c = core c' -> viol c x == viol c' x.
Proof.
  intros H. assert (E : ct_expr c = ct_expr c' /\ ct_sense c = ct_sense c') by (unfold core in H; split; congruence).
  unfold viol, above, below. destruct E as [-> ->]. reflexivity.
Qed.
Lemma total_core x l : forall l', map core l = map core l' -> total_viol l x == total_viol l' x.
Proof.
  unfold total_viol. induction l as [|c l IH]; intros [|c' l'] H; try discriminate; [reflexivity|].
  assert (H0 : core c = core c') by (cbn [map] in H; injection H; intros; unfold core; congruence).
  assert (H1 : map core l = map core l') by (cbn [map] in H; injection H; intros; assumption).
  cbn [fold_right]. now rewrite (IH _ H1), (viol_core x c c' H0).
Qed.

Lemma core_start is01 s0 s : loop_start is01 s0 -> same_core s s0 -> (forall v, is01 v = true -> (0 <= ms_x s v <= 1)%Z) -> loop_start is01 s.
Proof.
  intros (W & D & Ex & C & _) F X. pose proof F as (Fc & _ & _ & St). pose proof St as (_ & E2 & E3 & E4 & _ & _ & E7).
  split; [exact (wf_static _ _ St W)|]. split.
  - intros d Hd. rewrite E7 in Hd. destruct (D d Hd) as [D1 D2]. split; [|now rewrite E3]. intros c Hc He.
    destruct (core_in _ _ c Fc Hc) as (c' & H1 & H2). assert (E : ct_expr c = ct_expr c' /\ ct_enabled c = ct_enabled c') by (unfold core in H2; split; congruence).
    destruct E as [Ea Eb]. rewrite Ea. apply D1; [exact H1|congruence].
  - split.
    + intros p Hp He d Hd. rewrite E7 in Hd. assert (K : In (fst p) (map (@fst (expr * bool) Q) (ms_exprs s0))) by (rewrite <- E2; now apply in_map).
      apply in_map_iff in K as (p' & K1 & K2). rewrite <- K1. apply (Ex p' K2); [now rewrite K1|exact Hd].
    + split; [|exact X]. intros c Hc He. destruct (core_in _ _ c Fc Hc) as (c' & H1 & H2).
      assert (E : ct_expr c = ct_expr c' /\ ct_enabled c = ct_enabled c' /\ ct_max_abs c = ct_max_abs c' /\ ct_only_binary_var c = ct_only_binary_var c') by (unfold core in H2; repeat split; congruence).
      destruct E as (Ea & Eb & Ec & Ed). rewrite Ea, Ec, Ed. apply C; [exact H1|congruence].
Qed.
Lemma core_sensitivities v l : forall l', map core l = map core l' -> constraint_sensitivities l v = constraint_sensitivities l' v.
Proof.
  unfold constraint_sensitivities. generalize 0%nat as n. induction l as [|c l IH]; intros n [|c' l'] H; try discriminate; [reflexivity|].
  assert (H0 : ct_expr c = ct_expr c') by (cbn [map] in H; unfold core in H; injection H; intros; congruence).
  assert (H1 : map core l = map core l') by (cbn [map] in H; injection H; intros; assumption).
  cbn [length seq combine flat_map fst snd]. rewrite H0. f_equal. now apply IH.
Qed.
Lemma core_covers l l' vs rel : map core l = map core l' -> covers l' vs rel -> covers l vs rel.
Proof.
  intros H K i c v Hi He Hv Hin. destruct (core_nth l l' i c H Hi) as (c' & A & B).
  assert (E : ct_expr c = ct_expr c' /\ ct_enabled c = ct_enabled c') by (unfold core in B; split; congruence). destruct E as [Ea Eb].
  apply (K i c' v A); [congruence|exact Hv|now rewrite <- Ea].
Qed.
Lemma core_trial is01 s0 s t : same_core s s0 -> trial_ok is01 s0 t -> trial_ok is01 s t.
Proof.
  intros (Fc & _ & _ & (_ & _ & _ & _ & Ef & _)) (T1 & T2 & T3 & T4 & T5 & T6).
  split; [exact T1|]. split; [intros v n H; rewrite Ef; now apply T2|]. split; [exact T3|]. split; [now apply (core_covers _ _ _ _ Fc)|]. split; [|exact T6].
  destruct (tm_kind t) as [a|a b rel|m]; [exact Logic.I| |exact Logic.I]. destruct T5 as (own & vars & A1 & A2 & A3 & A4). exists own, vars. split; [exact A1|]. split; [exact A2|]. split.
  - enough (E : selection_related (md_cons (ms_model s)) own vars = selection_related (md_cons (ms_model s0)) own vars) by now rewrite E.
    unfold selection_related. do 2 f_equal. apply flat_map_ext. intros v. unfold related_constraints. f_equal. now apply core_sensitivities.
  - intros c Hc. destruct (core_nth _ _ _ c Fc Hc) as (c' & B1 & B2). assert (E : ct_enabled c = ct_enabled c') by (unfold core in B2; congruence). rewrite E. now apply A4.
Qed.
Lemma core_anchored s0 s t : same_core s s0 -> anchored (ms_model s0) t -> anchored (ms_model s) t.
Proof.
  intros F A v n H. destruct (A v n H) as (c & C1 & C2 & C3). destruct (core_in _ _ c (proj1 (core_sym _ _ F)) C1) as (c' & D1 & D2). exists c'. split; [exact D1|].
  assert (E : ct_expr c = ct_expr c' /\ ct_enabled c = ct_enabled c') by (unfold core in D2; split; congruence). destruct E as [Ea Eb]. split; [congruence|now rewrite <- Ea].
Qed.

(** ** Scores that hold whatever the penalty coefficients are *)
Definition honest (md : model) (y : nat -> Z) (sc : score) : Prop :=
  sc_objective sc == value md y /\ sc_global_aug sc == augmented md y /\ (sc_feasible sc = true <-> satisfies md y).
Lemma core_satisfies s0 s y : same_core s s0 -> (satisfies (ms_model s) y <-> satisfies (ms_model s0) y).
Proof.
  intros F. unfold satisfies. split; intros H c Hc He.
  - destruct (core_in _ _ c (proj1 (core_sym _ _ F)) Hc) as (c' & A & B). assert (E : ct_expr c = ct_expr c' /\ ct_enabled c = ct_enabled c' /\ ct_sense c = ct_sense c') by (unfold core in B; repeat split; congruence).
    destruct E as (Ea & Eb & Ec). rewrite Ea, Ec. apply H; [exact A|congruence].
  - destruct (core_in _ _ c (proj1 F) Hc) as (c' & A & B). assert (E : ct_expr c = ct_expr c' /\ ct_enabled c = ct_enabled c' /\ ct_sense c = ct_sense c') by (unfold core in B; repeat split; congruence).
    destruct E as (Ea & Eb & Ec). rewrite Ea, Ec. apply H; [exact A|congruence].
Qed.
Lemma core_honest is01 s0 s y sc : loop_start is01 s -> same_core s s0 -> true_score (ms_model s) y sc -> honest (ms_model s0) y sc.
Proof.
  intros L F T. pose proof (true_feasible is01 s y sc L T) as Tf. destruct T as (x & T). unfold scores in T. cbv zeta in T. destruct T as (T1 & _ & T3 & _ & _ & _ & T7 & _ & _).
  pose proof F as (Fc & Fs & Fg & (_ & _ & E3 & E4 & _)).
  split; [|split].
  - rewrite T1. unfold value. rewrite E3, E4, Fs. reflexivity.
  - rewrite T7. unfold augmented, value, violation. rewrite E3, E4, Fs, Fg. rewrite (sum_core (fun c => viol c y) (viol_core y) _ _ Fc). reflexivity.
  - rewrite Tf. now apply core_satisfies.
Qed.

(** ** Fixed values are kept; dependents are settled *)
Definition settle (exprs : list (expr * bool * Q)) (deps : list (nat * nat)) (x : nat -> Z) : nat -> Z :=
  let es := map (fun p : expr * bool * Q => (fst p, e_eval (fst (fst p)) x)) exprs in
  fold_left (fun y d => set_val y (fst d) (match nth_error es (snd d) with Some p => Qtrunc (snd p) | None => y (fst d) end)) deps x.
Lemma export_settle s : ms_x (ms_export s) = settle (ms_exprs s) (ms_deps s) (ms_x s).
Proof. reflexivity. Qed.
Lemma update_settle s : ms_x (ms_update s) = settle (ms_exprs s) (ms_deps s) (ms_x s).
Proof. reflexivity. Qed.
Lemma settle_static s t x : same_static s t -> settle (ms_exprs s) (ms_deps s) x = settle (ms_exprs t) (ms_deps t) x.
Proof.
  intros (_ & E2 & _ & _ & _ & _ & E7). unfold settle. rewrite E7.
  assert (Em : map (fun p : expr * bool * Q => (fst p, e_eval (fst (fst p)) x)) (ms_exprs s) = map (fun p : expr * bool * Q => (fst p, e_eval (fst (fst p)) x)) (ms_exprs t)).
  { rewrite <- (map_map (@fst (expr * bool) Q) (fun q => (q, e_eval (fst q) x))), <- (map_map (@fst (expr * bool) Q) (fun q => (q, e_eval (fst q) x)) (ms_exprs t)). now rewrite E2. }
  now rewrite Em.
Qed.
Lemma qtrunc_comp a b : (a == b)%Q -> Qtrunc a = Qtrunc b.
Proof.
  destruct a as [p q], b as [r s]. unfold Qeq, Qtrunc. cbn [Qnum Qden]. intros H.
  rewrite <- (Z.quot_mul_cancel_r p (Zpos q) (Zpos s)) by discriminate.
  rewrite <- (Z.quot_mul_cancel_r r (Zpos s) (Zpos q)) by discriminate. rewrite H. f_equal. lia.
Qed.
Lemma settle_agree s a b : resolved s -> (forall v, ~ In v (map fst (ms_deps s)) -> a v = b v) -> forall v, settle (ms_exprs s) (ms_deps s) a v = settle (ms_exprs s) (ms_deps s) b v.
Proof.
  intros R H. unfold settle.
  assert (Ev : forall d i, In (d, i) (ms_deps s) -> exists z, (forall y : Z, match nth_error (map (fun p : expr * bool * Q => (fst p, e_eval (fst (fst p)) a)) (ms_exprs s)) i with Some p => Qtrunc (snd p) | None => y end = z) /\
     (forall y : Z, match nth_error (map (fun p : expr * bool * Q => (fst p, e_eval (fst (fst p)) b)) (ms_exprs s)) i with Some p => Qtrunc (snd p) | None => y end = z)).
  { intros d i Hd. destruct (R d i Hd) as (q & Q1 & Q2). exists (Qtrunc (e_eval (fst (fst q)) b)). split; intros y; rewrite nth_error_map, Q1; cbn [option_map snd]; [|reflexivity].
    apply qtrunc_comp. apply eval_ext. intros w Hw. apply H. intros K. exact (Q2 w K Hw). }
  clear R. set (ea := map (fun p : expr * bool * Q => (fst p, e_eval (fst (fst p)) a)) (ms_exprs s)) in *. set (eb := map (fun p : expr * bool * Q => (fst p, e_eval (fst (fst p)) b)) (ms_exprs s)) in *.
  clearbody ea eb. revert a b H. induction (ms_deps s) as [|[d i] ds IH]; intros a b H v; cbn [fold_left map fst snd] in *; [apply H; intros []|].
  apply IH; [intros d' i' Hd'; apply (Ev d' i'); now right|]. intros w Hw. unfold set_val. destruct (Ev d i (or_introl eq_refl)) as (z & Z1 & Z2).
  destruct (Nat.eqb_spec w d) as [->|D]; [now rewrite Z1, Z2|]. apply H. intros [E|E]; [congruence|contradiction].
Qed.
Lemma settle_off s x v : ~ In v (map fst (ms_deps s)) -> settle (ms_exprs s) (ms_deps s) x v = x v.
Proof. intros H. exact (export_x (with_x s x) v H). Qed.

(** y keeps the fixed values, and its dependent variables have their expressions' values. *)
Definition kept (s0 : mstate) (x : nat -> Z) : Prop := forall v, ms_fixed s0 v = true -> ~ In v (map fst (ms_deps s0)) -> x v = ms_x s0 v.
Definition sound (s0 : mstate) (y : nat -> Z) : Prop := kept s0 y /\ forall v, settle (ms_exprs s0) (ms_deps s0) y v = y v.
Lemma export_sound s0 s : resolved s0 -> same_static s s0 -> kept s0 (ms_x s) -> sound s0 (ms_x (ms_export s)).
Proof.
  intros R St K. rewrite export_settle, (settle_static s s0 (ms_x s) St). split.
  - intros v Hf Hd. rewrite settle_off by exact Hd. now apply K.
  - intros v. apply settle_agree; [exact R|]. intros w Hw. now apply settle_off.
Qed.
Lemma update_kept s0 s : ms_deps s = ms_deps s0 -> kept s0 (ms_x s) -> kept s0 (ms_x (ms_update s)).
Proof. intros E K v Hf Hd. rewrite (ms_update_x s v); [now apply K|now rewrite E]. Qed.
Lemma export_kept s0 s : ms_deps s = ms_deps s0 -> kept s0 (ms_x s) -> kept s0 (ms_x (ms_export s)).
Proof. intros E K v Hf Hd. rewrite (export_x s v); [now apply K|now rewrite E]. Qed.
Lemma move_kept s0 s alts related : ms_fixed s = ms_fixed s0 -> kept s0 (ms_x s) -> kept s0 (ms_x (ms_update_move s alts related)).
Proof.
  intros E K v Hf Hd. cbn [ms_update_move with_violative ms_x]. rewrite E. specialize (K v Hf Hd). revert K. generalize (ms_x s) as x. unfold write_mutable.
  induction alts as [|[w n] m IH]; intros x K; cbn [fold_left fst snd]; [exact K|]. apply IH. destruct (ms_fixed s0 w) eqn:Ew; [exact K|]. unfold set_val.
  destruct (Nat.eqb_spec v w) as [->|]; [congruence|exact K].
Qed.

(** The part of a search state that matters here. *)
Definition clean (s0 s : mstate) : Prop := same_static s s0 /\ kept s0 (ms_x s).
Lemma update_clean s0 s : clean s0 s -> clean s0 (ms_update s).
Proof. intros [St K]. split; [eapply static_trans; [apply ms_update_static|exact St]|]. apply update_kept; [apply St|exact K]. Qed.
Lemma export_clean s0 s : clean s0 s -> clean s0 (ms_export s).
Proof. intros [St K]. split; [eapply static_trans; [apply export_frame|exact St]|]. apply export_kept; [apply St|exact K]. Qed.
Lemma move_clean s0 s alts related : clean s0 s -> clean s0 (ms_update_move s alts related).
Proof. intros [St K]. split; [eapply static_trans; [apply (step_static s (alts, related))|exact St]|]. apply move_kept; [apply St|exact K]. Qed.
Lemma offer_clean s0 s h sc : clean s0 s -> clean s0 (fst (fst (l_offer s h sc))).
Proof.
  intros C. unfold l_offer. destruct (try_update h (ms_x (ms_export s)) sc) as [h' st]. cbn [fst]. destruct (0 <? st)%Z; [now apply export_clean|exact C].
Qed.
Definition all_sound (s0 : mstate) (vs : list ((nat -> Z) * score)) : Prop := forall y sc, In (y, sc) vs -> sound s0 y.
Lemma all_sound_app s0 vs y sc : all_sound s0 vs -> sound s0 y -> all_sound s0 (vs ++ [(y, sc)]).
Proof. intros A B z sz H. apply in_app_iff in H as [H|[H|[]]]; [now apply (A z sz)|congruence]. Qed.

Section Clean.
Variable s0 : mstate.
Hypothesis R : resolved s0.
Lemma clean_sound s : clean s0 s -> sound s0 (ms_x (ms_export s)).
Proof. intros [St K]. now apply export_sound. Qed.

(** Memory counts. *)
Definition counted_all (m : memory) : Prop := forall i, (0 <= mm_vcount m i)%Z.
Lemma mem_update_counted it w vs cs m : counted_all m -> counted_all (mem_update it w vs cs m).
Proof.
  intros C i. unfold mem_update.
  assert (E : forall l m, mm_vcount (fold_left (mem_alter it w) l m) = mm_vcount m) by (induction l as [|a l IH]; intros m'; cbn [fold_left]; [reflexivity|]; rewrite IH; destruct a; reflexivity).
  assert (V : forall l m, counted_all m -> counted_all (fold_left mem_violate l m)).
  { induction l as [|a l IH]; intros m' C'; cbn [fold_left]; [exact C'|]. apply IH. intros j. cbn. unfold upd. destruct (Nat.eqb j a); [pose proof (C' a); lia|apply C']. }
  change (0 <= mm_vcount (fold_left mem_violate cs (fold_left (mem_alter it w) vs m)) i)%Z. apply V. intros j. rewrite E. apply C.
Qed.

(** The tabu search. *)
Definition lclean (l : loop) : Prop := clean s0 (lp_ms l) /\ all_sound s0 (lp_visited l) /\ counted_all (lp_mem l) /\ lp_visited l <> [].
Lemma advance_clean o draw l alts related sc l' : lclean l -> l_advance o draw l alts related sc = Some l' -> lclean l'.
Proof.
  intros (C & V & M & N) H. unfold l_advance in H. pose proof (move_clean s0 (lp_ms l) alts related C) as Cm.
  pose proof (offer_clean s0 _ (lp_holder l) sc Cm) as Co. destruct (l_offer (ms_update_move (lp_ms l) alts related) (lp_holder l) sc) as [[s1 h1] st]. cbn [fst] in Co.
  destruct (tenure_update _ _ _ _ _ _ _) as [t|]; [|discriminate].
  assert (E1 : lp_ms l' = s1) by (injection H as <-; reflexivity). assert (E2 : lp_visited l' = lp_visited l ++ [(ms_x (ms_export (ms_update_move (lp_ms l) alts related)), sc)]) by (injection H as <-; reflexivity).
  split; [rewrite E1; exact Co|]. split; [rewrite E2; apply all_sound_app; [exact V|now apply clean_sound]|]. split; [|rewrite E2; destruct (lp_visited l); discriminate]. injection H as <-. cbn [lp_mem]. now apply mem_update_counted.
Qed.
Lemma modify_clean o mods : forall l l', lclean l -> l_modify o mods l = Some l' -> lclean l'.
Proof.
  induction mods as [|[t draw] tl IH]; intros l l' C H; cbn [l_modify] in H; [injection H as <-; exact C|].
  destruct (l_advance _ _ _ _ _ _) as [l1|] eqn:E; [|discriminate]. eapply IH; [|exact H]. eapply advance_clean; eassumption.
Qed.
Lemma iterate_clean o e l : lclean l -> lclean (fst (l_iterate o e l)).
Proof.
  intros C. unfold l_iterate. destruct (en_time_over e); [exact C|]. destruct (_ <=? _)%Z; [exact C|]. destruct (reach_target _ _); [exact C|]. destruct (early_stop _ _); [exact C|].
  destruct (filter _ _) as [|m ml]; [exact C|]. destruct (gap_closed _); [exact C|]. cbv zeta.
  destruct (select_move _ _ _) as [[i mm]|]; [|exact C]. destruct (nth_error (m :: ml) i) as [t|]; [|exact C]. destruct (nth_error (map _ _) i) as [tr|]; [|exact C].
  match goal with |- context [l_advance ?o ?d ?l ?a ?r ?sc] => destruct (l_advance o d l a r sc) as [l1|] eqn:E; [|exact C] end.
  apply advance_clean in E; [|exact C]. destruct E as (E1 & E2 & E3). split; [cbn [fst lp_ms]; destruct (lo_store o && _); [now apply export_clean|exact E1]|]. split; [exact E2|]. exact E3.
Qed.
Lemma run_clean o es : forall l, lclean l -> lclean (fst (l_run o es l)).
Proof.
  induction es as [|e tl IH]; intros l C; cbn [l_run]; [exact C|]. pose proof (iterate_clean o e l C) as K. destruct (l_iterate o e l) as [l' [st|]]; cbn [fst] in *; [exact K|now apply IH].
Qed.
Lemma l_search_clean o s h m mods es : clean s0 s -> counted_all m -> lclean (fst (l_search o s h m mods es)).
Proof.
  intros C M. unfold l_search. assert (S : lclean (l_setup o s h m)).
  { unfold l_setup. pose proof (update_clean s0 s C) as Cu. pose proof (offer_clean s0 _ (reset_local h) (evaluate (ms_model (ms_update s)) (ms_x (ms_update s)) []) Cu) as Co.
    destruct (l_offer _ _ _) as [[s1 h1] st]. cbn [fst] in Co. split; [exact Co|]. split; [|split; [exact M|discriminate]]. intros y sc [H|[]]. assert (y = ms_x (ms_export (ms_update s))) by congruence. subst y. now apply clean_sound. }
  destruct (l_modify o mods (l_setup o s h m)) as [l'|] eqn:E; [|exact S]. apply run_clean. eapply modify_clean; eassumption.
Qed.

(** The local search. *)
Definition sclean (l : slocal) : Prop := clean s0 (sl_ms l) /\ all_sound s0 (sl_visited l) /\ counted_all (sl_mem l).
Lemma s_iterate_clean o e l : sclean l -> sclean (fst (s_iterate o e l)).
Proof.
  intros C. unfold s_iterate. destruct (se_time_over e); [exact C|]. destruct (_ <=? _)%Z; [exact C|]. destruct (match sl_obj _ with Some q => Qle_bool q _ | None => false end); [exact C|].
  destruct (se_moves e) as [|m ml]; [exact C|]. cbv zeta. set (p := combine_moves _ _ _ _ _ _). destruct (cb_alts p) as [|a al]; [exact C|]. destruct C as (C & V & M).
  set (sc := evaluate_multi _ _ _ _ _). pose proof (move_clean s0 (sl_ms l) (a :: al) (cb_related p) C) as Cm.
  pose proof (offer_clean s0 _ (sl_holder l) sc Cm) as Co. destruct (l_offer (ms_update_move (sl_ms l) (a :: al) (cb_related p)) (sl_holder l) sc) as [[s1 h1] st]. cbn [fst] in Co.
  split; [cbn [fst sl_ms]; destruct (so_store o && _); [now apply export_clean|exact Co]|]. split; [cbn [fst sl_visited]; apply all_sound_app; [exact V|now apply clean_sound]|].
  cbn [fst sl_mem]. now apply mem_update_counted.
Qed.
Lemma s_search_clean o s h m es : clean s0 s -> counted_all m -> sclean (fst (s_search o s h m es)).
Proof.
  intros C M. unfold s_search. assert (S : sclean (s_setup s h m)).
  { unfold s_setup. pose proof (update_clean s0 s C) as Cu. pose proof (offer_clean s0 _ (reset_local h) (evaluate (ms_model (ms_update s)) (ms_x (ms_update s)) []) Cu) as Co.
    destruct (l_offer _ _ _) as [[s1 h1] st]. cbn [fst] in Co. split; [exact Co|]. split; [|exact M]. intros y sc [H|[]]. assert (y = ms_x (ms_export (ms_update s))) by congruence. subst y. now apply clean_sound. }
  revert S. generalize (s_setup s h m) as l. induction es as [|e tl IH]; intros l S; cbn [s_run]; [exact S|]. pose proof (s_iterate_clean o e l S) as K.
  destruct (s_iterate o e l) as [l' [st|]]; cbn [fst] in *; [exact K|now apply IH].
Qed.

(** The Lagrange dual search. *)
Definition gclean (l : gloop) : Prop := clean s0 (gl_ms l) /\ all_sound s0 (gl_visited l).
Lemma g_iterate_clean o minimize vars lo hi t l : gclean l -> gclean (fst (g_iterate o minimize vars lo hi t l)).
Proof.
  intros (C & V). unfold g_iterate. destruct t; [split; assumption|]. destruct (_ <=? _)%Z; [split; assumption|]. destruct (match sl_obj _ with Some q => Qle_bool q _ | None => false end); [split; assumption|].
  cbv zeta. set (dual := update_dual _ _ _). set (x := primal_step minimize vars lo hi (gl_ms l) dual).
  assert (Cx : clean s0 (with_x (gl_ms l) x)).
  { destruct C as [St K]. split; [exact St|]. intros v Hf Hd. cbn [with_x ms_x]. unfold x, primal_step. assert (E : ms_fixed (gl_ms l) v = true) by (destruct St as (_ & _ & _ & _ & -> & _); exact Hf).
    rewrite E. cbn [negb]. rewrite andb_false_r. now apply K. }
  apply update_clean in Cx. set (s := ms_update (with_x (gl_ms l) x)) in *. set (sc := evaluate (ms_model s) (ms_x s) []).
  pose proof (offer_clean s0 s (gl_holder l) sc Cx) as Co. destruct (l_offer s (gl_holder l) sc) as [[s1 h1] st]. cbn [fst] in Co.
  destruct (fq_push _ _) as [q|]; [|split; assumption]. split; [cbn [fst gl_ms]; destruct (go_store o && _); [now apply export_clean|exact Co]|].
  cbn [fst gl_visited]. apply all_sound_app; [exact V|now apply clean_sound].
Qed.
Lemma g_search_clean o minimize vars lo hi s h clock : clean s0 s -> gclean (fst (g_search o minimize vars lo hi s h clock)).
Proof.
  intros C. unfold g_search. assert (S : gclean (g_setup o (length vars) s h)).
  { unfold g_setup. pose proof (update_clean s0 s C) as Cu. pose proof (offer_clean s0 _ (reset_local h) (evaluate (ms_model (ms_update s)) (ms_x (ms_update s)) []) Cu) as Co.
    destruct (l_offer _ _ _) as [[s1 h1] st]. cbn [fst] in Co. split; [exact Co|]. intros y sc [H|[]]. assert (y = ms_x (ms_export (ms_update s))) by congruence. subst y. now apply clean_sound. }
  revert S. generalize (g_setup o (length vars) s h) as l. induction clock as [|t tl IH]; intros l S; cbn [g_run]; [exact S|]. pose proof (g_iterate_clean o minimize vars lo hi t l S) as K.
  destruct (g_iterate o minimize vars lo hi t l) as [l' [st|]]; cbn [fst] in *; [exact K|now apply IH].
Qed.
End Clean.
