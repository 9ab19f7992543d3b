(** Proofs for C58, continued: no exception when nothing outside the bounds is offered. *)
From Coq Require Import List ZArith QArith Qabs Permutation Lia Lqa Bool.
From Verif Require Import ContainerModel ExprModel ExprSpec ExprProof ConstraintModel ConstraintSpec ConstraintProof EvalModel EvalSpec EvalSpec2
  EvalProof EvalProof2 EvalProof3 SolutionModel SolutionSpec SolutionProof VariableModel PresolveModel SelectionModel SelectionSpec SelectionProof3
  TabuModel TabuSpec TabuProof LoopModel LoopSpec LoopProof LoopProof2 LoopProof3 LocalModel LocalSpec LocalProof LocalProof2
  LagrangeModel LagrangeSpec LagrangeProof LagrangeProof2 LagrangeProof3 ControllerModel ControllerSpec ControllerProof ControllerProof2 ControllerProof3 SolverModel SolverSpec SolverProof SolverProof2 SolverProof3.
Import ListNotations.
Local Open Scope Q_scope.

Section Boxed.
Variables (deps : list (nat * nat)) (G : nat -> Z -> Prop).
Definition inside (x : nat -> Z) : Prop := forall v, ~ In v (map fst deps) -> G v (x v).
Definition boxed (s : mstate) : Prop := ms_deps s = deps /\ inside (ms_x s).
Definition all_inside (vs : list ((nat -> Z) * score)) : Prop := forall y sc, In (y, sc) vs -> inside y.
Lemma update_boxed s : boxed s -> boxed (ms_update s).
Proof. intros [E K]. split; [exact E|]. intros v Hd. rewrite (ms_update_x s v); [now apply K|now rewrite E]. Qed.
Lemma export_boxed s : boxed s -> boxed (ms_export s).
Proof. intros [E K]. split; [exact E|]. intros v Hd. rewrite (export_x s v); [now apply K|now rewrite E]. Qed.
Lemma move_boxed s alts related : (forall v n, In (v, n) alts -> G v n) -> boxed s -> boxed (ms_update_move s alts related).
Proof.
  intros A [E K]. split; [exact E|]. cbn [ms_update_move with_violative ms_x]. revert K. generalize (ms_x s) as x. unfold write_mutable.
  induction alts as [|[w n] m IH]; intros x K; cbn [fold_left fst snd]; [exact K|]. apply IH; [intros; apply A; now right|]. destruct (ms_fixed s w); [exact K|].
  intros v Hd. unfold set_val. destruct (Nat.eqb_spec v w) as [->|]; [apply A; now left|now apply K].
Qed.
Lemma offer_boxed s h sc : boxed s -> boxed (fst (fst (l_offer s h sc))).
Proof. intros C. unfold l_offer. destruct (try_update h (ms_x (ms_export s)) sc) as [h' st]. cbn [fst]. destruct (0 <? st)%Z; [now apply export_boxed|exact C]. Qed.
Lemma all_inside_app vs y sc : all_inside vs -> inside y -> all_inside (vs ++ [(y, sc)]).
Proof. intros A B z sz H. apply in_app_iff in H as [H|[H|[]]]; [now apply (A z sz)|]. assert (E : y = z) by congruence. rewrite <- E. exact B. Qed.
Lemma boxed_export s : boxed s -> inside (ms_x (ms_export s)).
Proof. intros C. apply (export_boxed s C). Qed.

(** The tabu search. *)
Definition lbox (l : loop) : Prop := boxed (lp_ms l) /\ all_inside (lp_visited l).
Lemma advance_box o draw l alts related sc l' : (forall v n, In (v, n) alts -> G v n) -> lbox l -> l_advance o draw l alts related sc = Some l' -> lbox l'.
Proof.
  intros A (C & V) H. unfold l_advance in H. pose proof (move_boxed (lp_ms l) alts related A C) as Cm.
  pose proof (offer_boxed _ (lp_holder l) sc Cm) as Co. destruct (l_offer (ms_update_move (lp_ms l) alts related) (lp_holder l) sc) as [[s1 h1] st]. cbn [fst] in Co.
  destruct (tenure_update _ _ _ _ _ _ _) as [t|]; [|discriminate].
  assert (E1 : lp_ms l' = s1) by (injection H as <-; reflexivity). assert (E2 : lp_visited l' = lp_visited l ++ [(ms_x (ms_export (ms_update_move (lp_ms l) alts related)), sc)]) by (injection H as <-; reflexivity).
  split; [rewrite E1; exact Co|]. rewrite E2. apply all_inside_app; [exact V|now apply boxed_export].
Qed.
Lemma modify_box o mods : (forall t v n, In t (map fst mods) -> In (v, n) (tm_alts t) -> G v n) -> forall l l', lbox l -> l_modify o mods l = Some l' -> lbox l'.
Proof.
  induction mods as [|[t draw] tl IH]; intros A l l' C H; cbn [l_modify] in H; [injection H as <-; exact C|].
  destruct (l_advance _ _ _ _ _ _) as [l1|] eqn:E; [|discriminate]. eapply IH; [intros t' v n Ht; apply (A t' v n); now right| |exact H]. eapply advance_box; [|exact C|exact E].
  intros v n. apply (A t v n). now left.
Qed.
Definition env_box (e : env) : Prop := forall t, In t (en_moves e) -> (forall v n, In (v, n) (tm_alts t) -> G v n) /\ (tm_integer t = true -> forall v n, In (v, n) (tm_alts t) -> G v (en_target e)).
Lemma iterate_box o e l : env_box e -> lbox l -> lbox (fst (l_iterate o e l)).
Proof.
  intros A C. unfold l_iterate. destruct (en_time_over e); [exact C|]. destruct (_ <=? _)%Z; [exact C|]. destruct (reach_target _ _); [exact C|]. destruct (early_stop _ _); [exact C|].
  destruct (filter _ _) as [|m ml] eqn:Ef; [exact C|]. destruct (gap_closed _); [exact C|]. cbv zeta.
  destruct (select_move _ _ _) as [[i mm]|]; [|exact C]. destruct (nth_error (m :: ml) i) as [t|] eqn:Et; [|exact C]. destruct (nth_error (map _ _) i) as [tr|]; [|exact C].
  match goal with |- context [l_advance ?o ?d ?l ?a ?r ?sc] => destruct (l_advance o d l a r sc) as [l1|] eqn:E; [|exact C] end.
  assert (Ht : In t (en_moves e)) by (apply nth_error_In in Et; rewrite <- Ef in Et; apply filter_In in Et; apply Et). destruct (A t Ht) as [A1 A2].
  apply advance_box in E; [|clear E|exact C].
  - destruct E as (E1 & E2). split; [cbn [fst lp_ms]; destruct (lo_store o && _); [now apply export_boxed|exact E1]|]. exact E2.
  - intros v n. destruct (tm_integer t) eqn:Ei; [|rewrite andb_false_r; cbn [andb]; apply A1]. destruct (lo_adjust o && true && _); [|apply A1].
    destruct (tm_alts t) as [|[w k] tl]; [intros []|]. intros [H|[]]. assert (v = w) by congruence. assert (n = en_target e) by congruence. subst. apply (A2 eq_refl w k). now left.
Qed.
Lemma run_box o es : (forall e, In e es -> env_box e) -> forall l, lbox l -> lbox (fst (l_run o es l)).
Proof.
  induction es as [|e tl IH]; intros A l C; cbn [l_run]; [exact C|]. pose proof (iterate_box o e l (A e (or_introl eq_refl)) C) as K.
  destruct (l_iterate o e l) as [l' [st|]]; cbn [fst] in *; [exact K|apply IH; [intros; apply A; now right|exact K]].
Qed.
Lemma l_search_box o s h m mods es : (forall t v n, In t (map fst mods) -> In (v, n) (tm_alts t) -> G v n) -> (forall e, In e es -> env_box e) -> boxed s -> lbox (fst (l_search o s h m mods es)).
Proof.
  intros A B C. unfold l_search. assert (S : lbox (l_setup o s h m)).
  { unfold l_setup. pose proof (update_boxed s C) as Cu. pose proof (offer_boxed _ (reset_local h) (evaluate (ms_model (ms_update s)) (ms_x (ms_update s)) []) Cu) as Co.
    destruct (l_offer _ _ _) as [[s1 h1] st]. cbn [fst] in Co. split; [exact Co|]. intros y sc [H|[]]. assert (y = ms_x (ms_export (ms_update s))) by congruence. subst y. now apply boxed_export. }
  destruct (l_modify o mods (l_setup o s h m)) as [l'|] eqn:E; [|exact S]. apply run_box; [exact B|]. eapply modify_box; eassumption.
Qed.

(** The local search. *)
Definition sbox (l : slocal) : Prop := boxed (sl_ms l) /\ all_inside (sl_visited l).
Definition senv_box (e : senv) : Prop := forall t, In t (se_moves e) ->
  (forall v n, In (v, n) (tm_alts t) -> G v n) /\ (tm_integer t = true -> forall v n k, In (v, n) (tm_alts t) -> G v (se_target e k)) /\ (tm_integer t = true -> exists v n, tm_alts t = [(v, n)]).
Lemma set_last_app m v n z : set_last (m ++ [(v, n)]) z = m ++ [(v, z)].
Proof. induction m as [|a m IH]; [reflexivity|]. cbn [app set_last]. destruct (m ++ [(v, n)]) as [|b tl] eqn:E; [destruct m; discriminate|]. now rewrite IH. Qed.
Lemma combine_box e adjust cons cur ts : (forall t sc, In (t, sc) ts -> In t (se_moves e)) -> senv_box e -> forall q, (forall v n, In (v, n) (cb_alts q) -> G v n) ->
  forall v n, In (v, n) (cb_alts (combine_moves adjust cons cur (se_target e) ts q)) -> G v n.
Proof.
  intros T A. induction ts as [|[t sc] ts IH]; intros q Q; cbn [combine_moves]; [exact Q|]. destruct (negb (worth cur sc)); [exact Q|].
  assert (T' : forall t' sc', In (t', sc') ts -> In t' (se_moves e)) by (intros t' sc' H; apply (T t' sc'); now right).
  destruct (existsb _ _); [now apply IH|]. apply IH; [exact T'|]. cbn [cb_alts]. destruct (A t (T t sc (or_introl eq_refl))) as (A1 & A2 & A3). intros v n.
  assert (P : In (v, n) (cb_alts q ++ tm_alts t) -> G v n) by (intros H; apply in_app_iff in H as [H|H]; [now apply Q|now apply A1]).
  destruct (tm_integer t) eqn:Ei; [|rewrite andb_false_r; exact P]. rewrite andb_true_r. destruct adjust; [|exact P]. destruct (A3 eq_refl) as (w & k & Ea). rewrite Ea, set_last_app.
  intros H. apply in_app_iff in H as [H|[H|[]]]; [now apply Q|]. assert (v = w) by congruence. assert (n = se_target e (cb_count q)) by congruence. subst. apply (A2 eq_refl w k). rewrite Ea. now left.
Qed.
Lemma s_iterate_box o e l : senv_box e -> sbox l -> sbox (fst (s_iterate o e l)).
Proof.
  intros A C. unfold s_iterate. destruct (se_time_over e); [exact C|]. destruct (_ <=? _)%Z; [exact C|]. destruct (match sl_obj _ with Some q => Qle_bool q _ | None => false end); [exact C|].
  destruct (se_moves e) as [|m ml] eqn:Em; [exact C|]. cbv zeta. set (p := combine_moves _ _ _ _ _ _).
  assert (P : forall v n, In (v, n) (cb_alts p) -> G v n).
  { apply combine_box; [|exact A|intros v n []]. intros t sc H. apply (proj1 (sorted_in _ _)) in H. apply in_map_iff in H as (t' & E & H). assert (t' = t) by congruence. subst t'. now rewrite Em. }
  destruct (cb_alts p) as [|a al]; [exact C|]. destruct C as (C & V).
  set (sc := evaluate_multi _ _ _ _ _). pose proof (move_boxed (sl_ms l) (a :: al) (cb_related p) P C) as Cm.
  pose proof (offer_boxed _ (sl_holder l) sc Cm) as Co. destruct (l_offer (ms_update_move (sl_ms l) (a :: al) (cb_related p)) (sl_holder l) sc) as [[s1 h1] st]. cbn [fst] in Co.
  split; [cbn [fst sl_ms]; destruct (so_store o && _); [now apply export_boxed|exact Co]|]. cbn [fst sl_visited]. apply all_inside_app; [exact V|now apply boxed_export].
Qed.
Lemma s_search_box o s h m es : (forall e, In e es -> senv_box e) -> boxed s -> sbox (fst (s_search o s h m es)).
Proof.
  intros A C. unfold s_search. assert (S : sbox (s_setup s h m)).
  { unfold s_setup. pose proof (update_boxed s C) as Cu. pose proof (offer_boxed _ (reset_local h) (evaluate (ms_model (ms_update s)) (ms_x (ms_update s)) []) Cu) as Co.
    destruct (l_offer _ _ _) as [[s1 h1] st]. cbn [fst] in Co. split; [exact Co|]. intros y sc [H|[]]. assert (y = ms_x (ms_export (ms_update s))) by congruence. subst y. now apply boxed_export. }
  revert S. generalize (s_setup s h m) as l. induction es as [|e tl IH]; intros l S; cbn [s_run]; [exact S|]. pose proof (s_iterate_box o e l (A e (or_introl eq_refl)) S) as K.
  destruct (s_iterate o e l) as [l' [st|]]; cbn [fst] in *; [exact K|apply IH; [intros; apply A; now right|exact K]].
Qed.

(** The Lagrange dual search. *)
Definition gbox (l : gloop) : Prop := boxed (gl_ms l) /\ all_inside (gl_visited l).
Lemma g_iterate_box o minimize vars lo hi t l : (forall v, In v vars -> G v (lo v) /\ G v (hi v)) -> gbox l -> gbox (fst (g_iterate o minimize vars lo hi t l)).
Proof.
  intros A (C & V). unfold g_iterate. destruct t; [split; assumption|]. destruct (_ <=? _)%Z; [split; assumption|]. destruct (match sl_obj _ with Some q => Qle_bool q _ | None => false end); [split; assumption|].
  cbv zeta. set (dual := update_dual _ _ _). set (x := primal_step minimize vars lo hi (gl_ms l) dual).
  assert (Cx : boxed (with_x (gl_ms l) x)).
  { destruct C as [St K]. split; [exact St|]. intros v Hd. cbn [with_x ms_x]. unfold x, primal_step. destruct (existsb (Nat.eqb v) vars) eqn:Ev; cbn [andb]; [|now apply K].
    apply existsb_exists in Ev as (w & Hw & E). apply Nat.eqb_eq in E. subst w. destruct (negb _); [|now apply K]. destruct (A v Hw). destruct (Bool.eqb _ _); assumption. }
  apply update_boxed in Cx. set (s := ms_update (with_x (gl_ms l) x)) in *. set (sc := evaluate (ms_model s) (ms_x s) []).
  pose proof (offer_boxed s (gl_holder l) sc Cx) as Co. destruct (l_offer s (gl_holder l) sc) as [[s1 h1] st]. cbn [fst] in Co.
  destruct (fq_push _ _) as [q|]; [|split; assumption]. split; [cbn [fst gl_ms]; destruct (go_store o && _); [now apply export_boxed|exact Co]|].
  cbn [fst gl_visited]. apply all_inside_app; [exact V|now apply boxed_export].
Qed.
Lemma g_search_box o minimize vars lo hi s h clock : (forall v, In v vars -> G v (lo v) /\ G v (hi v)) -> boxed s -> gbox (fst (g_search o minimize vars lo hi s h clock)).
Proof.
  intros A C. unfold g_search. assert (S : gbox (g_setup o (length vars) s h)).
  { unfold g_setup. pose proof (update_boxed s C) as Cu. pose proof (offer_boxed _ (reset_local h) (evaluate (ms_model (ms_update s)) (ms_x (ms_update s)) []) Cu) as Co.
    destruct (l_offer _ _ _) as [[s1 h1] st]. cbn [fst] in Co. split; [exact Co|]. intros y sc [H|[]]. assert (y = ms_x (ms_export (ms_update s))) by congruence. subst y. now apply boxed_export. }
  revert S. generalize (g_setup o (length vars) s h) as l. induction clock as [|t tl IH]; intros l S; cbn [g_run]; [exact S|]. pose proof (g_iterate_box o minimize vars lo hi t l A S) as K.
  destruct (g_iterate o minimize vars lo hi t l) as [l' [st|]]; cbn [fst] in *; [exact K|now apply IH].
Qed.
End Boxed.

Lemma inside_valid p s0 a y : stays_inside p s0 a -> inside (ms_deps s0) (allowed p s0) y -> valid_start (pb_n p) (placed p y) (pb_sels p).
Proof.
  intros ((V1 & V2) & D & _) I. split.
  - intros s Hs. destruct (V1 s Hs) as (v & C1 & C2 & C3). assert (E : forall w, In w (SelectionModel.sl_vars s) -> y w = ms_x s0 w).
    { intros w Hw. apply (I w); [|exists s; split; assumption]. intros Hd. destruct (D w Hd) as (_ & _ & K). exact (K s Hs Hw). }
    exists v. split; [exact C1|]. cbn [placed v_with_value va_value] in *. rewrite (E v C1). split; [exact C2|]. intros w Hw Dw. rewrite (E w Hw). now apply C3.
  - intros v Hv. cbn [placed v_with_value va_value va_sense va_lower va_upper]. destruct (in_dec Nat.eq_dec v (map fst (ms_deps s0))) as [Hd|Hd].
    + destruct (D v Hd) as (K1 & K2 & _). split; intros K; contradiction.
    + destruct (I v Hd) as (K1 & K2 & _). split; [now apply K1|now apply K2].
Qed.
Lemma solve_inside lg root p a s0 m0 is01 : prepared is01 p s0 m0 -> admissible is01 s0 a -> stays_inside p s0 a ->
  match solve lg root p a s0 m0 with
  | Done (_, r) | NotANumber r => forall y, In y (visited r) -> valid_start (pb_n p) (placed p y) (pb_sels p)
  | Rejected _ _ => False
  end.
Proof.
  intros P A S. pose proof (inside_valid p s0 a) as IV.
  pose proof (solve_ok lg root p a s0 m0 is01 (inside (ms_deps s0) (allowed p s0)) P A) as H.
  assert (Dp : forall s, same_core s s0 -> ms_deps s = ms_deps s0) by (intros s (_ & _ & _ & (_ & _ & _ & _ & _ & _ & E)); exact E).
  cbv zeta in H.
  assert (X : forall r, (forall y, In y (visited r) -> inside (ms_deps s0) (allowed p s0) y) -> forall y, In y (visited r) -> valid_start (pb_n p) (placed p y) (pb_sels p)) by (intros r K y Hy; apply IV; [exact S|now apply K]).
  destruct S as (S1 & S2 & S3 & S4 & S5).
  match type of H with ?A1 -> ?A2 -> ?A3 -> ?A4 -> ?A5 -> ?B =>
    assert (H1 : A1) by (intros x y E I v Hv; rewrite <- E; now apply I); specialize (H H1); clear H1;
    assert (H2 : A2); [|specialize (H H2); clear H2; assert (H3 : A3); [|specialize (H H3); clear H3; assert (H4 : A4); [|specialize (H H4); clear H4; assert (H5 : A5); [|specialize (H H5); clear H5]]]] end.
  - apply boxed_export, update_boxed. split; [reflexivity|]. intros v Hd. destruct S1 as (V1 & V2). split; [|split; [|reflexivity]]; intros Hv; apply (V2 v Hv).
  - intros g s h Hg Ga Sc I q Hq. destruct q as [y sc]. assert (Bx : boxed (ms_deps s0) (allowed p s0) s) by (split; [now apply Dp|exact I]). eapply (g_search_box (ms_deps s0) (allowed p s0)); [intros v Hv; exact (S3 g v Hg Ga Hv)|exact Bx|exact Hq].
  - intros g s h m Hg Sc I q Hq. destruct q as [y sc]. assert (Bx : boxed (ms_deps s0) (allowed p s0) s) by (split; [now apply Dp|exact I]). eapply (s_search_box (ms_deps s0) (allowed p s0)); [|exact Bx|exact Hq].
    intros e He t Ht. destruct (S4 g e t Hg He Ht) as [M1 M2]. split; [exact M1|]. split; [exact M2|]. destruct A as (_ & A2 & _). destruct (A2 g Hg e t He Ht) as ((_ & _ & _ & _ & _ & T) & _). intros Ei. destruct (T Ei) as (v & n & E & _). exists v, n. exact E.
  - intros d k s h m Hd Sc I q Hq. destruct q as [y sc]. destruct (S5 d Hd) as [M1 M2]. assert (Bx : boxed (ms_deps s0) (allowed p s0) s) by (split; [now apply Dp|exact I]). eapply (l_search_box (ms_deps s0) (allowed p s0)); [exact M1| |exact Bx|exact Hq].
    intros e He t Ht. destruct (M2 e t He Ht) as [N1 N2]. split; [exact N1|]. intros Ei v n Hv. exact (N2 Ei v n 0%nat Hv).
  - destruct (solve lg root p a s0 m0) as [[an r]|r y|r].
    + apply X. apply H.
    + destruct H as ((_ & K & _) & Hy & N). apply N. now apply (X r).
    + apply X. apply H.
Qed.
