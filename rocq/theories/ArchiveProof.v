(** Proofs for C91: what one search keeps. *)
From Coq Require Import List ZArith QArith Qabs Bool Lia.
From Verif Require Import ExprModel ExprSpec ConstraintModel ConstraintSpec EvalModel EvalSpec EvalSpec2 EvalProof3 SolutionModel SolutionSpec VariableModel PresolveModel
  SelectionModel ContainerModel TabuModel LoopModel LoopSpec LoopProof LoopProof2 LoopProof3 LocalModel LocalSpec LocalProof LocalProof2 LagrangeModel LagrangeProof2 LagrangeProof3
  SolverModel SolverSpec SolverProof ArchiveModel.
Import ListNotations.
Local Open Scope nat_scope.

(** ** Iterations *)
Section Collect.
  Context {E L S A : Type}.
  Variables (step : E -> L -> L * option S) (kept : L -> nat) (ms : L -> mstate) (n : nat) (seen : L -> list A).
  Fixpoint runs (es : list E) (l : L) : L * option S :=
    match es with [] => (l, None) | e :: tl => match step e l with (l', Some st) => (l', Some st) | (l', None) => runs tl l' end end.
  Hypothesis Grow : forall e l a, In a (seen l) -> In a (seen (fst (step e l))).
  Lemma runs_grow es : forall l a, In a (seen l) -> In a (seen (fst (runs es l))).
  Proof.
    induction es as [|e es IH]; intros l a H; cbn [runs]; [exact H|]. pose proof (Grow e l a H) as G. destruct (step e l) as [l' [st|]]; cbn [fst] in *; [exact G|]. now apply IH.
  Qed.
  Lemma collect_in es : forall l q, In q (collect step kept ms n es l) -> exists es1 l' l0 e,
    incl es1 es /\ l' = fst (runs es1 l) /\ l' = fst (step e l0) /\ kept l0 < kept l' /\ q = export_sparse n (ms l') /\ forall a, In a (seen l') -> In a (seen (fst (runs es l))).
  Proof.
    induction es as [|e es IH]; intros l q H; cbn [collect] in H; [destruct H|].
    destruct (step e l) as [l' st] eqn:Es. apply in_app_iff in H as [H|H].
    - destruct (Nat.ltb_spec (kept l) (kept l')) as [K|K]; [|destruct H]. destruct H as [<-|[]].
      exists [e], l', l, e. split; [intros z [<-|[]]; now left|]. split; [cbn [runs]; rewrite Es; destruct st; reflexivity|]. split; [rewrite Es; reflexivity|]. split; [exact K|]. split; [reflexivity|].
      intros a Ha. cbn [runs]. rewrite Es. destruct st; cbn [fst]; [exact Ha|]. now apply runs_grow.
    - destruct st as [st|]; [destruct H|]. destruct (IH l' q H) as (es1 & l1 & l0 & e0 & I & R & St & K & Q & V). exists (e :: es1), l1, l0, e0.
      split; [intros z [<-|Hz]; [now left|right; now apply I]|]. split; [cbn [runs]; rewrite Es; exact R|]. split; [exact St|]. split; [exact K|]. split; [exact Q|]. cbn [runs]. rewrite Es. exact V.
  Qed.
End Collect.

(** The state the solution is exported from. *)
Definition fresh_of (s' : mstate) (vs : list ((nat -> Z) * score)) (sc : score) : Prop :=
  sc_feasible sc = true /\ exists s1 s, s' = ms_export s1 /\ (s1 = s \/ s1 = ms_export s) /\ In (ms_x (ms_export s), sc) vs.
Lemma offer_state s h sc : let s1 := fst (fst (l_offer s h sc)) in s1 = s \/ s1 = ms_export s.
Proof. unfold l_offer. destruct (try_update _ _ _) as [h' st]. cbn [fst]. destruct (0 <? st)%Z; auto. Qed.

Lemma l_grow o e l a : In a (lp_visited l) -> In a (lp_visited (fst (l_iterate o e l))).
Proof.
  intros H. unfold l_iterate. cbv zeta.
  repeat match goal with |- context [if ?b then (l, _) else _] => destruct b; [exact H|] end.
  destruct (select_move _ _ _) as [[i tr]|]; [|exact H].
  destruct (nth_error _ i) as [tm|]; [|exact H]. destruct (nth_error _ i) as [tr'|]; [|exact H].
  destruct (l_advance _ _ _ _ _ _) as [l1|] eqn:Ea; [|exact H]. cbn [fst lp_visited].
  unfold l_advance in Ea. cbv zeta in Ea. destruct (l_offer _ _ _) as [[s1 h1] st]. destruct (tenure_update _ _ _ _ _ _ _); [|discriminate]. injection Ea as <-. cbn [lp_visited]. apply in_app_iff. now left.
Qed.
Lemma l_kept o e l : length (lp_feasible l) < length (lp_feasible (fst (l_iterate o e l))) ->
  fresh_of (lp_ms (fst (l_iterate o e l))) (lp_visited (fst (l_iterate o e l))) (lp_score (fst (l_iterate o e l))).
Proof.
  unfold l_iterate. cbv zeta.
  repeat match goal with |- context [if ?b then (l, _) else _] => destruct b; [cbn [fst]; intros X; exfalso; lia|] end.
  destruct (select_move _ _ _) as [[i tr]|]; [|cbn [fst]; intros X; exfalso; lia].
  destruct (nth_error _ i) as [tm|]; [|cbn [fst]; intros X; exfalso; lia]. destruct (nth_error _ i) as [tr'|]; [|cbn [fst]; intros X; exfalso; lia].
  match goal with |- context [l_advance o _ l ?al ?re _] => set (alts := al); set (rel := re) end.
  match goal with |- context [l_advance o ?d l alts rel ?s] => set (sc := s); destruct (l_advance o d l alts rel sc) as [l1|] eqn:Ea; [|cbn [fst]; intros X; exfalso; lia] end.
  cbn [fst lp_feasible lp_ms lp_visited lp_score]. unfold l_advance in Ea. cbv zeta in Ea. pose proof (offer_state (ms_update_move (lp_ms l) alts rel) (lp_holder l) sc) as Of. cbv zeta in Of.
  destruct (l_offer _ _ _) as [[s1 h1] st]. cbn [fst] in Of. destruct (tenure_update _ _ _ _ _ _ _) as [tn|]; [|discriminate]. injection Ea as <-. cbn [lp_feasible lp_ms lp_visited lp_score].
  destruct (lo_store o && sc_feasible sc) eqn:Ek; [|intros X; exfalso; lia]. intros _. apply andb_true_iff in Ek as [_ Ek]. split; [exact Ek|].
  exists s1, (ms_update_move (lp_ms l) alts rel). split; [reflexivity|]. split; [exact Of|]. apply in_app_iff. right. now left.
Qed.
Lemma s_grow o e l a : In a (sl_visited l) -> In a (sl_visited (fst (s_iterate o e l))).
Proof.
  intros H. unfold s_iterate. cbv zeta.
  repeat match goal with |- context [if ?b then (l, _) else _] => destruct b; [exact H|] end.
  destruct (se_moves e) as [|t0 ts]; [exact H|]. destruct (cb_alts _) as [|a0 al]; [exact H|]. destruct (l_offer _ _ _) as [[s1 h1] st]. cbn [fst sl_visited]. apply in_app_iff. now left.
Qed.
Lemma s_kept o e l : length (sl_feasible l) < length (sl_feasible (fst (s_iterate o e l))) ->
  fresh_of (sl_ms (fst (s_iterate o e l))) (sl_visited (fst (s_iterate o e l))) (sl_score (fst (s_iterate o e l))).
Proof.
  unfold s_iterate. cbv zeta.
  repeat match goal with |- context [if ?b then (l, _) else _] => destruct b; [cbn [fst]; intros X; exfalso; lia|] end.
  destruct (se_moves e) as [|t0 ts]; [cbn [fst]; intros X; exfalso; lia|]. destruct (cb_alts _) as [|a0 al]; [cbn [fst]; intros X; exfalso; lia|].
  match goal with |- context [l_offer ?a ?h ?s] => set (sc := s); set (s0 := a); pose proof (offer_state s0 h sc) as Of end. cbv zeta in Of.
  destruct (l_offer _ _ _) as [[s1 h1] st]. cbn [fst sl_feasible sl_ms sl_visited sl_score] in *.
  destruct (so_store o && sc_feasible sc) eqn:Ek; [|intros X; exfalso; lia]. intros _. apply andb_true_iff in Ek as [_ Ek]. split; [exact Ek|].
  exists s1, s0. split; [reflexivity|]. split; [exact Of|]. apply in_app_iff. right. now left.
Qed.
Lemma g_grow o mi vars lo hi e l a : In a (gl_visited l) -> In a (gl_visited (fst (g_iterate o mi vars lo hi e l))).
Proof.
  intros H. unfold g_iterate. cbv zeta.
  repeat match goal with |- context [if ?b then (l, _) else _] => destruct b; [exact H|] end.
  destruct (l_offer _ _ _) as [[s1 h1] st]. destruct (fq_push _ _) as [q|]; [|exact H]. cbn [fst gl_visited]. apply in_app_iff. now left.
Qed.
Lemma g_kept o mi vars lo hi e l : length (gl_feasible l) < length (gl_feasible (fst (g_iterate o mi vars lo hi e l))) ->
  fresh_of (gl_ms (fst (g_iterate o mi vars lo hi e l))) (gl_visited (fst (g_iterate o mi vars lo hi e l))) (gl_score (fst (g_iterate o mi vars lo hi e l))).
Proof.
  unfold g_iterate. cbv zeta.
  repeat match goal with |- context [if ?b then (l, _) else _] => destruct b; [cbn [fst]; intros X; exfalso; lia|] end.
  match goal with |- context [l_offer ?a ?h ?s] => set (sc := s); set (s0 := a); pose proof (offer_state s0 h sc) as Of end. cbv zeta in Of.
  destruct (l_offer _ _ _) as [[s1 h1] st]. destruct (fq_push _ _) as [q|]; [|cbn [fst]; intros X; exfalso; lia]. cbn [fst gl_feasible gl_ms gl_visited gl_score] in *.
  destruct (go_store o && sc_feasible sc) eqn:Ek; [|intros X; exfalso; lia]. intros _. apply andb_true_iff in Ek as [_ Ek]. split; [exact Ek|].
  exists s1, s0. split; [reflexivity|]. split; [exact Of|]. apply in_app_iff. right. now left.
Qed.
Lemma l_runs o es : forall l, runs (l_iterate o) es l = l_run o es l.
Proof. induction es as [|e es IH]; intros l; cbn [runs l_run]; [reflexivity|]. destruct (l_iterate o e l) as [l' [st|]]; [reflexivity|apply IH]. Qed.
Lemma s_runs o es : forall l, runs (s_iterate o) es l = s_run o es l.
Proof. induction es as [|e es IH]; intros l; cbn [runs s_run]; [reflexivity|]. destruct (s_iterate o e l) as [l' [st|]]; [reflexivity|apply IH]. Qed.
Lemma g_runs o mi vars lo hi es : forall l, runs (g_iterate o mi vars lo hi) es l = g_run o mi vars lo hi es l.
Proof. induction es as [|e es IH]; intros l; cbn [runs g_run]; [reflexivity|]. destruct (g_iterate o mi vars lo hi e l) as [l' [st|]]; [reflexivity|apply IH]. Qed.

(** ** What is exported *)
(** q has the values of y, which satisfies the constraints of the search, the objective
    of y and says that it is feasible. *)
Definition tells (n : nat) (md : model) (q : ssol) (y : nat -> Z) : Prop :=
  so_vars q = filter (fun p => negb (snd p =? 0)%Z) (map (fun v => (v, y v)) (seq 0 n)) /\
  (md_defined md = true -> so_obj q == e_eval (md_obj md) y)%Q /\ so_feasible q = true.
Definition kept_right (s0 : mstate) (n : nat) (vs : list ((nat -> Z) * score)) (q : ssol) : Prop :=
  exists y sc, In (y, sc) vs /\ sc_feasible sc = true /\ tells n (ms_model s0) q y.
Lemma exported is01 s0 s n s' vs vs' sc : resolved s0 -> loop_start is01 s -> same_core s s0 -> clean s0 s' -> minv is01 s s' -> true_score (ms_model s) (ms_x s') sc -> all_sound s0 vs ->
  fresh_of s' vs sc -> (forall a, In a vs -> In a vs') -> kept_right s0 n vs' (export_sparse n s').
Proof.
  intros R L Co [St K] Mi T So (F & s1 & s2 & E & E1 & I) Iv. exists (ms_x (ms_export s2)), sc. split; [now apply Iv|]. split; [exact F|].
  assert (X : forall v, ms_x s' v = ms_x (ms_export s2) v).
  { intros v. subst s'. destruct E1 as [->| ->]; [reflexivity|]. rewrite export_settle.
    rewrite (settle_static (ms_export s2) s0).
    - apply (So _ _ I).
    - pose proof (export_frame (ms_export s2)) as (_ & _ & _ & F4). destruct F4 as (A1 & A2 & A3 & A4 & A5 & A6 & A7). destruct St as (B1 & B2 & B3 & B4 & B5 & B6 & B7).
      repeat split; congruence. }
  split; [|split].
  - cbn [export_sparse so_vars]. f_equal. apply map_ext. intros v. now rewrite X.
  - intros D. cbn [export_sparse so_obj]. destruct Mi as ((_ & _ & Ob & _) & Fr & _). destruct St as (_ & _ & O1 & O2 & _).
    rewrite O2 in Ob. destruct (Ob D) as [_ ->]. rewrite O1. apply eval_ext. intros v _. apply X.
  - cbn [export_sparse so_feasible]. apply (minv_feasible is01 s s' L Mi). now apply (true_feasible is01 s _ sc L T).
Qed.
