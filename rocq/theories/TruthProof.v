(** Proofs for C80: what the searches keep whatever moves they are offered. *)
From Coq Require Import List ZArith QArith Qabs Permutation Lia Lqa Bool.
From Verif Require Import ContainerModel ExprModel ExprSpec ExprProof ConstraintModel ConstraintSpec ConstraintProof EvalModel EvalSpec EvalSpec2
  EvalProof EvalProof2 EvalProof3 SolutionModel SolutionSpec SolutionProof VariableModel PresolveModel SelectionModel SelectionSpec SelectionProof3
  TabuModel TabuSpec TabuProof LoopModel LoopSpec LoopProof LoopProof2 LoopProof3 LocalModel LocalSpec LocalProof LocalProof2
  LagrangeModel LagrangeSpec LagrangeProof LagrangeProof2 LagrangeProof3 ControllerModel ControllerSpec ControllerProof ControllerProof2 ControllerProof3
  SolverModel SolverSpec SolverProof SolverProof2 SolverProof3.
Import ListNotations.
Local Open Scope Q_scope.

(** ** The searches *)
Section Searches.
  Variables (s : mstate) (h : holder (nat -> Z)).
  Definition follows (ms : mstate) (hl : holder (nat -> Z)) (vs : list ((nat -> Z) * score)) : Prop :=
    same_frame ms s /\ hl = fold_left (h_step true) (offers vs) (reset_local h).

  Lemma offer_follows ms hl vs sc : same_frame ms s -> hl = fold_left (h_step true) (offers vs) (reset_local h) ->
    follows (fst (fst (l_offer ms hl sc))) (snd (fst (l_offer ms hl sc))) (vs ++ [(ms_x (ms_export ms), sc)]).
  Proof.
    intros F H. destruct (offer_cases ms hl sc) as (s1 & h1 & st & E & C & ->). rewrite E. cbn [fst snd]. split.
    - destruct C as [->| ->]; [exact F|]. eapply frame_trans; [apply export_frame|exact F].
    - unfold offers. rewrite map_app, fold_left_app. cbn [map fold_left fst snd]. rewrite H. reflexivity.
  Qed.
  Lemma export_follows ms hl vs (b : bool) : follows ms hl vs -> follows (if b then ms_export ms else ms) hl vs.
  Proof. intros [F H]. split; [|exact H]. destruct b; [|exact F]. eapply frame_trans; [apply export_frame|exact F]. Qed.

  Definition lfollows (l : loop) : Prop := follows (lp_ms l) (lp_holder l) (lp_visited l).
  Lemma advance_follows o draw l alts related sc l' : lfollows l -> l_advance o draw l alts related sc = Some l' -> lfollows l'.
  Proof.
    intros [F Hl] H. unfold l_advance in H. pose proof (move_frame (lp_ms l) (alts, related)) as Fm. cbn [fst snd] in Fm.
    pose proof (offer_follows _ (lp_holder l) (lp_visited l) sc (frame_trans _ _ _ Fm F) Hl) as O.
    destruct (l_offer (ms_update_move (lp_ms l) alts related) (lp_holder l) sc) as [[s1 h1] st]. cbn [fst snd] in O.
    destruct (tenure_update _ _ _ _ _ _ _) as [t|]; [|discriminate]. injection H as <-. exact O.
  Qed.
  Lemma modify_follows o mods : forall l l', lfollows l -> l_modify o mods l = Some l' -> lfollows l'.
  Proof.
    induction mods as [|[t draw] tl IH]; intros l l' C H; cbn [l_modify] in H; [injection H as <-; exact C|].
    destruct (l_advance _ _ _ _ _ _) as [l1|] eqn:E; [|discriminate]. eapply IH; [|exact H]. eapply advance_follows; eassumption.
  Qed.
  Lemma iterate_follows o e l : lfollows l -> lfollows (fst (l_iterate o e l)).
  Proof.
    intros C. unfold l_iterate. destruct (en_time_over e); [exact C|]. destruct (_ <=? _)%Z; [exact C|]. destruct (reach_target _ _); [exact C|]. destruct (early_stop _ _); [exact C|].
    destruct (filter _ _) as [|m ml]; [exact C|]. destruct (gap_closed _); [exact C|]. cbv zeta.
    destruct (select_move _ _ _) as [[i mm]|]; [|exact C]. destruct (nth_error (m :: ml) i) as [t|]; [|exact C]. destruct (nth_error (map _ _) i) as [tr|]; [|exact C].
    match goal with |- context [l_advance ?o ?d ?l ?a ?r ?sc] => destruct (l_advance o d l a r sc) as [l1|] eqn:E; [|exact C] end.
    apply advance_follows in E; [|exact C]. unfold lfollows. cbn [fst lp_ms lp_holder lp_visited]. apply export_follows. exact E.
  Qed.
  Lemma run_follows o es : forall l, lfollows l -> lfollows (fst (l_run o es l)).
  Proof.
    induction es as [|e tl IH]; intros l C; cbn [l_run]; [exact C|]. pose proof (iterate_follows o e l C) as K. destruct (l_iterate o e l) as [l' [st|]]; cbn [fst] in *; [exact K|now apply IH].
  Qed.
  Lemma l_search_follows o m mods es : lfollows (fst (l_search o s h m mods es)).
  Proof.
    unfold l_search. assert (S : lfollows (l_setup o s h m)).
    { unfold l_setup. pose proof (offer_follows (ms_update s) (reset_local h) [] (evaluate (ms_model (ms_update s)) (ms_x (ms_update s)) []) (update_frame s) eq_refl) as O.
      destruct (l_offer _ _ _) as [[s1 h1] st]. exact O. }
    destruct (l_modify o mods (l_setup o s h m)) as [l'|] eqn:E; [|exact S]. apply run_follows. eapply modify_follows; eassumption.
  Qed.

  Definition sfollows (l : slocal) : Prop := follows (sl_ms l) (sl_holder l) (sl_visited l).
  Lemma s_iterate_follows o e l : sfollows l -> sfollows (fst (s_iterate o e l)).
  Proof.
    intros C. unfold s_iterate. destruct (se_time_over e); [exact C|]. destruct (_ <=? _)%Z; [exact C|]. destruct (match sl_obj _ with Some q => Qle_bool q _ | None => false end); [exact C|].
    destruct (se_moves e) as [|m ml]; [exact C|]. cbv zeta. set (p := combine_moves _ _ _ _ _ _). destruct (cb_alts p) as [|a al]; [exact C|]. destruct C as (F & Hl).
    set (sc := evaluate_multi _ _ _ _ _). pose proof (move_frame (sl_ms l) (a :: al, cb_related p)) as Fm. cbn [fst snd] in Fm.
    pose proof (offer_follows _ (sl_holder l) (sl_visited l) sc (frame_trans _ _ _ Fm F) Hl) as O. destruct (l_offer (ms_update_move (sl_ms l) (a :: al) (cb_related p)) (sl_holder l) sc) as [[s1 h1] st]. cbn [fst snd] in O.
    unfold sfollows. cbn [fst sl_ms sl_holder sl_visited]. apply export_follows. exact O.
  Qed.
  Lemma s_search_follows o m es : sfollows (fst (s_search o s h m es)).
  Proof.
    unfold s_search. assert (S : sfollows (s_setup s h m)).
    { unfold s_setup. pose proof (offer_follows (ms_update s) (reset_local h) [] (evaluate (ms_model (ms_update s)) (ms_x (ms_update s)) []) (update_frame s) eq_refl) as O.
      destruct (l_offer _ _ _) as [[s1 h1] st]. exact O. }
    revert S. generalize (s_setup s h m) as l. induction es as [|e tl IH]; intros l S; cbn [s_run]; [exact S|]. pose proof (s_iterate_follows o e l S) as K.
    destruct (s_iterate o e l) as [l' [st|]]; cbn [fst] in *; [exact K|now apply IH].
  Qed.

  Definition gfollows (l : gloop) : Prop := follows (gl_ms l) (gl_holder l) (gl_visited l).
  Lemma g_iterate_follows o minimize vars lo hi t l : gfollows l -> gfollows (fst (g_iterate o minimize vars lo hi t l)).
  Proof.
    intros C. unfold g_iterate. destruct t; [exact C|]. destruct (_ <=? _)%Z; [exact C|]. destruct (match sl_obj _ with Some q => Qle_bool q _ | None => false end); [exact C|].
    cbv zeta. set (dual := update_dual _ _ _). set (x := primal_step minimize vars lo hi (gl_ms l) dual). destruct C as (F & Hl).
    assert (Fs : same_frame (ms_update (with_x (gl_ms l) x)) s) by (eapply frame_trans; [apply update_frame|]; eapply frame_trans; [apply with_x_frame|exact F]).
    set (t := ms_update (with_x (gl_ms l) x)) in *. set (sc := evaluate (ms_model t) (ms_x t) []).
    pose proof (offer_follows t (gl_holder l) (gl_visited l) sc Fs Hl) as O. destruct (l_offer t (gl_holder l) sc) as [[s1 h1] st]. cbn [fst snd] in O.
    destruct (fq_push _ _) as [q|]; [|split; assumption]. unfold gfollows. cbn [fst gl_ms gl_holder gl_visited]. apply export_follows. exact O.
  Qed.
  Lemma g_search_follows o minimize vars lo hi clock : gfollows (fst (g_search o minimize vars lo hi s h clock)).
  Proof.
    unfold g_search. assert (S : gfollows (g_setup o (length vars) s h)).
    { unfold g_setup. pose proof (offer_follows (ms_update s) (reset_local h) [] (evaluate (ms_model (ms_update s)) (ms_x (ms_update s)) []) (update_frame s) eq_refl) as O.
      destruct (l_offer _ _ _) as [[s1 h1] st]. exact O. }
    revert S. generalize (g_setup o (length vars) s h) as l. induction clock as [|t tl IH]; intros l S; cbn [g_run]; [exact S|]. pose proof (g_iterate_follows o minimize vars lo hi t l S) as K.
    destruct (g_iterate o minimize vars lo hi t l) as [l' [st|]]; cbn [fst] in *; [exact K|now apply IH].
  Qed.
End Searches.
