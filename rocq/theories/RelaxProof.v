(** Proofs for C76: the searches leave the dual bound alone. *)
From Coq Require Import List ZArith QArith Bool.
From Verif Require Import ContainerModel ExprModel ConstraintModel EvalModel SolutionModel TabuModel LoopModel LocalModel LagrangeModel ControllerModel SolverModel.
Import ListNotations.
Local Open Scope Z_scope.

Lemma try_dual (h : holder (nat -> Z)) y sc : ho_dual (fst (try_update h y sc)) = ho_dual h.
Proof.
  unfold try_update. destruct (try_slot _ _ _ _) as [l bl]. destruct (try_slot (sc_global_aug sc) _ _ _) as [g bg]. destruct (if sc_feasible sc then _ else _) as [f bf]. reflexivity.
Qed.
Lemma offer_keeps s h sc : ho_dual (snd (fst (l_offer s h sc))) = ho_dual h.
Proof. unfold l_offer. pose proof (try_dual h (ms_x (ms_export s)) sc) as H. destruct (try_update h (ms_x (ms_export s)) sc) as [h' st]. exact H. Qed.
Lemma reset_keeps (h : holder (nat -> Z)) : ho_dual (reset_local h) = ho_dual h. Proof. reflexivity. Qed.

(** ** Tabu search *)
Lemma advance_dual o draw l alts related sc l' : l_advance o draw l alts related sc = Some l' -> ho_dual (lp_holder l') = ho_dual (lp_holder l).
Proof.
  unfold l_advance. pose proof (offer_keeps (ms_update_move (lp_ms l) alts related) (lp_holder l) sc) as H.
  destruct (l_offer _ _ _) as [[s1 h1] st]. cbn [fst snd] in H. destruct (tenure_update _ _ _ _ _ _ _) as [t|]; [|discriminate].
  intros E. assert (X : lp_holder l' = h1) by (injection E as <-; reflexivity). rewrite X. exact H.
Qed.
Lemma modify_dual o mods : forall l l', l_modify o mods l = Some l' -> ho_dual (lp_holder l') = ho_dual (lp_holder l).
Proof.
  induction mods as [|[t draw] tl IH]; intros l l' H; cbn [l_modify] in H; [injection H as <-; reflexivity|].
  destruct (l_advance _ _ _ _ _ _) as [l1|] eqn:E; [|discriminate]. rewrite (IH _ _ H). exact (advance_dual _ _ _ _ _ _ _ E).
Qed.
Lemma iterate_dual o e l : ho_dual (lp_holder (fst (l_iterate o e l))) = ho_dual (lp_holder l).
Proof.
  unfold l_iterate. destruct (en_time_over e); [reflexivity|]. destruct (_ <=? _)%Z; [reflexivity|]. destruct (reach_target _ _); [reflexivity|]. destruct (early_stop _ _); [reflexivity|].
  destruct (filter _ _) as [|m ml]; [reflexivity|]. destruct (gap_closed _); [reflexivity|]. cbv zeta.
  destruct (select_move _ _ _) as [[i mm]|]; [|reflexivity]. destruct (nth_error (m :: ml) i) as [t|]; [|reflexivity]. destruct (nth_error (map _ _) i) as [tr|]; [|reflexivity].
  match goal with |- context [l_advance ?o ?d ?l ?a ?r ?sc] => destruct (l_advance o d l a r sc) as [l1|] eqn:E; [|reflexivity] end.
  cbn [fst lp_holder]. exact (advance_dual _ _ _ _ _ _ _ E).
Qed.
Lemma run_dual o es : forall l, ho_dual (lp_holder (fst (l_run o es l))) = ho_dual (lp_holder l).
Proof.
  induction es as [|e tl IH]; intros l; cbn [l_run]; [reflexivity|]. pose proof (iterate_dual o e l) as K.
  destruct (l_iterate o e l) as [l' [st|]]; cbn [fst] in *; [exact K|]. rewrite IH. exact K.
Qed.
Lemma l_search_dual o s h m mods es : ho_dual (lp_holder (fst (l_search o s h m mods es))) = ho_dual h.
Proof.
  unfold l_search. assert (S : ho_dual (lp_holder (l_setup o s h m)) = ho_dual h).
  { unfold l_setup. pose proof (offer_keeps (ms_update s) (reset_local h) (evaluate (ms_model (ms_update s)) (ms_x (ms_update s)) [])) as H.
    destruct (l_offer _ _ _) as [[s1 h1] st]. exact H. }
  destruct (l_modify o mods (l_setup o s h m)) as [l'|] eqn:E; [|exact S]. rewrite run_dual, (modify_dual _ _ _ _ E). exact S.
Qed.

(** ** Local search *)
Lemma s_iterate_dual o e l : ho_dual (sl_holder (fst (s_iterate o e l))) = ho_dual (sl_holder l).
Proof.
  unfold s_iterate. destruct (se_time_over e); [reflexivity|]. destruct (_ <=? _)%Z; [reflexivity|]. destruct (match sl_obj _ with Some q => Qle_bool q _ | None => false end); [reflexivity|].
  destruct (se_moves e) as [|m ml]; [reflexivity|]. cbv zeta. set (p := combine_moves _ _ _ _ _ _). destruct (cb_alts p) as [|a al]; [reflexivity|].
  set (sc := evaluate_multi _ _ _ _ _). pose proof (offer_keeps (ms_update_move (sl_ms l) (a :: al) (cb_related p)) (sl_holder l) sc) as H.
  destruct (l_offer _ _ _) as [[s1 h1] st]. exact H.
Qed.
Lemma s_search_dual o s h m es : ho_dual (sl_holder (fst (s_search o s h m es))) = ho_dual h.
Proof.
  unfold s_search. assert (S : ho_dual (sl_holder (s_setup s h m)) = ho_dual h).
  { unfold s_setup. pose proof (offer_keeps (ms_update s) (reset_local h) (evaluate (ms_model (ms_update s)) (ms_x (ms_update s)) [])) as H.
    destruct (l_offer _ _ _) as [[s1 h1] st]. exact H. }
  rewrite <- S. generalize (s_setup s h m) as l. induction es as [|e tl IH]; intros l; cbn [s_run]; [reflexivity|]. pose proof (s_iterate_dual o e l) as K.
  destruct (s_iterate o e l) as [l' [st|]]; cbn [fst] in *; [exact K|]. rewrite IH. exact K.
Qed.

(** ** Lagrange dual search *)
Lemma g_iterate_dual o mi vars lo hi t l : ho_dual (gl_holder (fst (g_iterate o mi vars lo hi t l))) = ho_dual (gl_holder l).
Proof.
  unfold g_iterate. destruct t; [reflexivity|]. destruct (_ <=? _)%Z; [reflexivity|]. destruct (match sl_obj _ with Some q => Qle_bool q _ | None => false end); [reflexivity|].
  cbv zeta. set (dual := update_dual _ _ _). set (s := ms_update _). set (sc := evaluate _ _ _). pose proof (offer_keeps s (gl_holder l) sc) as H.
  destruct (l_offer _ _ _) as [[s1 h1] st]. cbn [fst snd] in H. destruct (fq_push _ _) as [q|]; [exact H|reflexivity].
Qed.
Lemma g_search_dual o mi vars lo hi s h clock : ho_dual (gl_holder (fst (g_search o mi vars lo hi s h clock))) = ho_dual h.
Proof.
  unfold g_search. assert (S : ho_dual (gl_holder (g_setup o (length vars) s h)) = ho_dual h).
  { unfold g_setup. pose proof (offer_keeps (ms_update s) (reset_local h) (evaluate (ms_model (ms_update s)) (ms_x (ms_update s)) [])) as H.
    destruct (l_offer _ _ _) as [[s1 h1] st]. exact H. }
  rewrite <- S. generalize (g_setup o (length vars) s h) as l. induction clock as [|t tl IH]; intros l; cbn [g_run]; [reflexivity|]. pose proof (g_iterate_dual o mi vars lo hi t l) as K.
  destruct (g_iterate o mi vars lo hi t l) as [l' [st|]]; cbn [fst] in *; [exact K|]. rewrite IH. exact K.
Qed.

(** ** The phases *)
Definition run_of {A} (f : A -> run) (o : outcome A) : run := match o with Done a => f a | Rejected r _ => r | NotANumber r => r end.
Lemma current_dual r : ho_dual (rn_holder (with_current r)) = ho_dual (rn_holder r). Proof. reflexivity. Qed.
Lemma local_dual p g r : ho_dual (rn_holder (run_of (fun r => r) (v_local p g r))) = ho_dual (rn_holder r).
Proof.
  unfold v_local. destruct g as [a|]; [|reflexivity]. destruct (_ || _); [reflexivity|]. destruct (import_sparse _ _ _) as [s|]; [|reflexivity].
  cbn [run_of with_current rn_holder]. apply s_search_dual.
Qed.
Lemma rounds_dual o lg root p limit target ds : forall i last k r, ho_dual (rn_holder (run_of (fun r => r) (v_rounds o lg root p limit target ds i last k r))) = ho_dual (rn_holder r).
Proof.
  induction ds as [|d tl IH]; intros i last k r; cbn [v_rounds]; [reflexivity|].
  destruct (td_time_over d); [reflexivity|]. destruct (limit <=? i); [reflexivity|]. destruct (target_reached _ _); [reflexivity|]. destruct (_ && _); [reflexivity|].
  destruct (import_sparse _ _ _) as [s|]; [|reflexivity].
  pose proof (l_search_dual (governed k (td_options d)) s (rn_holder r) (rn_mem r) (td_mods d) (td_envs d)) as H.
  destruct (l_search _ _ _ _ _ _) as [l st]. cbn [fst] in H. cbv zeta. destruct (k_update _ _ _ _ _ _ _ _ _ _) as [[k' cs]|]; [|exact H].
  rewrite IH. exact H.
Qed.
Lemma tabu_dual o lg root p limit target ds r : ho_dual (rn_holder (run_of (fun r => r) (v_tabu o lg root p limit target ds r))) = ho_dual (rn_holder r).
Proof.
  unfold v_tabu. pose proof (rounds_dual o lg root p limit target ds 0 None (k_setup o (rn_mem r) (rn_current r)) r) as H.
  destruct (v_rounds _ _ _ _ _ _ _ _ _ _ _) as [r'| |]; exact H.
Qed.
Lemma post_run p r : run_of snd (v_postprocess p r) = r.
Proof.
  unfold v_postprocess. destruct (sl_stored _) as [[y sc]|]; [|reflexivity]. destruct (import_kept _ _ _); reflexivity.
Qed.
(** After the Lagrange dual search nothing changes the dual bound. *)
Lemma solve_dual lg root p a s0 m0 : let r0 := v_pdlp p (in_pdlp a) (v_preprocess (in_naive a) s0 m0) in
  ho_dual (rn_holder (run_of snd (solve lg root p a s0 m0))) = ho_dual (rn_holder (run_of (fun r => r) (v_lagrange p (in_lagrange a) r0))).
Proof.
  intros r0. unfold solve. cbv zeta. fold r0. destruct (v_lagrange p (in_lagrange a) r0) as [r1| |]; [|reflexivity|reflexivity]. cbn [bind run_of].
  pose proof (local_dual p (in_local a) r1) as H1. destruct (v_local p (in_local a) r1) as [r2| |]; cbn [bind run_of] in *; [|exact H1|exact H1].
  pose proof (tabu_dual (in_control a) lg root p (in_limit a) (in_target a) (in_rounds a) r2) as H2. destruct (v_tabu _ _ _ _ _ _ _ _) as [r3| |]; cbn [bind run_of] in *; [|congruence|congruence].
  rewrite post_run. congruence.
Qed.
