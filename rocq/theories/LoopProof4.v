(** Proofs for C52: the number of ineffective updates. *)
From Coq Require Import List ZArith QArith Qabs Bool Lia Lqa.
From Verif Require Import ExprModel ConstraintModel EvalModel SolutionModel TabuModel LoopModel LoopSpec.
Import ListNotations.
Local Open Scope Z_scope.

Lemma beats_improves v o : improves v o = beats v o.
Proof.
  unfold improves, beats. destruct o as [q|]; [|reflexivity]. destruct (Qle_bool q (v + EPS)) eqn:E; destruct (Qlt_le_dec (v + EPS) q) as [L|L]; try reflexivity.
  - apply Qle_bool_iff in E. exfalso. lra.
  - apply (proj2 (Qle_bool_iff _ _)) in L. congruence.
Qed.
Lemma dearer_lt a b : (if Qlt_le_dec a b then true else false) = negb (Qle_bool b a).
Proof.
  destruct (Qle_bool b a) eqn:E; destruct (Qlt_le_dec a b) as [L|L]; try reflexivity.
  - apply Qle_bool_iff in E. exfalso. lra.
  - apply (proj2 (Qle_bool_iff _ _)) in L. congruence.
Qed.
Lemma last_more {A} (l : list A) : forall a d, last (a :: l) d = last l a.
Proof. induction l as [|b tl IH]; intros a d; [reflexivity|]. change (last (a :: b :: tl) d) with (last (b :: tl) d). rewrite IH. symmetry. apply IH. Qed.
Lemma idle_app vs : forall h p n y sc,
  idle h p n (vs ++ [(y, sc)]) = idle (fold_left (h_step true) (offers vs) h) (last (map snd vs) p) (idle h p n vs) [(y, sc)].
Proof.
  induction vs as [|[z s] vs IH]; intros h p n y sc; [reflexivity|]. cbn [app idle offers map fold_left fst snd]. cbv zeta. rewrite IH.
  rewrite last_more. reflexivity.
Qed.

(** [hv]: the incumbents before the first visited solution. *)
Definition counted (h0 : holder (nat -> Z)) (l : loop) : Prop :=
  exists y sc tl, lp_visited l = (y, sc) :: tl /\ lp_holder l = fold_left (h_step true) (offers (lp_visited l)) h0 /\
    lp_score l = last (map snd tl) sc /\ lp_ineffective l = idle (h_step true h0 (Offer y sc)) sc 0 tl.

Lemma offer_holder s h sc : snd (fst (l_offer s h sc)) = h_step true h (Offer (ms_x (ms_export s)) sc).
Proof. unfold l_offer. cbn [h_step]. destruct (try_update _ _ _). reflexivity. Qed.
Lemma offer_status s h sc : snd (l_offer s h sc) = snd (try_update h (ms_x (ms_export s)) sc).
Proof. unfold l_offer. destruct (try_update _ _ _). reflexivity. Qed.

Lemma ineffective_idle h y sc prev n : ineffective (snd (try_update h y sc)) sc prev n = idle h prev n [(y, sc)].
Proof.
  unfold ineffective, try_update, try_slot. cbn [idle]. cbv zeta. rewrite <- !beats_improves, dearer_lt.
  destruct (improves (sc_local_aug sc) (sl_obj (ho_local h))), (improves (sc_global_aug sc) (sl_obj (ho_global h))), (sc_feasible sc); cbn [andb];
  try destruct (improves (sc_objective sc) (sl_obj (ho_feasible h))); cbn [fst snd andb negb];
  destruct (Qle_bool (sc_global_aug sc) (sc_global_aug prev)); reflexivity.
Qed.
Lemma advance_counted o draw h0 l alts related sc l' : counted h0 l -> l_advance o draw l alts related sc = Some l' -> counted h0 l'.
Proof.
  intros (y & s & tl & V & H & S & N) E. unfold l_advance in E. cbv zeta in E.
  pose proof (offer_holder (ms_update_move (lp_ms l) alts related) (lp_holder l) sc) as Oh. pose proof (offer_status (ms_update_move (lp_ms l) alts related) (lp_holder l) sc) as Os.
  destruct (l_offer _ _ _) as [[s1 h1] st]. cbn [fst snd] in Oh, Os. destruct (tenure_update _ _ _ _ _ _ _) as [t|]; [|discriminate]. injection E as <-.
  set (z := ms_x (ms_export (ms_update_move (lp_ms l) alts related))) in *.
  exists y, s, (tl ++ [(z, sc)]). cbn [lp_visited lp_holder lp_score lp_ineffective]. split; [rewrite V; reflexivity|].
  split; [|split].
  - unfold offers. rewrite map_app, fold_left_app. cbn [map fold_left fst snd]. rewrite Oh, H. reflexivity.
  - rewrite map_app. cbn [map snd]. rewrite last_last. reflexivity.
  - rewrite idle_app, Os, ineffective_idle, <- N. f_equal.
    + rewrite H, V. reflexivity.
    + rewrite S. reflexivity.
Qed.
Lemma modify_counted o h0 mods : forall l l', counted h0 l -> l_modify o mods l = Some l' -> counted h0 l'.
Proof.
  induction mods as [|[t draw] tl IH]; intros l l' C E; cbn [l_modify] in E; [injection E as <-; exact C|].
  destruct (l_advance _ _ _ _ _ _) as [l1|] eqn:A; [|discriminate]. exact (IH l1 l' (advance_counted _ _ _ _ _ _ _ _ C A) E).
Qed.
Lemma iterate_counted o e h0 l : counted h0 l -> counted h0 (fst (l_iterate o e l)).
Proof.
  intros C. unfold l_iterate. cbv zeta. destruct (en_time_over e); [exact C|]. destruct (_ <=? _); [exact C|]. destruct (reach_target _ _); [exact C|]. destruct (early_stop _ _); [exact C|].
  destruct (filter _ _) as [|t0 ts]; [exact C|]. destruct (gap_closed _); [exact C|]. destruct (select_move _ _ _) as [[i q]|]; [|exact C].
  destruct (nth_error (t0 :: ts) i) as [t|]; [|exact C]. destruct (nth_error _ i) as [tr|]; [|exact C].
  destruct (l_advance _ _ _ _ _ _) as [l1|] eqn:A; [|exact C]. apply advance_counted with (h0 := h0) in A; [|exact C]. exact A.
Qed.
Lemma run_counted o es h0 : forall l, counted h0 l -> counted h0 (fst (l_run o es l)).
Proof.
  induction es as [|e tl IH]; intros l C; cbn [l_run]; [exact C|]. pose proof (iterate_counted o e h0 l C) as C'.
  destruct (l_iterate o e l) as [l' [st|]]; [exact C'|apply IH, C'].
Qed.
Lemma search_counted o s0 h0 m0 mods es : counted (reset_local h0) (fst (l_search o s0 h0 m0 mods es)).
Proof.
  unfold l_search. cbv zeta. assert (C : counted (reset_local h0) (l_setup o s0 h0 m0)).
  { unfold l_setup. cbv zeta. pose proof (offer_holder (ms_update s0) (reset_local h0) (evaluate (ms_model (ms_update s0)) (ms_x (ms_update s0)) [])) as Oh.
    destruct (l_offer _ _ _) as [[s1 h1] st]. cbn [fst snd] in Oh. eexists _, _, []. cbn [lp_visited lp_holder lp_score lp_ineffective]. split; [reflexivity|]. split; [exact Oh|]. split; reflexivity. }
  destruct (l_modify _ _ _) as [l'|] eqn:E; [|exact C]. apply run_counted. exact (modify_counted _ _ _ _ _ C E).
Qed.
Lemma search_early o s0 h0 m0 mods es : let r := l_search o s0 h0 m0 mods es in
  exists y sc tl, lp_visited (fst r) = (y, sc) :: tl /\
  let n := idle (h_step true (h_step true h0 ResetLocal) (Offer y sc)) sc 0 tl in
  lp_ineffective (fst r) = n /\ (snd r = Some EarlyStop -> (lo_pruning o * inject_Z (lo_iteration_max o) < inject_Z n)%Q) .
Proof.
  cbv zeta. destruct (search_counted o s0 h0 m0 mods es) as (y & sc & tl & V & _ & _ & N). exists y, sc, tl. split; [exact V|]. split; [exact N|].
  change (h_step true h0 ResetLocal) with (reset_local h0). rewrite <- N. clear y sc tl V N.
  unfold l_search. cbv zeta. destruct (l_modify _ _ _) as [l'|]; [|discriminate]. revert l'. induction es as [|e tl IH]; intros l; cbn [l_run]; [discriminate|].
  destruct (l_iterate o e l) as [l1 [st|]] eqn:E; [|apply IH]. cbn [fst snd]. intros X. injection X as ->. revert E. unfold l_iterate. cbv zeta.
  destruct (en_time_over e); [discriminate|]. destruct (_ <=? _); [discriminate|]. destruct (reach_target _ _); [discriminate|].
  unfold early_stop. destruct (Qlt_le_dec _ _) as [L|L]; [intros X; injection X as <-; exact L|].
  destruct (filter _ _) as [|t0 ts]; [destruct (_ && _); discriminate|]. destruct (gap_closed _); [discriminate|]. destruct (select_move _ _ _) as [[i q]|]; [|discriminate].
  destruct (nth_error (t0 :: ts) i) as [t|]; [|discriminate]. destruct (nth_error _ i) as [tr|]; [|discriminate].
  destruct (l_advance _ _ _ _ _ _) as [l2|]; [|discriminate]. destruct (_ && too_large _ _ _); discriminate.
Qed.
