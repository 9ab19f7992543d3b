(** Proofs for C77: what the searches visit when every move on offer fits. *)
From Coq Require Import List ZArith QArith Bool Lia.
From Verif Require Import ExprModel ExprSpec ConstraintModel EvalModel EvalSpec EvalSpec2 EvalProof3 SolutionModel TabuModel LoopModel LoopSpec LoopProof LocalModel LocalSpec LocalProof LocalProof2
  SolverModel SolverProof SolverProof4 MoveModel OfferModel.
Import ListNotations.
Local Open Scope nat_scope.

Lemma write_free f x m : (forall v n, In (v, n) m -> f v = false) -> write_mutable f x m = apply_move x m.
Proof.
  unfold write_mutable, apply_move. revert x. induction m as [|[v n] m IH]; intros x H; [reflexivity|]. cbn [fold_left fst snd].
  rewrite (H v n (or_introl eq_refl)). apply IH. intros w k Hw. apply (H w k). now right.
Qed.
Lemma apply_app x m m' : apply_move x (m ++ m') = apply_move (apply_move x m) m'.
Proof. unfold apply_move. apply fold_left_app. Qed.
Lemma apply_other x m v : ~ In v (map fst m) -> apply_move x m v = x v.
Proof.
  unfold apply_move. revert x. induction m as [|[w n] m IH]; intros x H; [reflexivity|]. cbn [fold_left fst snd map In] in *.
  rewrite IH by tauto. unfold set_val. destruct (Nat.eqb_spec v w) as [E|]; [|reflexivity]. subst. tauto.
Qed.

Section Runs.
Variables (is01 : nat -> bool) (s0 : mstate) (nb : neighborhood) (good : (nat -> Z) -> Prop) (fits : (nat -> Z) -> alterations -> Prop)
  (cok : choice -> Prop) (tok : (nat -> Z) -> Prop).
Hypothesis AGREE : forall x y, (forall v, ~ In v (map fst (ms_deps s0)) -> x v = y v) -> good x -> good y.
Hypothesis STEP : forall x m, good x -> fits x m -> proper m -> good (apply_move x m).
Hypothesis MOVE : forall x y m, (forall v, In v (map fst m) -> x v = y v) -> fits x m -> fits y m.
Definition sane (x : nat -> Z) (t : tmove) : Prop := trial_ok is01 s0 t /\ fits x (tm_alts t) /\
  (tm_integer t = true -> exists v n, tm_alts t = [(v, n)] /\ forall tg, tok tg -> fits x [(v, tg v)]).
Hypothesis OFFER : forall c x t, cok c -> good x -> In t (tried nb c x) -> sane x t.
Hypothesis ALL : forall c, cok c -> cok (accept_all c).

Definition fine (s : mstate) : Prop := ms_deps s = ms_deps s0 /\ (forall v, ms_fixed s v = ms_fixed s0 v) /\ good (ms_x s).
Definition all_good (vs : list ((nat -> Z) * score)) : Prop := forall q, In q vs -> good (fst q).
Lemma update_fine s : fine s -> fine (ms_update s).
Proof. intros (E & F & G). split; [exact E|]. split; [exact F|]. refine (AGREE _ _ _ G). intros v Hd. symmetry. apply ms_update_x. now rewrite E. Qed.
Lemma export_fine s : fine s -> fine (ms_export s).
Proof. intros (E & F & G). split; [exact E|]. split; [exact F|]. refine (AGREE _ _ _ G). intros v Hd. symmetry. apply export_x. now rewrite E. Qed.
Lemma move_fine s alts related : fine s -> fits (ms_x s) alts -> proper alts -> (forall v n, In (v, n) alts -> ms_fixed s0 v = false) -> fine (ms_update_move s alts related).
Proof.
  intros (E & F & G) Fi P U. split; [exact E|]. split; [exact F|]. cbn [ms_update_move with_violative ms_x]. rewrite write_free; [now apply STEP|].
  intros v n Hv. rewrite F. exact (U v n Hv).
Qed.
Lemma offer_fine s h sc : fine s -> fine (fst (fst (l_offer s h sc))).
Proof. intros C. unfold l_offer. destruct (try_update h (ms_x (ms_export s)) sc) as [h' st]. cbn [fst]. destruct (0 <? st)%Z; [now apply export_fine|exact C]. Qed.
Lemma all_good_app vs y sc : all_good vs -> good y -> all_good (vs ++ [(y, sc)]).
Proof. intros A B q H. apply in_app_iff in H as [H|[H|[]]]; [now apply A|]. subst q. exact B. Qed.
Lemma fine_export s : fine s -> good (ms_x (ms_export s)).
Proof. intros C. apply (export_fine s C). Qed.

(** ** The tabu search *)
Definition lgood (l : loop) : Prop := fine (lp_ms l) /\ all_good (lp_visited l).
Lemma advance_good o draw l alts related sc l' : lgood l -> fits (ms_x (lp_ms l)) alts -> proper alts -> (forall v n, In (v, n) alts -> ms_fixed s0 v = false) ->
  l_advance o draw l alts related sc = Some l' -> lgood l'.
Proof.
  intros (C & V) Fi P U H. unfold l_advance in H. pose proof (move_fine (lp_ms l) alts related C Fi P U) as Cm.
  pose proof (offer_fine _ (lp_holder l) sc Cm) as Co. destruct (l_offer (ms_update_move (lp_ms l) alts related) (lp_holder l) sc) as [[s1 h1] st]. cbn [fst] in Co.
  destruct (tenure_update _ _ _ _ _ _ _) as [t|]; [|discriminate].
  assert (E1 : lp_ms l' = s1) by (injection H as <-; reflexivity). assert (E2 : lp_visited l' = lp_visited l ++ [(ms_x (ms_export (ms_update_move (lp_ms l) alts related)), sc)]) by (injection H as <-; reflexivity).
  split; [rewrite E1; exact Co|]. rewrite E2. apply all_good_app; [exact V|now apply fine_export].
Qed.
Lemma sane_free x t : sane x t -> forall v n, In (v, n) (tm_alts t) -> ms_fixed s0 v = false.
Proof. intros ((_ & K & _) & _) v n H. exact (proj1 (K v n H)). Qed.
Lemma mods_good o ds : (forall c draw, In (c, draw) ds -> cok c) -> forall l, lgood l ->
  (forall t, In t (map fst (n_mods nb o ds l)) -> trial_ok is01 s0 t) /\ forall l', l_modify o (n_mods nb o ds l) l = Some l' -> lgood l'.
Proof.
  induction ds as [|[c draw] tl IH]; intros A l L; cbn [n_mods].
  - split; [intros t []|]. intros l' E. cbn [l_modify] in E. congruence.
  - pose proof (fun t => OFFER (accept_all c) (ms_x (lp_ms l)) t (ALL c (A c draw (or_introl eq_refl))) (proj2 (proj2 (proj1 L)))) as Of.
    destruct (tried nb (accept_all c) (ms_x (lp_ms l))) as [|t ts]; [split; [intros t []|intros l' E; cbn [l_modify] in E; congruence]|].
    pose proof (Of t (or_introl eq_refl)) as St. cbn [l_modify map fst].
    destruct (l_advance o draw l (tm_alts t) (tm_related t) (eval_trial true (ms_model (lp_ms l)) (ms_x (lp_ms l)) (lp_score l) t)) as [l1|] eqn:E.
    + assert (L1 : lgood l1) by (eapply advance_good; [exact L|apply St|apply St|exact (sane_free _ _ St)|exact E]).
      destruct (IH (fun c' d' H => A c' d' (or_intror H)) l1 L1) as [I1 I2]. split; [|exact I2].
      intros u [<-|Hu]; [apply St|now apply I1].
    + split; [|discriminate]. intros u [<-|[]]. apply St.
Qed.
Lemma tried_in_filter (l : loop) (moves : list tmove) t i : nth_error (filter (available (lp_used l)) moves) i = Some t -> In t moves.
Proof. intros H. apply nth_error_In, filter_In in H. apply H. Qed.
Lemma env_good o d l : cok (dr_choice d) -> tok (dr_target d) -> lgood l ->
  (forall t, In t (en_moves (n_env nb o d l)) -> trial_ok is01 s0 t) /\ lgood (fst (l_iterate o (n_env nb o d l) l)).
Proof.
  intros Ck Tk L. pose proof (fun t => OFFER (dr_choice d) (ms_x (lp_ms l)) t Ck (proj2 (proj2 (proj1 L)))) as Of.
  assert (Em : en_moves (n_env nb o d l) = tried nb (dr_choice d) (ms_x (lp_ms l))) by reflexivity.
  assert (Et : en_target (n_env nb o d l) = target_of (dr_target d) (l_choice o (en_moves (n_env nb o d l)) l)) by reflexivity.
  set (e := n_env nb o d l) in *. clearbody e. rewrite <- Em in Of. split; [intros t H; apply (Of t H)|].
  unfold l_iterate. destruct (en_time_over e); [exact L|]. destruct (_ <=? _)%Z; [exact L|]. destruct (reach_target _ _); [exact L|]. destruct (early_stop _ _); [exact L|].
  unfold l_choice in Et. cbv zeta in Et. cbv zeta. destruct (filter (available (lp_used l)) (en_moves e)) as [|m ml] eqn:Ef; [exact L|]. destruct (gap_closed _); [exact L|].
  destruct (select_move _ _ _) as [[i mm]|]; [|exact L]. destruct (nth_error (m :: ml) i) as [t|] eqn:En; [|exact L]. destruct (nth_error (map _ _) i) as [tr|]; [|exact L].
  assert (Ht : In t (en_moves e)) by (apply (tried_in_filter l _ t i); rewrite Ef; exact En).
  pose proof (Of t Ht) as St. pose proof St as ((P & K & _) & Fi & In_).
  match goal with |- context [l_advance ?o ?d ?l ?a ?r ?sc] => destruct (l_advance o d l a r sc) as [l1|] eqn:E; [|exact L] end.
  assert (L1 : lgood l1).
  { refine (advance_good _ _ _ _ _ _ _ L _ _ _ E); clear E; destruct (tm_integer t) eqn:Ei; try (rewrite andb_false_r; cbn [andb]); try assumption.
    - destruct (lo_adjust o && true && _); [|exact Fi]. destruct (In_ eq_refl) as (v & n & Ea & H). rewrite Ea in *. rewrite Et. cbn [target_of]. rewrite Ea. exact (H _ Tk).
    - destruct (lo_adjust o && true && _); [|exact P]. destruct (In_ eq_refl) as (v & n & Ea & H). rewrite Ea. repeat constructor. intros [].
    - destruct (lo_adjust o && true && _); [|exact (sane_free _ _ St)]. destruct (In_ eq_refl) as (v & n & Ea & H). rewrite Ea. intros w k [Hw|[]]. assert (w = v) by congruence. subst w.
      apply (sane_free _ _ St v n). rewrite Ea. now left.
    - exact (sane_free _ _ St). }
  destruct L1 as [L1 L2]. split; [cbn [fst lp_ms]; destruct (lo_store o && _); [now apply export_fine|exact L1]|]. exact L2.
Qed.
Lemma envs_good o ds : (forall d, In d ds -> cok (dr_choice d) /\ tok (dr_target d)) -> forall l, lgood l ->
  (forall e t, In e (n_envs nb o ds l) -> In t (en_moves e) -> trial_ok is01 s0 t) /\ lgood (fst (l_run o (n_envs nb o ds l) l)).
Proof.
  induction ds as [|d tl IH]; intros A l L; cbn [n_envs]; [split; [intros e t []|exact L]|].
  destruct (A d (or_introl eq_refl)) as [A1 A2]. destruct (env_good o d l A1 A2 L) as [B1 B2]. cbn [l_run].
  destruct (l_iterate o (n_env nb o d l) l) as [l' [st|]]; cbn [fst] in *.
  - split; [|exact B2]. intros e t [<-|[]]. apply B1.
  - destruct (IH (fun d' H => A d' (or_intror H)) l' B2) as [I1 I2]. split; [|exact I2]. intros e t [<-|He]; [apply B1|now apply I1].
Qed.
Lemma setup_good o s h m : fine s -> lgood (l_setup o s h m).
Proof.
  intros C. unfold l_setup. pose proof (update_fine s C) as Cu. pose proof (offer_fine _ (reset_local h) (evaluate (ms_model (ms_update s)) (ms_x (ms_update s)) []) Cu) as Co.
  destruct (l_offer _ _ _) as [[s1 h1] st]. cbn [fst] in Co. split; [exact Co|]. intros q [<-|[]]. cbn [fst]. now apply fine_export.
Qed.
Definition ground_ok (g : ground) : Prop := (0 <= lo_nmut (gd_options g))%Z /\ (forall c draw, In (c, draw) (gd_mods g) -> cok c) /\
  forall d, In d (gd_iters g) -> cok (dr_choice d) /\ tok (dr_target d).
Lemma realise_good k s h m g : fine s -> ground_ok g -> let d := realise nb k s h m g in
  (forall t, In t (map fst (td_mods d)) -> trial_ok is01 s0 t) /\ (forall e t, In e (td_envs d) -> In t (en_moves e) -> trial_ok is01 s0 t) /\
  all_good (lp_visited (fst (l_search (governed k (gd_options g)) s h m (td_mods d) (td_envs d)))).
Proof.
  intros C (_ & G1 & G2). cbv zeta. cbn [realise td_mods td_envs]. set (o := governed k (gd_options g)). unfold l_search.
  pose proof (setup_good o s h m C) as S. destruct (mods_good o (gd_mods g) G1 _ S) as [M1 M2]. split; [exact M1|].
  destruct (l_modify o (n_mods nb o (gd_mods g) (l_setup o s h m)) (l_setup o s h m)) as [l'|]; [|split; [intros e t []|apply S]].
  destruct (envs_good o (gd_iters g) G2 l' (M2 l' eq_refl)) as [E1 E2]. split; [exact E1|apply E2].
Qed.

(** ** The local search *)
Hypothesis ANCHORED : forall c x t, cok c -> good x -> In t (tried nb c x) -> anchored (ms_model s0) t.
Lemma combine_good adjust cons cur ts target tg x : (forall i, enabled_at cons i = enabled_at (md_cons (ms_model s0)) i) -> tok tg -> good x ->
  (forall q, In q ts -> sane x (fst q) /\ anchored (ms_model s0) (fst q)) ->
  forall p, alts_ok' is01 s0 (cb_alts p) (cb_related p) -> good (apply_move x (cb_alts p)) ->
  (forall k, target (cb_count p + k) = target_of tg (nth_error (performed cons cur ts (cb_related p)) k)) ->
  let r := combine_moves adjust cons cur target ts p in alts_ok' is01 s0 (cb_alts r) (cb_related r) /\ good (apply_move x (cb_alts r)).
Proof.
  intros He Tk Gx. cbv zeta. induction ts as [|[t sc] ts IH]; intros K p Hp Hg Ht; cbn [combine_moves]; [split; assumption|].
  cbn [performed] in Ht. destruct (K (t, sc) (or_introl eq_refl)) as [Kt Ka]. cbn [fst] in Kt, Ka.
  pose proof (combine_ok is01 s0 adjust cons cur target [(t, sc)] He) as One. cbv zeta in One. specialize (One (fun q Hq => match Hq with or_introl E => eq_ind (t, sc) (fun q => trial_ok is01 s0 (fst q) /\ anchored (ms_model s0) (fst q)) (conj (proj1 Kt) Ka) q E | or_intror F => match F with end end) p Hp).
  cbn [combine_moves] in One. destruct (negb (worth cur sc)); [split; assumption|].
  destruct (existsb (fun i => enabled_at cons i && existsb (Nat.eqb i) (cb_related p)) (tm_related t)) eqn:E.
  - apply IH; [intros q Hq; apply K; now right|exact Hp|exact Hg|exact Ht].
  - pose proof (Ht 0) as Ht0. rewrite Nat.add_0_r in Ht0. cbn [nth_error target_of] in Ht0.
    apply IH; [intros q Hq; apply K; now right|exact One| |].
    + cbn [cb_alts] in One |- *. destruct One as (Pr & _).
      assert (Dis : forall m, map fst m = map fst (tm_alts t) -> fits x m -> fits (apply_move x (cb_alts p)) m).
      { intros m Em. apply MOVE. intros v Hv. symmetry. apply apply_other. intros Hc.
        assert (Ex : NoDup (map fst (cb_alts p ++ tm_alts t))).
        { destruct (adjust && tm_integer t) eqn:Ea; [|exact Pr]. apply andb_true_iff in Ea as [_ Ei]. destruct Kt as (_ & _ & Ki). destruct (Ki Ei) as (w & n & Ew & _).
          rewrite Ew in *. unfold proper in Pr. rewrite SolverProof4.set_last_app in Pr. rewrite map_app in *. exact Pr. }
        rewrite map_app in Ex. rewrite Em in Hv. clear - Ex Hc Hv. revert Hc Ex. generalize (map fst (cb_alts p)) as l. induction l as [|a l IHl]; [intros []|].
        cbn [app]. intros Hc N. apply NoDup_cons_iff in N as [N1 N2]. destruct Hc as [->|Hc]; [apply N1, in_app_iff; now right|exact (IHl Hc N2)]. }
      destruct Kt as (Kt & Fi & Ki). destruct (adjust && tm_integer t) eqn:Ea.
      * apply andb_true_iff in Ea as [_ Ei]. destruct (Ki Ei) as (w & n & Ew & Fw). rewrite Ew in *. rewrite SolverProof4.set_last_app, apply_app.
        apply STEP; [exact Hg| |repeat constructor; intros []]. rewrite Ht0. apply Dis; [reflexivity|]. exact (Fw tg Tk).
      * rewrite apply_app. apply STEP; [exact Hg|apply Dis; [reflexivity|exact Fi]|apply Kt].
    + intros k. cbn [cb_count cb_related]. specialize (Ht (S k)). cbn [nth_error] in Ht. rewrite <- Ht. f_equal. lia.
Qed.
Definition sgood (l : slocal) : Prop := fine (sl_ms l) /\ all_good (sl_visited l).
Lemma core_enabled s : same_core s s0 -> forall i, enabled_at (md_cons (ms_model s)) i = enabled_at (md_cons (ms_model s0)) i.
Proof.
  intros (E & _) i. unfold enabled_at. revert E i. generalize (md_cons (ms_model s)) as a, (md_cons (ms_model s0)) as b.
  induction a as [|c a IH]; intros [|d b] E [|i]; try discriminate; cbn [nth_error] in *; try reflexivity.
  - cbn [map] in E. assert (K : core c = core d) by congruence. unfold core in K. congruence.
  - cbn [map] in E. apply IH. congruence.
Qed.
Lemma senv_good o d l s h : loop_start is01 s -> same_core s s0 -> sinv is01 s h l -> cok (sd_choice d) -> tok (sd_target d) -> sgood l ->
  (forall t, In t (se_moves (n_senv nb d l)) -> trial_ok is01 s0 t /\ anchored (ms_model s0) t) /\ sgood (fst (s_iterate o (n_senv nb d l) l)).
Proof.
  intros L Co V Ck Tk (C & G). pose proof C as (_ & _ & Gx). pose proof (fun t => OFFER (sd_choice d) (ms_x (sl_ms l)) t Ck Gx) as Of.
  pose proof (fun t => ANCHORED (sd_choice d) (ms_x (sl_ms l)) t Ck Gx) as An.
  assert (En : forall i, enabled_at (md_cons (ms_model (sl_ms l))) i = enabled_at (md_cons (ms_model s0)) i).
  { intros i. rewrite <- (core_enabled s Co). apply enabled_frame. apply V. }
  split; [intros t H; split; [apply (Of t H)|apply (An t H)]|].
  unfold s_iterate. destruct (se_time_over _); [split; assumption|]. destruct (_ <=? _)%Z; [split; assumption|]. destruct (match sl_obj _ with Some q => Qle_bool q _ | None => false end); [split; assumption|].
  cbv zeta. cbn [n_senv se_moves se_target]. set (moves := tried nb (sd_choice d) (ms_x (sl_ms l))) in *.
  clearbody moves. destruct moves as [|m ml]; [split; assumption|]. set (mv := m :: ml) in *. clearbody mv. rename mv into moves.
  set (trials := map (fun t => (t, eval_trial true (ms_model (sl_ms l)) (ms_x (sl_ms l)) (sl_score l) t)) moves) in *.
  set (p := combine_moves _ _ _ _ _ _).
  assert (P : alts_ok' is01 s0 (cb_alts p) (cb_related p) /\ good (apply_move (ms_x (sl_ms l)) (cb_alts p))).
  { apply (combine_good _ _ _ _ _ (sd_target d)); [exact En|exact Tk|exact Gx| | |exact Gx|intros k; reflexivity].
    - intros q Hq. apply (proj1 (sorted_in _ _)) in Hq. apply in_map_iff in Hq as (t & <- & Ht). cbn [fst]. split; [apply (Of t Ht)|apply (An t Ht)].
    - split; [constructor|]. split; [intros v n []|]. split; [constructor|]. intros i c v _ _ []. }
  destruct P as [(P1 & P2 & _) Pg]. destruct (cb_alts p) as [|a al]; [split; assumption|].
  set (sc := evaluate_multi _ _ _ _ _).
  assert (Cm : fine (ms_update_move (sl_ms l) (a :: al) (cb_related p))).
  { destruct C as (C1 & C2 & C3). split; [exact C1|]. split; [exact C2|]. cbn [ms_update_move with_violative ms_x]. rewrite write_free; [exact Pg|].
    intros v n Hv. rewrite C2. exact (proj1 (P2 v n Hv)). }
  pose proof (offer_fine _ (sl_holder l) sc Cm) as Cf. destruct (l_offer (ms_update_move (sl_ms l) (a :: al) (cb_related p)) (sl_holder l) sc) as [[s1 h1] st]. cbn [fst] in Cf.
  split; [cbn [fst sl_ms]; destruct (so_store o && _); [now apply export_fine|exact Cf]|]. cbn [fst sl_visited]. apply all_good_app; [exact G|now apply fine_export].
Qed.
Lemma senvs_good o s h : loop_start is01 s -> same_core s s0 -> forall ds, (forall d, In d ds -> cok (sd_choice d) /\ tok (sd_target d)) ->
  forall l, sinv is01 s h l -> sgood l ->
  (forall e t, In e (n_senvs nb o ds l) -> In t (se_moves e) -> trial_ok is01 s0 t /\ anchored (ms_model s0) t) /\ sgood (fst (s_run o (n_senvs nb o ds l) l)).
Proof.
  intros L Co. induction ds as [|d tl IH]; intros A l V G; cbn [n_senvs]; [split; [intros e t []|exact G]|].
  destruct (A d (or_introl eq_refl)) as [A1 A2]. destruct (senv_good o d l s h L Co V A1 A2 G) as [B1 B2]. cbn [s_run].
  destruct (LocalProof2.iterate_facts is01 s h o (n_senv nb d l) l L V (fun t Ht => conj (core_trial is01 s0 s t Co (proj1 (B1 t Ht))) (core_anchored s0 s t Co (proj2 (B1 t Ht))))) as [V' _].
  destruct (s_iterate o (n_senv nb d l) l) as [l' [st|]]; cbn [fst] in *.
  - split; [|exact B2]. intros e t [<-|[]]. apply B1.
  - destruct (IH (fun d' H => A d' (or_intror H)) l' V' B2) as [I1 I2]. split; [|exact I2]. intros e t [<-|He]; [apply B1|now apply I1].
Qed.
Lemma local_good o s h m ds : loop_start is01 s -> same_core s s0 -> fine s -> (forall d, In d ds -> cok (sd_choice d) /\ tok (sd_target d)) ->
  let es := n_senvs nb o ds (s_setup s h m) in
  (forall e t, In e es -> In t (se_moves e) -> trial_ok is01 s0 t /\ anchored (ms_model s0) t) /\ all_good (sl_visited (fst (s_search o s h m es))).
Proof.
  intros L Co C A. cbv zeta. destruct (setup_sinv is01 s h m L) as [V _].
  assert (G : sgood (s_setup s h m)).
  { unfold s_setup. pose proof (update_fine s C) as Cu. pose proof (offer_fine _ (reset_local h) (evaluate (ms_model (ms_update s)) (ms_x (ms_update s)) []) Cu) as Cf.
    destruct (l_offer _ _ _) as [[s1 h1] st]. cbn [fst] in Cf. split; [exact Cf|]. intros q [<-|[]]. cbn [fst]. now apply fine_export. }
  destruct (senvs_good o s h L Co ds A _ V G) as [E1 E2]. split; [exact E1|]. unfold s_search. apply E2.
Qed.
End Runs.
