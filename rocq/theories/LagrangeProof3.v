(** Proofs for C57, continued: incumbents and termination. *)
From Coq Require Import List ZArith QArith Qabs Permutation Lia Lqa Bool.
From Verif Require Import ExprModel ExprSpec ExprProof ConstraintModel ConstraintSpec ConstraintProof EvalModel EvalSpec EvalSpec2
  EvalProof EvalProof2 EvalProof3 SolutionModel SolutionSpec SolutionProof ContainerModel TabuModel LoopModel LoopSpec LoopProof LoopProof2 LoopProof3
  LagrangeModel LagrangeSpec LagrangeProof LagrangeProof2.
Import ListNotations.
Local Open Scope Q_scope.

Lemma start_frame is01 s0 s : loop_start is01 s0 -> same_frame s s0 -> (forall v, is01 v = true -> (0 <= ms_x s v <= 1)%Z) -> loop_start is01 s.
Proof.
  intros (W & D & Ex & C & _) F X. pose proof F as (Fc & _ & _ & St). pose proof St as (_ & E2 & E3 & E4 & _ & _ & E7).
  split; [exact (wf_static _ _ St W)|]. split.
  - intros d Hd. rewrite E7 in Hd. destruct (D d Hd) as [D1 D2]. split; [|now rewrite E3]. intros c Hc He.
    destruct (frame_in s s0 F c Hc) as (c' & H1 & H2). assert (E : ct_expr c = ct_expr c' /\ ct_enabled c = ct_enabled c') by (unfold frame in H2; split; congruence).
    destruct E as [Ea Eb]. rewrite Ea. apply D1; [exact H1|congruence].
  - split.
    + intros p Hp He d Hd. rewrite E7 in Hd. assert (K : In (fst p) (map (@fst (expr * bool) Q) (ms_exprs s0))) by (rewrite <- E2; now apply in_map).
      apply in_map_iff in K as (p' & K1 & K2). rewrite <- K1. apply (Ex p' K2); [now rewrite K1|exact Hd].
    + split; [|exact X]. intros c Hc He. destruct (frame_in s s0 F c Hc) as (c' & H1 & H2).
      assert (E : ct_expr c = ct_expr c' /\ ct_enabled c = ct_enabled c' /\ ct_max_abs c = ct_max_abs c' /\ ct_only_binary_var c = ct_only_binary_var c') by (unfold frame in H2; repeat split; congruence).
      destruct E as (Ea & Eb & Ec & Ed). rewrite Ea, Ec, Ed. apply C; [exact H1|congruence].
Qed.
Lemma true_fresh is01 s0 s : loop_start is01 s0 -> minv is01 s0 s -> true_score (ms_model s0) (ms_x s) (evaluate (ms_model s) (ms_x s) []).
Proof.
  intros L I. apply (true_frame s); [apply I|]. exists (ms_x s).
  apply (full_correct (ms_model s) (ms_x s) []); [apply good_consistent; [eapply minv_static; [exact I|apply L]|apply I]|apply NoDup_nil].
Qed.

Definition ginv (is01 : nat -> bool) (s0 : mstate) (h0 : holder (nat -> Z)) (l : gloop) : Prop :=
  minv is01 s0 (gl_ms l) /\ true_score (ms_model s0) (ms_x (gl_ms l)) (gl_score l) /\
  (forall p, In p (gl_visited l) -> true_score (ms_model s0) (fst p) (snd p)) /\
  (forall y, In y (gl_feasible l) -> satisfies (ms_model s0) y) /\
  gl_holder l = fold_left (h_step true) (offers (gl_visited l)) (reset_local h0).
Definition qinv (o : goptions) (l : gloop) : Prop :=
  fq_max (gl_queue l) = go_queue o /\ (Z.of_nat (length (fq_items (gl_queue l))) <= go_queue o)%Z.

Lemma setup_ginv is01 o n s0 h0 : loop_start is01 s0 -> ginv is01 s0 h0 (g_setup o n s0 h0).
Proof.
  intros L. unfold g_setup. pose proof (start_update is01 s0 L) as I. pose proof (true_fresh is01 s0 _ L I) as T.
  pose proof (offer_facts is01 s0 (ms_update s0) (reset_local h0) _ L I T) as O.
  destruct (l_offer (ms_update s0) (reset_local h0) (evaluate (ms_model (ms_update s0)) (ms_x (ms_update s0)) [])) as [[s1 h1] st].
  destruct O as (O1 & O2 & O3 & O4). unfold ginv. cbn [gl_ms gl_score gl_visited gl_feasible gl_holder].
  split; [exact O1|]. split; [exact O2|]. split; [intros p [<-|[]]; exact O3|]. split; [intros y []|exact O4].
Qed.

Lemma push_inv q x o : (1 <= go_queue o)%Z -> fq_max q = go_queue o -> (Z.of_nat (length (fq_items q)) <= go_queue o)%Z ->
  exists q', fq_push q x = Some q' /\ fq_max q' = go_queue o /\ (Z.of_nat (length (fq_items q')) <= go_queue o)%Z /\ fq_items q' <> [].
Proof.
  intros H M L. unfold fq_push. destruct (Z.eqb_spec (Z.of_nat (length (fq_items q))) (fq_max q)) as [G|G].
  - destruct (fq_items q) as [|a tl] eqn:E; [cbn in *; lia|]. eexists. split; [reflexivity|]. cbn [fq_max fq_items]. split; [exact M|].
    split; [rewrite app_length; cbn [length] in *; lia|]. destruct tl; discriminate.
  - eexists. split; [reflexivity|]. cbn [fq_max fq_items]. split; [exact M|]. split; [rewrite app_length; cbn [length]; lia|]. destruct (fq_items q); discriminate.
Qed.
Lemma fold_total l : forall a, fold_left Qplus l a == a + total l.
Proof. induction l as [|q l IH]; intros a; cbn [fold_left total]; [lra|]. rewrite IH. lra. Qed.
Lemma average_spec q a : fq_average q = Some a -> a * inject_Z (Z.of_nat (length (fq_items q))) == total (fq_items q).
Proof.
  unfold fq_average. destruct (fq_items q) as [|b l] eqn:E; [discriminate|]. intros H.
  assert (Ha : a = fold_left Qplus (b :: l) 0 / inject_Z (Z.of_nat (length (b :: l)))) by congruence. subst a.
  rewrite fold_total, Qplus_0_l. field. intros Hz. assert (P : 0 < inject_Z (Z.of_nat (length (b :: l)))) by (change 0 with (inject_Z 0); rewrite <- Zlt_Qlt; cbn [length]; lia). lra.
Qed.

Lemma iterate_ginv is01 o minimize vars lo hi s0 h0 t l : loop_start is01 s0 -> ms_deps s0 = [] -> (1 <= go_queue o)%Z ->
  (forall v, is01 v = true -> (0 <= lo v <= 1)%Z /\ (0 <= hi v <= 1)%Z) ->
  ginv is01 s0 h0 l -> qinv o l ->
  let r := g_iterate o minimize vars lo hi t l in
  ginv is01 s0 h0 (fst r) /\ qinv o (fst r) /\
  match snd r with
  | None => gl_iteration (fst r) = (gl_iteration l + 1)%Z /\ (gl_iteration l < go_iteration_max o)%Z /\ length (gl_visited (fst r)) = S (length (gl_visited l))
  | Some GConverge => (gl_iteration l < go_iteration_max o)%Z /\ length (gl_visited (fst r)) = S (length (gl_visited l)) /\ dual_meaning o [t] (fst r) GConverge
  | Some st => fst r = l /\ dual_meaning o [t] l st
  end.
Proof.
  intros L Dp Hq B01 G Qi. cbv zeta. unfold g_iterate. destruct t; [split; [exact G|split; [exact Qi|split; [reflexivity|now left]]]|].
  destruct (Z.leb_spec (go_iteration_max o) (gl_iteration l)) as [Hi|Hi]; [split; [exact G|split; [exact Qi|split; [reflexivity|exact Hi]]]|].
  destruct (match sl_obj (ho_feasible (gl_holder l)) with Some q => Qle_bool q (go_target o) | None => false end) eqn:Er.
  { split; [exact G|]. split; [exact Qi|]. split; [reflexivity|]. cbn [snd dual_meaning]. destruct (sl_obj (ho_feasible (gl_holder l))) as [q|]; [|discriminate].
    exists q. split; [reflexivity|now apply Qle_bool_iff]. }
  set (dual := update_dual _ _ _). set (x := primal_step minimize vars lo hi (gl_ms l) dual).
  set (s := ms_update (with_x (gl_ms l) x)). set (sc := evaluate (ms_model s) (ms_x s) []).
  destruct G as (I & T & V & Fe & H). pose proof I as (_ & Fl & _ & X01).
  assert (Fw : same_frame (with_x (gl_ms l) x) s0) by (eapply frame_trans; [apply with_x_frame|exact Fl]).
  assert (Lw : loop_start is01 (with_x (gl_ms l) x)).
  { apply (start_frame is01 s0); [exact L|exact Fw|]. intros v Hv. cbn [with_x ms_x]. unfold x, primal_step.
    destruct (existsb (Nat.eqb v) vars && negb (ms_fixed (gl_ms l) v)); [|apply X01; [exact Hv|rewrite Dp; intros []]].
    destruct (B01 v Hv). destruct (Bool.eqb _ minimize); assumption. }
  assert (Is : minv is01 s0 s).
  { destruct (start_update is01 _ Lw) as (M1 & M2 & M3 & M4). fold s in M1, M2, M3, M4. split; [exact M1|]. split; [eapply frame_trans; [exact M2|exact Fw]|].
    split; [exact M3|]. intros v Hv Hd. apply M4; [exact Hv|]. destruct Fw as (_ & _ & _ & (_ & _ & _ & _ & _ & _ & E)). rewrite E. exact Hd. }
  pose proof (true_fresh is01 s0 s L Is) as Ts. fold sc in Ts.
  pose proof (offer_facts is01 s0 s (gl_holder l) sc L Is Ts) as O. destruct (l_offer s (gl_holder l) sc) as [[s1 h1] st]. destruct O as (O1 & O2 & O3 & O4).
  set (la := compute_lagrangian (ms_model s1) dual * dsign minimize).
  destruct (push_inv (gl_queue l) la o Hq (proj1 Qi) (proj2 Qi)) as (q & Eq & Q1 & Q2 & Q3). rewrite Eq.
  assert (T2 : true_score (ms_model s0) (ms_x (ms_export s1)) sc) by (apply (true_export is01); [exact L|apply O1|exact O2]).
  cbn [fst snd]. split; [|split; [split; assumption|]].
  - unfold ginv. cbn [gl_ms gl_score gl_visited gl_feasible gl_holder].
    split; [destruct (go_store o && sc_feasible sc); [now apply export_good|exact O1]|].
    split; [destruct (go_store o && sc_feasible sc); assumption|].
    split; [intros p Hp; apply in_app_iff in Hp as [Hp|[<-|[]]]; [now apply V|exact O3]|]. split.
    + intros y. destruct (go_store o && sc_feasible sc) eqn:Es; [|apply Fe]. intros Hy. apply in_app_iff in Hy as [Hy|[<-|[]]]; [now apply Fe|].
      apply (true_feasible is01 s0 _ sc L T2). apply andb_true_iff in Es. apply Es.
    + unfold offers in *. rewrite map_app, fold_left_app, <- H. exact O4.
  - destruct (converged o q la) eqn:Ec; cbn [gl_iteration gl_visited gl_lagrangian gl_queue dual_meaning].
    + split; [exact Hi|]. split; [rewrite app_length; cbn [length]; lia|]. unfold converged in Ec. destruct (fq_average q) as [a|] eqn:Ea; [|discriminate].
      apply andb_true_iff in Ec as [Ec1 Ec2]. apply Z.eqb_eq in Ec1. exists la, a. split; [reflexivity|]. split; [exact Ec1|].
      split; [rewrite <- Ec1; now apply average_spec|]. unfold qmax in Ec2.
      destruct (Qlt_le_dec 1 (Qabs a)); destruct (Qlt_le_dec (Qabs (la - a)) _) as [Lt|]; try discriminate; [right; exact Lt|left; lra].
    + split; [reflexivity|]. split; [exact Hi|]. rewrite app_length. cbn [length]. lia.
Qed.

Lemma run_ginv is01 o minimize vars lo hi s0 h0 : loop_start is01 s0 -> ms_deps s0 = [] -> (1 <= go_queue o)%Z ->
  (forall v, is01 v = true -> (0 <= lo v <= 1)%Z /\ (0 <= hi v <= 1)%Z) -> forall clock l,
  ginv is01 s0 h0 l -> qinv o l ->
  let r := g_run o minimize vars lo hi clock l in
  ginv is01 s0 h0 (fst r) /\ (Z.of_nat (length (gl_visited (fst r))) <= Z.of_nat (length (gl_visited l)) + Z.max 0 (go_iteration_max o - gl_iteration l))%Z /\
  match snd r with
  | None => clock = [] \/ (gl_iteration l + Z.of_nat (length clock) <= go_iteration_max o)%Z
  | Some st => dual_meaning o clock (fst r) st
  end.
Proof.
  intros L Dp Hq B01. induction clock as [|t tl IH]; intros l G Qi; cbn [g_run]; [split; [exact G|split; [cbn [fst]; lia|now left]]|].
  pose proof (iterate_ginv is01 o minimize vars lo hi s0 h0 t l L Dp Hq B01 G Qi) as K. cbv zeta in K.
  destruct (g_iterate o minimize vars lo hi t l) as [l' st]. cbn [fst snd] in K. destruct K as (G' & Q' & K). destruct st as [st|].
  - cbn [fst snd]. split; [exact G'|]. destruct st.
    + destruct K as [-> K]. split; [lia|]. cbn [dual_meaning] in *. destruct K as [->|[]]. now left.
    + destruct K as [-> K]. split; [lia|exact K].
    + destruct K as [-> K]. split; [lia|exact K].
    + destruct K as (K1 & K2 & K3). split; [rewrite K2; lia|exact K3].
    + destruct K as (_ & []).
  - destruct K as (K1 & K2 & K3). destruct (IH l' G' Q') as (R1 & R2 & R3). split; [exact R1|]. split; [rewrite K3, K1 in R2; lia|].
    destruct (snd (g_run o minimize vars lo hi tl l')) as [st|].
    + destruct st; cbn [dual_meaning] in *; try exact R3. now right.
    + right. cbn [length]. destruct R3 as [->|R3]; [cbn [length]; lia|lia].
Qed.
Lemma search_ginv is01 o minimize vars lo hi s0 h0 clock : loop_start is01 s0 -> ms_deps s0 = [] -> (1 <= go_queue o)%Z ->
  (forall v, is01 v = true -> (0 <= lo v <= 1)%Z /\ (0 <= hi v <= 1)%Z) ->
  let r := g_search o minimize vars lo hi s0 h0 clock in let l := fst r in
  (true_score (ms_model s0) (ms_x (gl_ms l)) (gl_score l) /\
   (forall y sc, In (y, sc) (gl_visited l) -> true_score (ms_model s0) y sc /\ (sc_feasible sc = true <-> satisfies (ms_model s0) y)) /\
   (forall y, In y (gl_feasible l) -> satisfies (ms_model s0) y) /\
   gl_holder l = fold_left (h_step true) (offers (gl_visited l)) (reset_local h0)) /\
  (Z.of_nat (length (gl_visited l)) <= 1 + Z.max 0 (go_iteration_max o))%Z /\
  ((Z.max 0 (go_iteration_max o) < Z.of_nat (length clock))%Z -> exists st, snd r = Some st) /\
  (forall st, snd r = Some st -> dual_meaning o clock l st).
Proof.
  intros L Dp Hq B01. cbv zeta.
  assert (Q0 : qinv o (g_setup o (length vars) s0 h0) /\ gl_iteration (g_setup o (length vars) s0 h0) = 0%Z /\ length (gl_visited (g_setup o (length vars) s0 h0)) = 1%nat).
  { unfold g_setup. destruct (l_offer _ _ _) as [[s1 h1] st]. split; [|split; reflexivity]. split; [reflexivity|]. cbn. lia. }
  destruct Q0 as (Q0 & I0 & V0).
  destruct (run_ginv is01 o minimize vars lo hi s0 h0 L Dp Hq B01 clock _ (setup_ginv is01 o (length vars) s0 h0 L) Q0) as ((_ & T & V & F & H) & R2 & R3).
  rewrite I0, V0 in *. fold (g_search o minimize vars lo hi s0 h0 clock) in *. split; [|split; [lia|split]].
  - split; [exact T|]. split; [|split; [exact F|exact H]]. intros y sc Hy. pose proof (V (y, sc) Hy) as Ty. cbn [fst snd] in Ty.
    split; [exact Ty|]. exact (true_feasible is01 s0 y sc L Ty).
  - intros Hl. destruct (snd (g_search o minimize vars lo hi s0 h0 clock)) as [st|]; [exists st; reflexivity|]. destruct R3 as [->|R3]; [cbn [length] in Hl; lia|lia].
  - intros st E. rewrite E in R3. exact R3.
Qed.
