(** Proofs for C52, continued: the theorems. *)
From Coq Require Import List ZArith QArith Qabs Permutation Lia Lqa Bool.
From Verif Require Import ExprModel ExprSpec ConstraintModel ConstraintSpec EvalModel EvalSpec EvalSpec2 SolutionModel SolutionSpec SolutionProof
  TabuModel TabuProof LoopModel LoopSpec LoopProof LoopProof2.
Import ListNotations.
Local Open Scope Q_scope.

Lemma search_facts is01 o s0 h0 m0 mods es :
  loop_start is01 s0 -> (0 <= lo_initial_tenure o)%Z -> (0 <= lo_nmut o)%Z ->
  (forall t, In t (map fst mods) -> trial_ok is01 s0 t) -> (forall e t, In e es -> In t (en_moves e) -> trial_ok is01 s0 t) ->
  let r := l_search o s0 h0 m0 mods es in
  linv is01 o s0 h0 (fst r) /\
  (Z.of_nat (length (lp_visited (fst r))) <= 1 + Z.of_nat (length mods) + Z.max 0 (lo_iteration_max o))%Z /\
  match snd r with
  | None => (Z.of_nat (length es) <= Z.max 0 (lo_iteration_max o))%Z
  | Some st => exists e, In e es /\ status_meaning o s0 e (fst r) st
  end.
Proof.
  intros L H1 H2 K1 K2. cbv zeta. unfold l_search. pose proof (setup_linv is01 o s0 h0 m0 L H1 H2) as I.
  assert (V0 : length (lp_visited (l_setup o s0 h0 m0)) = 1%nat /\ lp_iteration (l_setup o s0 h0 m0) = 0%Z).
  { unfold l_setup. destruct (l_offer _ _ _) as [[s1 h1] st]. split; reflexivity. }
  destruct (modify_linv is01 o s0 h0 mods _ L I K1) as (l1 & E & I1 & It & Le). rewrite E.
  destruct (run_facts is01 o s0 h0 es l1 L I1 K2) as (R1 & R2 & R3 & R4). cbv zeta in *.
  split; [exact R1|]. split; [lia|]. destruct (snd (l_run o es l1)) as [st|]; [exact R4|].
  destruct R4 as (R4 & [->|R5]); [cbn [length]; lia|lia].
Qed.
Lemma search_true is01 o s0 h0 m0 mods es :
  loop_start is01 s0 -> (0 <= lo_initial_tenure o)%Z -> (0 <= lo_nmut o)%Z ->
  (forall t, In t (map fst mods) -> trial_ok is01 s0 t) -> (forall e t, In e es -> In t (en_moves e) -> trial_ok is01 s0 t) ->
  let r := l_search o s0 h0 m0 mods es in let l := fst r in
  true_score (ms_model s0) (ms_x (lp_ms l)) (lp_score l) /\
  (forall y sc, In (y, sc) (lp_visited l) -> true_score (ms_model s0) y sc /\ (sc_feasible sc = true <-> satisfies (ms_model s0) y)) /\
  (forall y, In y (lp_feasible l) -> satisfies (ms_model s0) y) /\
  lp_holder l = fold_left (h_step true) (offers (lp_visited l)) (reset_local h0) /\
  NoDup (lp_used l) /\ snd r <> Some Undefined.
Proof.
  intros L H1 H2 K1 K2. cbv zeta. destruct (search_facts is01 o s0 h0 m0 mods es L H1 H2 K1 K2) as ((_ & T & V & F & H & _ & N) & _ & St). cbv zeta in *.
  split; [exact T|]. split; [|split; [exact F|split; [exact H|split; [exact N|]]]].
  - intros y sc Hy. pose proof (V (y, sc) Hy) as Ty. cbn [fst snd] in Ty. split; [exact Ty|]. exact (true_feasible is01 s0 y sc L Ty).
  - intros E. rewrite E in St. destruct St as (e & _ & []).
Qed.
Lemma search_stops is01 o s0 h0 m0 mods es :
  loop_start is01 s0 -> (0 <= lo_initial_tenure o)%Z -> (0 <= lo_nmut o)%Z ->
  (forall t, In t (map fst mods) -> trial_ok is01 s0 t) -> (forall e t, In e es -> In t (en_moves e) -> trial_ok is01 s0 t) ->
  let r := l_search o s0 h0 m0 mods es in
  (Z.of_nat (length (lp_visited (fst r))) <= 1 + Z.of_nat (length mods) + Z.max 0 (lo_iteration_max o))%Z /\
  ((Z.max 0 (lo_iteration_max o) < Z.of_nat (length es))%Z -> exists st, snd r = Some st) /\
  (forall st, snd r = Some st -> exists e, In e es /\ status_meaning o s0 e (fst r) st).
Proof.
  intros L H1 H2 K1 K2. cbv zeta. destruct (search_facts is01 o s0 h0 m0 mods es L H1 H2 K1 K2) as (_ & V & St). cbv zeta in *.
  split; [exact V|]. split.
  - intros Hl. destruct (snd (l_search o s0 h0 m0 mods es)) as [st|]; [exists st; reflexivity|lia].
  - intros st E. rewrite E in St. exact St.
Qed.
Lemma offered_offers l : offered (offers l) = l.
Proof. unfold offers. induction l as [|[y sc] l IH]; cbn [map offered fst snd]; [reflexivity|now rewrite IH]. Qed.
Lemma offered_app {S} (a b : list (h_event S)) : offered (a ++ b) = offered a ++ offered b.
Proof. induction a as [|[]]; cbn [offered app]; [reflexivity|f_equal; assumption|assumption|assumption]. Qed.
Lemma reset_step (h : holder (nat -> Z)) b : reset_local h = h_step b h ResetLocal.
Proof. reflexivity. Qed.
Lemma search_incumbent is01 o s0 m0 mods es before :
  loop_start is01 s0 -> (0 <= lo_initial_tenure o)%Z -> (0 <= lo_nmut o)%Z ->
  (forall t, In t (map fst mods) -> trial_ok is01 s0 t) -> (forall e t, In e es -> In t (en_moves e) -> trial_ok is01 s0 t) ->
  (forall y sc, In (y, sc) (offered before) -> true_score (ms_model s0) y sc) ->
  let l := fst (l_search o s0 (fold_left (h_step true) before (ho_init _)) m0 mods es) in
  let value y := if md_defined (ms_model s0) then md_sign (ms_model s0) * e_eval (md_obj (ms_model s0)) y else 0 in
  (forall q, sl_obj (ho_feasible (lp_holder l)) = Some q ->
     exists y sc, sl_stored (ho_feasible (lp_holder l)) = Some (y, sc) /\ satisfies (ms_model s0) y /\ q == value y /\
       forall y' sc', In (y', sc') (lp_visited l) -> satisfies (ms_model s0) y' -> value y <= value y' + EPS) /\
  (forall y' sc', In (y', sc') (lp_visited l) -> satisfies (ms_model s0) y' -> sl_obj (ho_feasible (lp_holder l)) <> None).
Proof.
  intros L H1 H2 K1 K2 B. cbv zeta. set (h0 := fold_left (h_step true) before (ho_init (nat -> Z))).
  destruct (search_true is01 o s0 h0 m0 mods es L H1 H2 K1 K2) as (_ & V & _ & H & _). cbv zeta in *.
  set (l := fst (l_search o s0 h0 m0 mods es)) in *.
  rewrite (reset_step h0 true) in H. change (h_step true h0 ResetLocal) with (fold_left (h_step true) [ResetLocal] h0) in H.
  unfold h0 in H. rewrite <- !fold_left_app in H.
  destruct (h_inv_run true (before ++ [ResetLocal] ++ offers (lp_visited l))) as (_ & Hf & _). cbv zeta in Hf. rewrite <- H in Hf.
  rewrite !offered_app in Hf. cbn [offered app] in Hf. rewrite offered_offers in Hf.
  set (all := offered before ++ lp_visited l) in *.
  assert (A : forall y sc, In (y, sc) (filter (fun p : (nat -> Z) * score => sc_feasible (snd p)) all) ->
     satisfies (ms_model s0) y /\ true_score (ms_model s0) y sc).
  { intros y sc Hin. apply filter_In in Hin. destruct Hin as [Hin Fe]. cbn [snd] in Fe.
    assert (T : true_score (ms_model s0) y sc) by (unfold all in Hin; apply in_app_or in Hin; destruct Hin as [Hin|Hin]; [exact (B y sc Hin)|exact (proj1 (V y sc Hin))]).
    split; [apply (true_feasible is01 s0 y sc L T); exact Fe|exact T]. }
  assert (A' : forall y sc, In (y, sc) (lp_visited l) -> satisfies (ms_model s0) y ->
     In (y, sc) (filter (fun p : (nat -> Z) * score => sc_feasible (snd p)) all)).
  { intros y sc Hin Sy. apply filter_In. split; [unfold all; apply in_or_app; now right|cbn [snd]; now apply (V y sc Hin)]. }
  destruct Hf as [[En No]|(y & sc & Hin & Ob & St & Best)].
  - rewrite En in A'. split; [intros q E; rewrite No in E; discriminate|]. intros y' sc' Hin Sy. destruct (A' y' sc' Hin Sy).
  - rewrite Ob. split; [|discriminate]. intros q E. assert (q = sc_objective sc) by congruence. subst q.
    destruct (A y sc Hin) as (Sy & x & Ty & _). exists y, sc. split; [exact St|]. split; [exact Sy|]. split; [exact Ty|].
    intros y' sc' Hin' Sy'. pose proof (Best y' sc' (A' y' sc' Hin' Sy')) as Be. destruct (V y' sc' Hin') as ((x' & Ty' & _) & _).
    rewrite Ty, Ty' in Be. exact Be.
Qed.
