From Coq Require Import List ZArith QArith Qabs Qround Qfield Bool Lia Lqa Arith.
From Verif Require Import ExprModel ExprSpec ExprProof ConstraintModel ConstraintSpec VariableModel TypeSpec
  TypeProof PresolveModel PresolveSpec PresolveProof PresolveProof2.
Import ListNotations.
Local Open Scope Q_scope.

(** * Bounds only shrink *)
Definition nested (vs0 vs : vars) : Prop := forall w,
  va_fixed (vs w) = va_fixed (vs0 w) /\ (va_fixed (vs0 w) = true -> vs w = vs0 w) /\
  (va_fixed (vs0 w) = false -> va_lower (vs0 w) <= va_lower (vs w) /\ va_upper (vs w) <= va_upper (vs0 w))%Z.

Lemma nested_refl vs : nested vs vs.
Proof. intros w. repeat split; auto; lia. Qed.
Lemma nested_bounded vs0 vs v lo hi : nested vs0 vs -> va_fixed (vs0 v) = false -> (lo <= hi)%Z ->
  (va_lower (vs0 v) <= lo)%Z -> (hi <= va_upper (vs0 v))%Z -> nested vs0 (bounded vs v lo hi).
Proof.
  intros N F H A B w. destruct (bounded_facts vs v lo hi w H) as (F1 & F2 & F3 & F4). destruct (N w) as (N1 & N2 & N3).
  destruct (Nat.eq_dec w v) as [->|D].
  - rewrite Nat.eqb_refl in *. rewrite F1, F2, F3. repeat split; auto; congruence.
  - rewrite (F4 D). auto.
Qed.

Definition fresh (vs0 : vars) (todo : sens) (vs : vars) : Prop :=
  nested vs0 vs /\ forall v, In v (map fst todo) -> vs v = vs0 v.

Lemma raise_lower_nested vs0 vs v q : nested vs0 vs -> va_fixed (vs0 v) = false ->
  match raise_lower vs v q (va_lower (vs0 v)) (va_upper (vs0 v)) with
  | Ok (vs', _) => nested vs0 vs' /\ others_same v vs vs' | _ => True end.
Proof.
  intros N F. pose proof (raise_lower_cases vs v q (va_lower (vs0 v)) (va_upper (vs0 v))) as C.
  destruct (raise_lower _ _ _ _ _) as [[vs' u]| |]; [|exact I|exact I].
  destruct C as [(-> & _)|(-> & _ & R & _)]; [split; [exact N|intros w; reflexivity]|].
  split; [apply nested_bounded; auto; lia|apply bounded_others; lia].
Qed.
Lemma cut_upper_nested vs0 vs v q : nested vs0 vs -> va_fixed (vs0 v) = false ->
  match cut_upper vs v q (va_lower (vs0 v)) (va_upper (vs0 v)) with
  | Ok (vs', _) => nested vs0 vs' /\ others_same v vs vs' | _ => True end.
Proof.
  intros N F. pose proof (cut_upper_cases vs v q (va_lower (vs0 v)) (va_upper (vs0 v))) as C.
  destruct (cut_upper _ _ _ _ _) as [[vs' u]| |]; [|exact I|exact I].
  destruct C as [(-> & _)|(-> & _ & R & _)]; [split; [exact N|intros w; reflexivity]|].
  split; [apply nested_bounded; auto; lia|apply bounded_others; lia].
Qed.

Lemma each_inv {S} (P : sens -> S -> Prop) (f : S -> nat * Q -> outcome S) (good : nat * Q -> Prop) rest :
  (forall p tl s s', NoDup (map fst (p :: tl)) -> good p -> P (p :: tl) s -> f s p = Ok s' -> P tl s') ->
  forall l s s', NoDup (map fst (l ++ rest)) -> (forall p, In p l -> good p) -> P (l ++ rest) s ->
  each f l s = Ok s' -> P rest s'.
Proof.
  intros Hf. induction l as [|p tl IH]; intros s s' ND Hg K; cbn [each]; [intros E; injection E as <-; exact K|].
  cbn [app] in ND, K. destruct (f s p) as [s1| |] eqn:E; cbn [bind]; try discriminate. apply IH.
  - cbn [map] in ND. now inversion ND.
  - intros q Hq. apply Hg. now right.
  - exact (Hf p (tl ++ rest) s s1 ND (Hg p (or_introl eq_refl)) K E).
Qed.
Lemma each_no_ub {S} (P : sens -> S -> Prop) (f : S -> nat * Q -> outcome S) (good : nat * Q -> Prop) rest :
  (forall p tl s s', NoDup (map fst (p :: tl)) -> good p -> P (p :: tl) s -> f s p = Ok s' -> P tl s') ->
  (forall p tl s, good p -> P (p :: tl) s -> f s p <> UB) ->
  forall l s, NoDup (map fst (l ++ rest)) -> (forall p, In p l -> good p) -> P (l ++ rest) s -> each f l s <> UB.
Proof.
  intros Hf Hu. induction l as [|p tl IH]; intros s ND Hg K; cbn [each]; [discriminate|].
  cbn [app] in ND, K. pose proof (Hu p (tl ++ rest) s (Hg p (or_introl eq_refl)) K) as U.
  destruct (f s p) as [s1| |] eqn:E; cbn [bind]; [|discriminate|contradiction]. apply IH.
  - cbn [map] in ND. now inversion ND.
  - intros q Hq. apply Hg. now right.
  - exact (Hf p (tl ++ rest) s s1 ND (Hg p (or_introl eq_refl)) K E).
Qed.

Lemma positive_fresh vs0 c L U p tl s s' : NoDup (map fst (p :: tl)) -> va_fixed (vs0 (fst p)) = false ->
  fresh vs0 (p :: tl) (fst s) -> tighten_positive c L U s p = Ok s' -> fresh vs0 tl (fst s').
Proof.
  destruct p as [v a], s as [vs u]. cbn [fst snd map]. intros ND F (K1 & K2).
  inversion ND as [|? ? Hni Hnd]; subst.
  assert (E : vs v = vs0 v) by (apply K2; now left). unfold tighten_positive. rewrite E.
  assert (G : forall w, In w (map fst tl) -> w <> v) by (intros w Hw ->; contradiction).
  pose proof (raise_lower_nested vs0 vs v (- (U - a * inject_Z (va_upper (vs0 v))) / a) K1 F) as R1.
  destruct (if ct_ge c then _ else _) as [[vs1 u1]| |] eqn:E1; cbn [bind fst snd]; try discriminate.
  assert (A1 : nested vs0 vs1 /\ others_same v vs vs1).
  { destruct (ct_ge c); [rewrite E1 in R1; exact R1|]. injection E1 as <- <-. split; [exact K1|intros w; reflexivity]. }
  destruct A1 as [N1 O1].
  pose proof (cut_upper_nested vs0 vs1 v (- (L - a * inject_Z (va_lower (vs0 v))) / a) N1 F) as R2.
  destruct (if ct_le c then _ else _) as [[vs2 u2]| |] eqn:E2; cbn [bind fst snd]; try discriminate.
  assert (A2 : nested vs0 vs2 /\ others_same v vs1 vs2).
  { destruct (ct_le c); [rewrite E2 in R2; exact R2|]. injection E2 as <- <-. split; [exact N1|intros w; reflexivity]. }
  destruct A2 as [N2 O2]. intros EE. injection EE as <-. cbn [fst]. split; [exact N2|].
  intros w Hw. rewrite O2, O1 by auto. apply K2. now right.
Qed.
Lemma negative_fresh vs0 c L U p tl s s' : NoDup (map fst (p :: tl)) -> va_fixed (vs0 (fst p)) = false ->
  fresh vs0 (p :: tl) (fst s) -> tighten_negative c L U s p = Ok s' -> fresh vs0 tl (fst s').
Proof.
  destruct p as [v a], s as [vs u]. cbn [fst snd map]. intros ND F (K1 & K2).
  inversion ND as [|? ? Hni Hnd]; subst.
  assert (E : vs v = vs0 v) by (apply K2; now left). unfold tighten_negative. rewrite E.
  assert (G : forall w, In w (map fst tl) -> w <> v) by (intros w Hw ->; contradiction).
  destruct (Qeq_bool a 0); [discriminate|].
  pose proof (cut_upper_nested vs0 vs v (- (U - a * inject_Z (va_lower (vs0 v))) / a) K1 F) as R1.
  destruct (if ct_ge c then _ else _) as [[vs1 u1]| |] eqn:E1; cbn [bind fst snd]; try discriminate.
  assert (A1 : nested vs0 vs1 /\ others_same v vs vs1).
  { destruct (ct_ge c); [rewrite E1 in R1; exact R1|]. injection E1 as <- <-. split; [exact K1|intros w; reflexivity]. }
  destruct A1 as [N1 O1].
  pose proof (raise_lower_nested vs0 vs1 v (- (L - a * inject_Z (va_upper (vs0 v))) / a) N1 F) as R2.
  destruct (if ct_le c then _ else _) as [[vs2 u2]| |] eqn:E2; cbn [bind fst snd]; try discriminate.
  assert (A2 : nested vs0 vs2 /\ others_same v vs1 vs2).
  { destruct (ct_le c); [rewrite E2 in R2; exact R2|]. injection E2 as <- <-. split; [exact N1|intros w; reflexivity]. }
  destruct A2 as [N2 O2]. intros EE. injection EE as <-. cbn [fst]. split; [exact N2|].
  intros w Hw. rewrite O2, O1 by auto. apply K2. now right.
Qed.

Lemma mutable_lists vs e p : In p (positive_mutables vs e) \/ In p (negative_mutables vs e) ->
  In p (ex_sens e) /\ va_fixed (vs (fst p)) = false.
Proof. intros [I|I]; apply filter_In in I as [I _]; now apply filter_in_mut. Qed.

Lemma general_nested vs c vs' b u : wf (ct_expr c) ->
  let e := ct_expr c in let L := e_lower e (vi_of vs) in let U := e_upper e (vi_of vs) in
  bind (each (tighten_positive c L U) (positive_mutables vs e) (vs, false)) (fun s =>
        bind (each (tighten_negative c L U) (negative_mutables vs e) s) (fun s => Ok (fst s, false, snd s))) = Ok (vs', b, u) ->
  nested vs vs'.
Proof.
  intros W. cbv zeta. set (L := e_lower _ _). set (U := e_upper _ _). set (e := ct_expr c).
  destruct (each _ (positive_mutables vs e) _) as [s| |] eqn:E1; cbn [bind]; try discriminate.
  destruct (each _ (negative_mutables vs e) _) as [s'| |] eqn:E2; cbn [bind]; try discriminate.
  intros E. injection E as <- <- <-.
  assert (F1 : fresh vs (negative_mutables vs e) (fst s)).
  { apply (each_inv (fun l s => fresh vs l (fst s)) (tighten_positive c L U) (fun p => va_fixed (vs (fst p)) = false) (negative_mutables vs e)) with (l := positive_mutables vs e) (s := (vs, false)); auto.
    - intros p tl s0 s1 ND g K. now apply positive_fresh.
    - apply split_sign_nodup. exact W.
    - intros p I. apply (mutable_lists vs e p). now left.
    - split; [apply nested_refl|auto]. }
  assert (F2 : fresh vs [] (fst s')).
  { apply (each_inv (fun l s => fresh vs l (fst s)) (tighten_negative c L U) (fun p => va_fixed (vs (fst p)) = false) []) with (l := negative_mutables vs e) (s := s); auto.
    - intros p tl s0 s1 ND g K. now apply negative_fresh.
    - rewrite app_nil_r. apply nodup_filter_keys, nodup_filter_keys. exact W.
    - intros p I. apply (mutable_lists vs e p). now right.
    - rewrite app_nil_r. exact F1. }
  apply F2.
Qed.

(** vs' is vs with smaller ranges, perhaps with more variables fixed inside them. *)
Definition shrinks (vs vs' : vars) : Prop := forall w,
  (va_fixed (vs w) = true -> vs' w = vs w) /\
  (va_fixed (vs w) = false -> va_fixed (vs' w) = false -> va_lower (vs w) <= va_lower (vs' w) /\ va_upper (vs' w) <= va_upper (vs w))%Z /\
  (va_fixed (vs w) = false -> va_fixed (vs' w) = true -> va_lower (vs w) <= va_value (vs' w) <= va_upper (vs w))%Z.

Lemma nested_shrinks vs vs' : nested vs vs' -> shrinks vs vs'.
Proof. intros N w. destruct (N w) as (N1 & N2 & N3). repeat split; auto; try (apply N3; auto); congruence. Qed.
Lemma shrinks_refl vs : shrinks vs vs. Proof. apply nested_shrinks, nested_refl. Qed.
Lemma shrinks_trans a b c : shrinks a b -> shrinks b c -> shrinks a c.
Proof.
  intros H G w. destruct (H w) as (H1 & H2 & H3), (G w) as (G1 & G2 & G3).
  repeat split.
  - intros F. rewrite G1; [auto|]. now rewrite (H1 F).
  - destruct (va_fixed (b w)) eqn:Fb; [rewrite G1 in * by auto; congruence|]. specialize (H2 H0 eq_refl). specialize (G2 eq_refl H4). lia.
  - destruct (va_fixed (b w)) eqn:Fb; [rewrite G1 in * by auto; congruence|]. specialize (H2 H0 eq_refl). specialize (G2 eq_refl H4). lia.
  - destruct (va_fixed (b w)) eqn:Fb; [rewrite G1 in * by auto; apply H3; auto|]. specialize (H2 H0 eq_refl). specialize (G3 eq_refl H4). lia.
  - destruct (va_fixed (b w)) eqn:Fb; [rewrite G1 in * by auto; apply H3; auto|]. specialize (H2 H0 eq_refl). specialize (G3 eq_refl H4). lia.
Qed.
Lemma shrinks_legal vs vs' y : shrinks vs vs' -> legal vs' y -> legal vs y.
Proof.
  intros H L w. destruct (H w) as (H1 & H2 & H3), (L w) as (L1 & L2). split; intros F.
  - rewrite (H1 F) in L1. auto.
  - destruct (va_fixed (vs' w)) eqn:F'.
    + specialize (H3 F eq_refl). rewrite (L1 eq_refl). exact H3.
    + specialize (H2 F eq_refl). specialize (L2 eq_refl). lia.
Qed.
Lemma shrinks_moderate vs vs' : shrinks vs vs' -> moderate vs -> moderate vs'.
Proof.
  intros H M w F. destruct (H w) as (H1 & H2 & H3). destruct (va_fixed (vs w)) eqn:F0.
  - rewrite (H1 eq_refl) in F. congruence.
  - specialize (H2 eq_refl F). specialize (M w F0). lia.
Qed.

Lemma singleton_shrinks vs c v a vs' b u y0 : mutables vs (ct_expr c) = [(v, a)] -> integral_when_fixed vs (ct_expr c) ->
  legal vs y0 -> satisfies c y0 -> tighten_singleton vs c v a = Ok (vs', b, u) -> shrinks vs vs'.
Proof.
  intros Hm Hi L S. destruct (mut_var _ _ _ _ Hm) as [Iv Fv].
  assert (Hy : forall w, va_fixed (vs w) = true -> y0 w = va_value (vs w)) by (intros w; apply L).
  pose proof (single_iff vs c v a y0 Hi Hm Hy) as SI.
  unfold tighten_singleton. fold (root vs c a). set (t := root vs c a) in *.
  pose proof (raise_lower_nested vs vs v t (nested_refl vs) Fv) as R1.
  pose proof (cut_upper_nested vs vs v t (nested_refl vs) Fv) as R2.
  assert (C1 : bind (cut_upper vs v t (va_lower (vs v)) (va_upper (vs v))) (fun r => Ok (fst r, true, snd r)) = Ok (vs', b, u) -> shrinks vs vs').
  { destruct (cut_upper _ _ _ _ _) as [[vs1 u1]| |]; cbn [bind fst snd]; try discriminate.
    intros E. injection E as <- <- <-. apply nested_shrinks, R2. }
  assert (C2 : bind (raise_lower vs v t (va_lower (vs v)) (va_upper (vs v))) (fun r => Ok (fst r, true, snd r)) = Ok (vs', b, u) -> shrinks vs vs').
  { destruct (raise_lower _ _ _ _ _) as [[vs1 u1]| |]; cbn [bind fst snd]; try discriminate.
    intros E. injection E as <- <- <-. apply nested_shrinks, R1. }
  destruct (ct_sense c) eqn:Es.
  - destruct (Qlt_le_dec 0 a); [exact C1|]. destruct (Qlt_le_dec a 0); [exact C2|].
    intros E. injection E as <- <- <-. apply shrinks_refl.
  - destruct (Qeq_bool a 0) eqn:Z0; [discriminate|]. apply Qeq_bool_neq in Z0.
    apply (SI Z0) in S. symmetry in S. rewrite (Qtrunc_Z _ _ S). unfold to_int.
    destruct (_ && _)%bool; cbn [bind]; [|discriminate]. intros E. injection E as <- <- <-.
    intros w. destruct (fix_by_facts vs v (y0 v) w) as (F1 & F2 & F3 & F4 & F5).
    destruct (Nat.eq_dec w v) as [->|D].
    + rewrite Nat.eqb_refl in *. rewrite F1, F2. repeat split; try congruence; destruct (L v) as [_ L2]; specialize (L2 Fv); lia.
    + rewrite (F5 D). repeat split; auto; try lia; congruence.
  - destruct (Qlt_le_dec a 0); [exact C1|]. destruct (Qlt_le_dec 0 a); [exact C2|].
    intros E. injection E as <- <- <-. apply shrinks_refl.
Qed.

Lemma tighten_shrinks vs c vs' b u y0 : wf (ct_expr c) ->
  (length (mutables vs (ct_expr c)) = 1%nat -> integral_when_fixed vs (ct_expr c)) ->
  legal vs y0 -> satisfies c y0 -> tighten vs c = Ok (vs', b, u) -> shrinks vs vs'.
Proof.
  intros W Hi L S. unfold tighten. cbv zeta. destruct (always_satisfied _ _ _).
  { intros E. injection E as <- <- <-. apply shrinks_refl. }
  pose proof (general_nested vs c vs' b u W) as G. cbv zeta in G.
  destruct (mutables vs (ct_expr c)) as [|[v a] [|p l]] eqn:Hm.
  - intros E. apply nested_shrinks. auto.
  - apply singleton_shrinks with (y0 := y0); auto.
  - intros E. apply nested_shrinks. auto.
Qed.

Lemma removed_implied vs c vs' u y y0 : 
  (length (mutables vs (ct_expr c)) = 1%nat -> integral_when_fixed vs (ct_expr c)) ->
  moderate vs -> legal vs y0 -> satisfies c y0 -> tighten vs c = Ok (vs', true, u) -> legal vs' y -> satisfies c y.
Proof.
  intros Hi M L0 S0 E Ly. destruct (Nat.eq_dec (length (mutables vs (ct_expr c))) 1) as [H1|H1].
  2:{ destruct (removed_many vs c vs' u y H1 E) as [-> R]. auto. }
  revert E. unfold tighten. cbv zeta. destruct (always_satisfied _ _ _) eqn:A.
  { intros E. injection E as <- <-. now apply (always_sound vs). }
  destruct (mutables vs (ct_expr c)) as [|[v a] [|p l]] eqn:Hm; try discriminate. specialize (Hi eq_refl).
  intros E. destruct (Qeq_bool a 0) eqn:Z0.
  - exfalso. revert E. unfold tighten_singleton. rewrite Z0. apply Qeq_bool_iff in Z0.
    destruct (ct_sense c); destruct (Qlt_le_dec 0 a), (Qlt_le_dec a 0); try lra; discriminate.
  - apply Qeq_bool_neq in Z0. eapply singleton_removed; eauto. eapply feasible_near; eauto.
Qed.

(** * The pass and the loop *)
Lemma integral_fixed vs e : integral e -> integral_when_fixed vs e.
Proof.
  intros H v a Iv _. destruct (H v a Iv) as (z & Ez). exists (z * va_value (vs v))%Z. rewrite inject_Z_mult, Ez. reflexivity.
Qed.
Definition sat_all (cs : list constr) (y : nat -> Z) : Prop := forall c, In c cs -> ct_enabled c = true -> satisfies c y.
Definition plain (cs : list constr) : Prop := forall c, In c cs -> ct_enabled c = true -> wf (ct_expr c) /\ integral (ct_expr c).

Lemma pass_exact cs : forall vs vs' cs' k y0, plain cs -> moderate vs -> legal vs y0 -> sat_all cs y0 ->
  redundant_pass vs cs = Ok (vs', cs', k) ->
  shrinks vs vs' /\ plain cs' /\ (forall y, legal vs y /\ sat_all cs y <-> legal vs' y /\ sat_all cs' y) /\
  (number_enabled cs' + k = number_enabled cs)%nat.
Proof.
  induction cs as [|c tl IH]; intros vs vs' cs' k y0 P M L S; cbn [redundant_pass].
  { intros E. injection E as <- <- <-. split; [apply shrinks_refl|]. split; [exact P|]. split; [reflexivity|reflexivity]. }
  assert (Ptl : plain tl) by (intros d Hd; apply P; now right).
  assert (Stl : sat_all tl y0) by (intros d Hd; apply S; now right).
  destruct (ct_enabled c) eqn:En.
  - destruct (P c (or_introl eq_refl) En) as [W Int].
    assert (Hi : length (mutables vs (ct_expr c)) = 1%nat -> integral_when_fixed vs (ct_expr c)) by (intros _; now apply integral_fixed).
    assert (Sc : satisfies c y0) by (apply S; [now left|exact En]).
    pose proof (fun y => tighten_sound vs c y W Hi) as TS. pose proof (TS y0 L Sc) as TS0.
    destruct (tighten vs c) as [[[vs1 off] u1]| |] eqn:ET; cbn [bind]; try discriminate.
    assert (Sh : shrinks vs vs1) by (eapply tighten_shrinks; eauto).
    destruct (redundant_pass vs1 tl) as [[[vs2 tl'] k']| |] eqn:ER; cbn [bind]; try discriminate.
    intros E. injection E as <- <- <-.
    destruct (IH vs1 vs2 tl' k' y0 Ptl (shrinks_moderate _ _ Sh M) TS0 Stl ER) as (H1 & H2 & H3 & H4).
    split; [eapply shrinks_trans; eauto|]. split; [|split].
    + intros d [<-|Hd] Ed; [|now apply H2]. destruct off; [discriminate Ed|]. auto.
    + intros y. split.
      * intros [Ly Sy]. assert (Sy1 : satisfies c y) by (apply Sy; [now left|exact En]).
        destruct (proj1 (H3 y)) as [G1 G2]; [split; [exact (TS y Ly Sy1)|intros d Hd; apply Sy; now right]|].
        split; [exact G1|]. intros d [<-|Hd] Ed; [|now apply G2]. destruct off; [discriminate Ed|exact Sy1].
      * intros [Ly Sy]. destruct (proj2 (H3 y)) as [G1 G2]; [split; [exact Ly|intros d Hd; apply Sy; now right]|].
        split; [eapply shrinks_legal; eauto|]. intros d [<-|Hd] Ed; [|now apply G2].
        destruct off; [eapply removed_implied; eauto|]. apply Sy; [now left|exact En].
    + unfold number_enabled in *. cbn [filter]. rewrite En. cbn [length].
      destruct off; cbn [disable ct_enabled]; [|rewrite En; cbn [length]]; lia.
  - destruct (redundant_pass vs tl) as [[[vs2 tl'] k']| |] eqn:ER; cbn [bind]; try discriminate.
    intros E. injection E as <- <- <-. destruct (IH vs vs2 tl' k' y0 Ptl M L Stl ER) as (H1 & H2 & H3 & H4).
    split; [exact H1|]. split; [|split].
    + intros d [<-|Hd] Ed; [congruence|now apply H2].
    + intros y. split; intros [Ly Sy].
      * destruct (proj1 (H3 y)) as [G1 G2]; [split; [exact Ly|intros d Hd; apply Sy; now right]|].
        split; [exact G1|]. intros d [<-|Hd] Ed; [congruence|now apply G2].
      * destruct (proj2 (H3 y)) as [G1 G2]; [split; [exact Ly|intros d Hd; apply Sy; now right]|].
        split; [exact G1|]. intros d [<-|Hd] Ed; [congruence|now apply G2].
    + unfold number_enabled in *. cbn [filter]. rewrite En. exact H4.
Qed.

(** An exception in the pass: nothing legal satisfies the constraints. *)
Lemma pass_throw cs : forall vs y, plain cs -> legal vs y -> sat_all cs y -> redundant_pass vs cs <> Throw.
Proof.
  induction cs as [|c tl IH]; intros vs y P L S; cbn [redundant_pass]; [discriminate|].
  assert (Ptl : plain tl) by (intros d Hd; apply P; now right).
  assert (Stl : sat_all tl y) by (intros d Hd; apply S; now right).
  destruct (ct_enabled c) eqn:En.
  - destruct (P c (or_introl eq_refl) En) as [W Int].
    assert (Sc : satisfies c y) by (apply S; [now left|exact En]).
    pose proof (tighten_sound vs c y W (fun _ => integral_fixed vs _ Int) L Sc) as TS.
    destruct (tighten vs c) as [[[vs1 off] u1]| |] eqn:ET; cbn [bind]; [|contradiction|discriminate].
    pose proof (IH vs1 y Ptl TS Stl). destruct (redundant_pass vs1 tl) as [[[vs2 tl'] k']| |]; cbn [bind]; congruence.
  - pose proof (IH vs y Ptl L Stl). destruct (redundant_pass vs tl) as [[[vs2 tl'] k']| |]; cbn [bind]; congruence.
Qed.

Lemma fix_implicit_exact vs k v vs' k' : fix_implicit (vs, k) v = (vs', k') ->
  shrinks vs vs' /\ (forall y, legal vs y <-> legal vs' y) /\
  (forall w, w <> v -> vs' w = vs w) /\
  ((k' = k /\ vs' = vs) \/ (k' = S k /\ va_fixed (vs v) = false /\ va_fixed (vs' v) = true)).
Proof.
  unfold fix_implicit. destruct (va_fixed (vs v)) eqn:F.
  { intros E. injection E as <- <-. split; [apply shrinks_refl|]. split; [reflexivity|]. auto. }
  destruct (Z.eqb_spec (va_lower (vs v)) (va_upper (vs v))) as [Eb|Nb].
  2:{ intros E. injection E as <- <-. split; [apply shrinks_refl|]. split; [reflexivity|]. auto. }
  intros E. injection E as <- <-.
  assert (FB := fix_by_facts vs v (va_lower (vs v))).
  split; [|split; [|split]].
  - intros w. destruct (FB w) as (F1 & F2 & F3 & F4 & F5). destruct (Nat.eq_dec w v) as [->|D].
    + rewrite Nat.eqb_refl in *. rewrite F1, F2. repeat split; try congruence; lia.
    + rewrite (F5 D). repeat split; auto; try lia; congruence.
  - intros y. split; intros L w; destruct (FB w) as (F1 & F2 & F3 & F4 & F5); destruct (L w) as [L1 L2].
    + destruct (Nat.eq_dec w v) as [->|D].
      * rewrite Nat.eqb_refl in *. rewrite F1, F2. split; [|congruence]. intros _. specialize (L2 F). lia.
      * rewrite (F5 D). auto.
    + destruct (Nat.eq_dec w v) as [->|D].
      * rewrite Nat.eqb_refl in *. rewrite F1, F2 in L1. split; [congruence|]. intros _. rewrite (L1 eq_refl). lia.
      * rewrite (F5 D) in L1, L2. auto.
  - intros w. apply FB.
  - right. destruct (FB v) as (F1 & _). rewrite Nat.eqb_refl in F1. auto.
Qed.

Lemma implicit_fold l : NoDup l -> forall vs k vs' k', fold_left fix_implicit l (vs, k) = (vs', k') ->
  shrinks vs vs' /\ (forall y, legal vs y <-> legal vs' y) /\ (forall w, ~ In w l -> vs' w = vs w) /\
  (length (filter (fun v => negb (va_fixed (vs' v))) l) + k' = length (filter (fun v => negb (va_fixed (vs v))) l) + k)%nat.
Proof.
  induction l as [|v tl IH]; intros ND vs k vs' k'; cbn [fold_left].
  { intros E. injection E as <- <-. split; [apply shrinks_refl|]. split; [reflexivity|]. split; [auto|reflexivity]. }
  inversion ND as [|? ? Hni Hnd]; subst.
  destruct (fix_implicit (vs, k) v) as [vs1 k1] eqn:E1. intros E.
  destruct (fix_implicit_exact _ _ _ _ _ E1) as (A1 & A2 & A3 & A4).
  destruct (IH Hnd vs1 k1 vs' k' E) as (B1 & B2 & B3 & B4).
  split; [eapply shrinks_trans; eauto|]. split; [intros y; rewrite A2; apply B2|]. split.
  { intros w Nw. rewrite B3, A3; [reflexivity| |]; cbn in Nw; intuition. }
  assert (Ef : filter (fun v0 => negb (va_fixed (vs1 v0))) tl = filter (fun v0 => negb (va_fixed (vs v0))) tl).
  { clear -A3 Hni. induction tl as [|w tl IHt]; [reflexivity|]. cbn [filter]. rewrite A3 by (intros ->; apply Hni; now left).
    rewrite IHt; [reflexivity|]. intros I. apply Hni. now right. }
  rewrite Ef in B4. cbn [filter]. rewrite (B3 v Hni).
  destruct A4 as [(-> & ->)|(-> & F0 & F1)].
  - destruct (negb (va_fixed (vs v))); cbn [length]; lia.
  - rewrite F0, F1. cbn [negb length]. lia.
Qed.

Lemma filter_le_length {A} (f g : A -> bool) l : (forall a, f a = true -> g a = true) -> (length (filter f l) <= length (filter g l))%nat.
Proof.
  intros H. induction l as [|a tl IH]; cbn [filter]; [lia|].
  destruct (f a) eqn:F; [rewrite (H a F); cbn [length]; lia|]. destruct (g a); cbn [length]; lia.
Qed.
Lemma shrinks_mutable n vs vs' : shrinks vs vs' -> (number_mutable n vs' <= number_mutable n vs)%nat.
Proof.
  intros H. apply filter_le_length. intros v. destruct (va_fixed (vs v)) eqn:F; [|reflexivity].
  destruct (H v) as [H1 _]. rewrite (H1 F), F. discriminate.
Qed.

Lemma reduce_exact fuel : forall s y0, plain (ps_cons s) -> moderate (ps_vars s) -> solution s y0 ->
  match reduce_loop fuel s with
  | None => (fuel <= number_enabled (ps_cons s) + number_mutable (ps_number s) (ps_vars s))%nat
  | Some Throw => False
  | Some UB => True
  | Some (Ok s') => (forall y, solution s y <-> solution s' y) /\ shrinks (ps_vars s) (ps_vars s')
  end.
Proof.
  induction fuel as [|f IH]; intros s y0 P M [L S]; cbn [reduce_loop]; [lia|].
  pose proof (pass_throw _ _ _ P L S) as NT.
  destruct (redundant_pass (ps_vars s) (ps_cons s)) as [[[vs cs] k]| |] eqn:E; [|contradiction|exact I].
  destruct (pass_exact _ _ _ _ _ _ P M L S E) as (A1 & A2 & A3 & A4).
  destruct (implicit_pass (ps_number s) vs) as [vs' k'] eqn:EI. unfold implicit_pass in EI.
  destruct (implicit_fold _ (seq_NoDup _ _) _ _ _ _ EI) as (B1 & B2 & _ & B4).
  set (s' := mkP (ps_number s) vs' cs).
  assert (Sol : forall y, solution s y <-> solution s' y).
  { intros y. unfold solution, s'. cbn [ps_vars ps_cons]. rewrite <- B2. apply A3. }
  assert (Sh : shrinks (ps_vars s) vs') by (eapply shrinks_trans; eauto).
  destruct (Nat.eqb k 0 && Nat.eqb k' 0)%bool eqn:Z0.
  { split; [exact Sol|exact Sh]. }
  specialize (IH s' y0). cbn [ps_cons ps_vars ps_number s'] in IH.
  specialize (IH A2 (shrinks_moderate _ _ Sh M) (proj1 (Sol y0) (conj L S))).
  destruct (reduce_loop f s') as [[s''| |]|].
  - destruct IH as [I1 I2]. split; [intros y; rewrite Sol; apply I1|]. eapply shrinks_trans; eauto.
  - exact IH.
  - exact IH.
  - pose proof (shrinks_mutable (ps_number s) _ _ A1) as Mn. unfold number_mutable in *.
    apply andb_false_iff in Z0. destruct Z0 as [Z0|Z0]; apply Nat.eqb_neq in Z0; lia.
Qed.
