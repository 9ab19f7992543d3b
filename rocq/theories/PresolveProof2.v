From Coq Require Import List ZArith QArith Qabs Qround Qfield Bool Lia Lqa.
From Verif Require Import ExprModel ExprSpec ExprProof ConstraintModel ConstraintSpec VariableModel TypeSpec
  TypeProof PresolveModel PresolveSpec PresolveProof.
Import ListNotations.
Local Open Scope Q_scope.

(** * One mutable variable left *)
Lemma fixed_term_exact vs e : integral_when_fixed vs e ->
  inject_Z (e_fixed_term e (vi_of vs)) == fixed_sum (ex_sens e) (vi_of vs).
Proof.
  unfold e_fixed_term, integral_when_fixed. intros H.
  assert (G : forall s, (forall v a, In (v, a) s -> va_fixed (vs v) = true -> exists z, a * inject_Z (va_value (vs v)) == inject_Z z) ->
    forall acc, inject_Z (fold_left (fun acc p => let i := vi_of vs (fst p) in
      if vi_fixed i then Qtrunc (inject_Z acc + snd p * inject_Z (vi_value i)) else acc) s acc)
    == inject_Z acc + fixed_sum s (vi_of vs)).
  { induction s as [|[v c] tl IH]; intros Hs acc; cbn [fold_left fixed_sum fst snd]; [lra|].
    cbv zeta. rewrite IH by (intros; eapply Hs; [right; eassumption|assumption]).
    cbn [vi_of vi_fixed vi_value]. destruct (va_fixed (vs v)) eqn:F; [|lra].
    destruct (Hs v c (or_introl eq_refl) F) as (z & Ez).
    rewrite (Qtrunc_Z _ (acc + z)%Z); rewrite inject_Z_plus, Ez; lra. }
  rewrite (G _ H). change (inject_Z 0) with 0. lra.
Qed.

Lemma split_fixed vs y s : (forall v, va_fixed (vs v) = true -> y v = va_value (vs v)) ->
  lin s y == fixed_sum s (vi_of vs) + lin (filter (fun p => negb (va_fixed (vs (fst p)))) s) y.
Proof.
  intros H. induction s as [|[v a] tl IH]; cbn [lin fixed_sum filter fst]; [lra|].
  cbn [vi_of vi_fixed vi_value]. destruct (va_fixed (vs v)) eqn:F; cbn [negb lin]; rewrite IH; [rewrite (H v F)|]; lra.
Qed.

Lemma single_value vs c v a y : integral_when_fixed vs (ct_expr c) -> mutables vs (ct_expr c) = [(v, a)] ->
  (forall w, va_fixed (vs w) = true -> y w = va_value (vs w)) ->
  e_eval (ct_expr c) y == inject_Z (e_fixed_term (ct_expr c) (vi_of vs)) + ex_const (ct_expr c) + a * inject_Z (y v).
Proof.
  intros Hi Hm Hy. rewrite eval_lin, (fixed_term_exact _ _ Hi), (split_fixed vs y _ Hy).
  unfold mutables in Hm. rewrite Hm. cbn [lin]. lra.
Qed.

Definition root (vs : vars) (c : constr) (a : Q) : Q :=
  - (inject_Z (e_fixed_term (ct_expr c) (vi_of vs)) + ex_const (ct_expr c)) / a.

(** The constraint in terms of the threshold. *)
Lemma single_iff vs c v a y : integral_when_fixed vs (ct_expr c) -> mutables vs (ct_expr c) = [(v, a)] ->
  (forall w, va_fixed (vs w) = true -> y w = va_value (vs w)) -> ~ a == 0 ->
  (satisfies c y <-> match ct_sense c with
    | Equal => inject_Z (y v) == root vs c a
    | Less => if Qlt_le_dec 0 a then inject_Z (y v) <= root vs c a else root vs c a <= inject_Z (y v)
    | Greater => if Qlt_le_dec 0 a then root vs c a <= inject_Z (y v) else inject_Z (y v) <= root vs c a
    end).
Proof.
  intros Hi Hm Hy Ha. unfold satisfies, holds. pose proof (single_value vs c v a y Hi Hm Hy) as V. revert V.
  unfold root. set (b := inject_Z (e_fixed_term (ct_expr c) (vi_of vs)) + ex_const (ct_expr c)).
  generalize (e_eval (ct_expr c) y) as E. intros E V.
  destruct (ct_sense c).
  - destruct (Qlt_le_dec 0 a) as [P|P].
    + rewrite div_pos_ge by exact P. split; lra.
    + assert (P' : a < 0) by (apply Qle_lteq in P as [|]; [assumption|contradiction]).
      rewrite div_neg_le by exact P'. split; lra.
  - split; intros H.
    + assert (E1 : inject_Z (y v) == (b + a * inject_Z (y v) - b) / a) by (field; exact Ha). rewrite E1, <- V, H. field. exact Ha.
    + rewrite V, H. field. exact Ha.
  - destruct (Qlt_le_dec 0 a) as [P|P].
    + rewrite div_pos_le by exact P. split; lra.
    + assert (P' : a < 0) by (apply Qle_lteq in P as [|]; [assumption|contradiction]).
      rewrite div_neg_ge by exact P'. split; lra.
Qed.

Lemma mut_var vs e v a : mutables vs e = [(v, a)] -> In (v, a) (ex_sens e) /\ va_fixed (vs v) = false.
Proof. intros H. apply filter_in_mut. rewrite H. now left. Qed.

Lemma legal_fix vs v z y : legal vs y -> y v = z -> legal (do_fix_by vs v z) y.
Proof.
  intros L E w. destruct (fix_by_facts vs v z w) as (F1 & F2 & F3 & F4 & F5).
  destruct (Nat.eq_dec w v) as [E1|N].
  - rewrite E1, Nat.eqb_refl in F1, F2. rewrite E1, F1, F2. split; [auto|discriminate].
  - rewrite (F5 N). apply L.
Qed.

Lemma singleton_sound vs c v a y : mutables vs (ct_expr c) = [(v, a)] -> integral_when_fixed vs (ct_expr c) ->
  legal vs y -> satisfies c y ->
  match tighten_singleton vs c v a with
  | Ok (vs', _, _) => legal vs' y
  | Throw => False
  | UB => True
  end.
Proof.
  intros Hm Hi L S. destruct (mut_var _ _ _ _ Hm) as [Iv Fv].
  assert (B : (va_lower (vs v) <= y v <= va_upper (vs v))%Z) by (apply L; exact Fv).
  assert (Hy : forall w, va_fixed (vs w) = true -> y w = va_value (vs w)) by (intros w; apply L).
  pose proof (single_iff vs c v a y Hi Hm Hy) as SI. unfold tighten_singleton. fold (root vs c a).
  assert (C1 : (y v <= Qfloor (root vs c a))%Z -> match bind (cut_upper vs v (root vs c a) (va_lower (vs v)) (va_upper (vs v))) (fun r => Ok (fst r, true, snd r)) with Ok (vs', _, _) => legal vs' y | Throw => False | UB => True end).
  { intros H. pose proof (cut_upper_keeps vs v (root vs c a) _ _ y Fv L B H) as K.
    destruct (cut_upper _ _ _ _ _) as [[vs' u]| |]; cbn [bind fst]; [apply K|exact K|exact K]. }
  assert (C2 : (Qceiling (root vs c a) <= y v)%Z -> match bind (raise_lower vs v (root vs c a) (va_lower (vs v)) (va_upper (vs v))) (fun r => Ok (fst r, true, snd r)) with Ok (vs', _, _) => legal vs' y | Throw => False | UB => True end).
  { intros H. pose proof (raise_lower_keeps vs v (root vs c a) _ _ y Fv L B H) as K.
    destruct (raise_lower _ _ _ _ _) as [[vs' u]| |]; cbn [bind fst]; [apply K|exact K|exact K]. }
  destruct (ct_sense c) eqn:Es.
  - destruct (Qlt_le_dec 0 a) as [P|P].
    + apply C1, floor_above. apply SI; [lra|exact S].
    + destruct (Qlt_le_dec a 0) as [P'|P']; [|exact L]. apply C2, ceil_below. apply SI; [lra|exact S].
  - destruct (Qeq_bool a 0) eqn:Z0; [exact I|]. apply Qeq_bool_neq in Z0. apply (SI Z0) in S.
    symmetry in S. apply Qtrunc_Z in S. rewrite S. unfold to_int. destruct (_ && _)%bool; cbn [bind]; [|exact I].
    now apply legal_fix.
  - destruct (Qlt_le_dec a 0) as [P|P].
    + apply C1, floor_above. destruct (Qlt_le_dec 0 a); [lra|]. apply SI; [lra|exact S].
    + destruct (Qlt_le_dec 0 a) as [P'|P']; [|exact L]. apply C2, ceil_below. apply SI; [lra|exact S].
Qed.

(** * C26: no legal satisfying assignment is lost, and an exception means there is none *)
Lemma tighten_sound vs c y : wf (ct_expr c) ->
  (length (mutables vs (ct_expr c)) = 1%nat -> integral_when_fixed vs (ct_expr c)) ->
  legal vs y -> satisfies c y ->
  match tighten vs c with Ok (vs', _, _) => legal vs' y | Throw => False | UB => True end.
Proof.
  intros W Hi L S. unfold tighten. cbv zeta. destruct (always_satisfied _ _ _); [exact L|].
  pose proof (general_sound vs c y W L S) as G. cbv zeta in G.
  destruct (mutables vs (ct_expr c)) as [|[v a] [|p l]] eqn:Hm.
  - exact G.
  - apply singleton_sound; auto.
  - exact G.
Qed.

(** * C27 *)
Lemma always_sound vs c y : legal vs y ->
  always_satisfied c (e_lower (ct_expr c) (vi_of vs)) (e_upper (ct_expr c) (vi_of vs)) = true -> satisfies c y.
Proof.
  intros L. pose proof (lower_bound_valid (ct_expr c) (vi_of vs) y L). pose proof (upper_bound_valid (ct_expr c) (vi_of vs) y L).
  unfold always_satisfied, satisfies, holds. destruct (ct_sense c); intros A.
  - apply Qle_bool_iff in A. lra.
  - apply andb_true_iff in A as [A B]. apply Qeq_bool_iff in A, B. lra.
  - apply Qle_bool_iff in A. lra.
Qed.

Lemma general_not_disabled vs c vs' u :
  let e := ct_expr c in let L := e_lower e (vi_of vs) in let U := e_upper e (vi_of vs) in
  bind (each (tighten_positive c L U) (positive_mutables vs e) (vs, false)) (fun s =>
        bind (each (tighten_negative c L U) (negative_mutables vs e) s) (fun s => Ok (fst s, false, snd s))) <> Ok (vs', true, u).
Proof.
  cbv zeta. destruct (each _ (positive_mutables _ _) _) as [s| |]; cbn [bind]; try discriminate.
  destruct (each _ (negative_mutables _ _) _) as [s'| |]; cbn [bind]; discriminate.
Qed.

Definition near (vs : vars) (c : constr) (v : nat) (a : Q) : Prop :=
  (ct_sense c = Equal -> exists z, inject_Z z == root vs c a) /\
  (match ct_sense c with Less => 0 < a | Greater => a < 0 | Equal => False end ->
   (va_upper (vs v) <= Qfloor (root vs c a) \/ Z.abs (Qfloor (root vs c a)) < BOUND_LIMIT)%Z) /\
  (match ct_sense c with Less => a < 0 | Greater => 0 < a | Equal => False end ->
   (Qceiling (root vs c a) <= va_lower (vs v) \/ Z.abs (Qceiling (root vs c a)) < BOUND_LIMIT)%Z).

Lemma legal_bound_fixed vs v lo hi y : va_fixed (vs v) = false -> (lo <= hi)%Z -> legal (bounded vs v lo hi) y ->
  (lo <= y v <= hi)%Z /\ forall w, va_fixed (vs w) = true -> y w = va_value (vs w).
Proof.
  intros F H L. split.
  - destruct (bounded_facts vs v lo hi v H) as (F1 & F2 & F3 & _). destruct (L v) as [_ L2].
    rewrite F1, F2, F3, Nat.eqb_refl in L2. auto.
  - intros w Fw. destruct (bounded_facts vs v lo hi w H) as (F1 & F2 & F3 & F4).
    assert (N : w <> v) by (intros ->; congruence). destruct (L w) as [L1 _]. rewrite (F4 N) in L1. auto.
Qed.

Lemma singleton_removed vs c v a vs' u y : mutables vs (ct_expr c) = [(v, a)] -> integral_when_fixed vs (ct_expr c) ->
  near vs c v a -> tighten_singleton vs c v a = Ok (vs', true, u) -> legal vs' y -> satisfies c y.
Proof.
  intros Hm Hi (Hn1 & Hn2 & Hn3). destruct (mut_var _ _ _ _ Hm) as [Iv Fv].
  unfold tighten_singleton. fold (root vs c a). set (t := root vs c a) in *.
  assert (C1 : (va_upper (vs v) <= Qfloor t \/ Z.abs (Qfloor t) < BOUND_LIMIT)%Z -> bind (cut_upper vs v t (va_lower (vs v)) (va_upper (vs v))) (fun r => Ok (fst r, true, snd r)) = Ok (vs', true, u) ->
    legal vs' y -> inject_Z (y v) <= t /\ forall w, va_fixed (vs w) = true -> y w = va_value (vs w)).
  { intros N. pose proof (cut_upper_cases vs v t (va_lower (vs v)) (va_upper (vs v))) as C.
    destruct (cut_upper _ _ _ _ _) as [[vs1 u1]| |]; cbn [bind fst snd]; try discriminate.
    intros E L. injection E as -> ->. destruct C as [(-> & _ & C)|(-> & _ & C & _)].
    - split; [|intros w; apply L]. apply floor_le. destruct (L v) as [_ L2]. specialize (L2 Fv). lia.
    - destruct (legal_bound_fixed vs v (va_lower (vs v)) (Qfloor t) y Fv ltac:(lia) L) as [L1 L2]. split; [apply floor_le; lia|exact L2]. }
  assert (C2 : (Qceiling t <= va_lower (vs v) \/ Z.abs (Qceiling t) < BOUND_LIMIT)%Z -> bind (raise_lower vs v t (va_lower (vs v)) (va_upper (vs v))) (fun r => Ok (fst r, true, snd r)) = Ok (vs', true, u) ->
    legal vs' y -> t <= inject_Z (y v) /\ forall w, va_fixed (vs w) = true -> y w = va_value (vs w)).
  { intros N. pose proof (raise_lower_cases vs v t (va_lower (vs v)) (va_upper (vs v))) as C.
    destruct (raise_lower _ _ _ _ _) as [[vs1 u1]| |]; cbn [bind fst snd]; try discriminate.
    intros E L. injection E as -> ->. destruct C as [(-> & _ & C)|(-> & _ & C & _)].
    - split; [|intros w; apply L]. apply ceil_le. destruct (L v) as [_ L2]. specialize (L2 Fv). lia.
    - destruct (legal_bound_fixed vs v (Qceiling t) (va_upper (vs v)) y Fv ltac:(lia) L) as [L1 L2]. split; [apply ceil_le; lia|exact L2]. }
  destruct (ct_sense c) eqn:Es.
  - destruct (Qlt_le_dec 0 a) as [P|P].
    + intros E L. destruct (C1 (Hn2 P) E L) as [L1 L2]. apply (single_iff vs c v a y Hi Hm L2); [lra|].
      rewrite Es. destruct (Qlt_le_dec 0 a); [exact L1|lra].
    + destruct (Qlt_le_dec a 0) as [P'|P']; [|discriminate].
      intros E L. destruct (C2 (Hn3 P') E L) as [L1 L2]. apply (single_iff vs c v a y Hi Hm L2); [lra|].
      rewrite Es. destruct (Qlt_le_dec 0 a); [lra|exact L1].
  - destruct (Qeq_bool a 0) eqn:Z0; [discriminate|]. apply Qeq_bool_neq in Z0. destruct (Hn1 eq_refl) as (z & Hz).
    symmetry in Hz. rewrite (Qtrunc_Z _ _ Hz). unfold to_int. destruct (_ && _)%bool; cbn [bind]; [|discriminate].
    intros E L. injection E as <- <-.
    assert (Yv : y v = z).
    { destruct (fix_by_facts vs v z v) as (F1 & F2 & _). destruct (L v) as [L1 _].
      rewrite F1, F2, Nat.eqb_refl in L1. auto. }
    assert (Hy : forall w, va_fixed (vs w) = true -> y w = va_value (vs w)).
    { intros w Fw. destruct (fix_by_facts vs v z w) as (F1 & F2 & F3 & F4 & F5).
      assert (N : w <> v) by (intros ->; congruence). destruct (L w) as [L1 _]. rewrite (F5 N) in L1. auto. }
    apply (single_iff vs c v a y Hi Hm Hy Z0). rewrite Es, Yv. symmetry. exact Hz.
  - destruct (Qlt_le_dec a 0) as [P|P].
    + intros E L. destruct (C1 (Hn2 P) E L) as [L1 L2]. apply (single_iff vs c v a y Hi Hm L2); [lra|].
      rewrite Es. destruct (Qlt_le_dec 0 a); [lra|exact L1].
    + destruct (Qlt_le_dec 0 a) as [P'|P']; [|discriminate].
      intros E L. destruct (C2 (Hn3 P') E L) as [L1 L2]. apply (single_iff vs c v a y Hi Hm L2); [lra|].
      rewrite Es. destruct (Qlt_le_dec 0 a); [exact L1|lra].
Qed.

Lemma removed_many vs c vs' u y : length (mutables vs (ct_expr c)) <> 1%nat ->
  tighten vs c = Ok (vs', true, u) -> vs' = vs /\ (legal vs y -> satisfies c y).
Proof.
  intros N. unfold tighten. cbv zeta. destruct (always_satisfied _ _ _) eqn:A.
  - intros E. injection E as <- <-. split; [reflexivity|]. intros L. now apply (always_sound vs).
  - pose proof (general_not_disabled vs c vs' u) as G. cbv zeta in G.
    destruct (mutables vs (ct_expr c)) as [|[v a] [|p l]] eqn:Hm; intros E; try contradiction.
Qed.

(** Feasible constraints over moderate bounds: the threshold is near. *)
Lemma feasible_near vs c v a y0 : mutables vs (ct_expr c) = [(v, a)] -> integral_when_fixed vs (ct_expr c) ->
  moderate vs -> legal vs y0 -> satisfies c y0 -> ~ a == 0 ->
  near vs c v a.
Proof.
  intros Hm Hi M L S Ha. destruct (mut_var _ _ _ _ Hm) as [Iv Fv]. destruct (M v Fv) as [M1 M2].
  assert (B : (va_lower (vs v) <= y0 v <= va_upper (vs v))%Z) by (apply L; exact Fv).
  assert (Hy : forall w, va_fixed (vs w) = true -> y0 w = va_value (vs w)) by (intros w; apply L).
  apply (single_iff vs c v a y0 Hi Hm Hy Ha) in S. unfold near, BOUND_LIMIT in *. destruct (ct_sense c).
  - split; [discriminate|]. destruct (Qlt_le_dec 0 a) as [P|P]; split; intros Q; try lra.
    + apply floor_above in S. lia.
    + apply ceil_below in S. lia.
  - split; [intros _; exists (y0 v); exact S|]. split; intros [].
  - split; [discriminate|]. destruct (Qlt_le_dec 0 a) as [P|P]; split; intros Q; try lra.
    + apply ceil_below in S. lia.
    + apply floor_above in S. lia.
Qed.
