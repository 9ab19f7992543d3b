From Coq Require Import List ZArith QArith Qabs Qround Qfield Bool Lia Lqa.
From Verif Require Import ExprModel ExprSpec ExprProof ConstraintModel ConstraintSpec VariableModel TypeSpec
  TypeProof PresolveModel PresolveSpec.
Import ListNotations.
Local Open Scope Q_scope.

Lemma legal_admissible vs y : legal vs y <-> admissible (vi_of vs) y.
Proof. reflexivity. Qed.

(** * Slack of the activity bounds *)
Definition up (vi : nat -> vinfo) (p : nat * Q) : Z :=
  if vi_fixed (vi (fst p)) then vi_value (vi (fst p))
  else if Qlt_le_dec 0 (snd p) then vi_upper (vi (fst p)) else vi_lower (vi (fst p)).
Definition down (vi : nat -> vinfo) (p : nat * Q) : Z :=
  if vi_fixed (vi (fst p)) then vi_value (vi (fst p))
  else if Qlt_le_dec 0 (snd p) then vi_lower (vi (fst p)) else vi_upper (vi (fst p)).

Lemma term_up vi y p : admissible vi y -> snd p * inject_Z (y (fst p)) <= snd p * inject_Z (up vi p).
Proof.
  intros H. unfold up. destruct (H (fst p)) as [H1 H2]. destruct (vi_fixed _); [rewrite (H1 eq_refl); lra|].
  destruct (H2 eq_refl) as [A B]. apply inject_Z_le' in A, B. destruct (Qlt_le_dec 0 (snd p)).
  - apply Qmul_le_pos; lra.
  - apply Qmul_le_neg; lra.
Qed.
Lemma term_down vi y p : admissible vi y -> snd p * inject_Z (down vi p) <= snd p * inject_Z (y (fst p)).
Proof.
  intros H. unfold down. destruct (H (fst p)) as [H1 H2]. destruct (vi_fixed _); [rewrite (H1 eq_refl); lra|].
  destruct (H2 eq_refl) as [A B]. apply inject_Z_le' in A, B. destruct (Qlt_le_dec 0 (snd p)).
  - apply Qmul_le_pos; lra.
  - apply Qmul_le_neg; lra.
Qed.

Fixpoint bound_sum (f : nat * Q -> Z) (s : sens) : Q :=
  match s with [] => 0 | p :: tl => snd p * inject_Z (f p) + bound_sum f tl end.
Lemma upper_sum e vi : e_upper e vi == ex_const e + bound_sum (up vi) (ex_sens e).
Proof.
  unfold e_upper. rewrite upper_fold. apply Qplus_inj_l. induction (ex_sens e) as [|p tl IH]; [reflexivity|].
  cbn [fold_right bound_sum]. rewrite IH. reflexivity.
Qed.
Lemma lower_sum e vi : e_lower e vi == ex_const e + bound_sum (down vi) (ex_sens e).
Proof.
  unfold e_lower. rewrite lower_fold. apply Qplus_inj_l. induction (ex_sens e) as [|p tl IH]; [reflexivity|].
  cbn [fold_right bound_sum]. rewrite IH. reflexivity.
Qed.

Lemma sum_up vi y s : admissible vi y -> lin s y <= bound_sum (up vi) s.
Proof.
  intros H. induction s as [|[v a] tl IH]; cbn [lin bound_sum fst snd]; [lra|].
  pose proof (term_up vi y (v, a) H) as T. cbn [fst snd] in T. lra.
Qed.
Lemma sum_down vi y s : admissible vi y -> bound_sum (down vi) s <= lin s y.
Proof.
  intros H. induction s as [|[v a] tl IH]; cbn [lin bound_sum fst snd]; [lra|].
  pose proof (term_down vi y (v, a) H) as T. cbn [fst snd] in T. lra.
Qed.
Lemma slack_up vi y s p : admissible vi y -> In p s ->
  lin s y - snd p * inject_Z (y (fst p)) + snd p * inject_Z (up vi p) <= bound_sum (up vi) s.
Proof.
  intros H. induction s as [|[v a] tl IH]; cbn [In]; [tauto|]. cbn [lin bound_sum fst snd].
  intros [<-|I].
  - pose proof (sum_up vi y tl H). cbn [fst snd]. lra.
  - specialize (IH I). pose proof (term_up vi y (v, a) H) as T. cbn [fst snd] in T. lra.
Qed.
Lemma slack_down vi y s p : admissible vi y -> In p s ->
  bound_sum (down vi) s <= lin s y - snd p * inject_Z (y (fst p)) + snd p * inject_Z (down vi p).
Proof.
  intros H. induction s as [|[v a] tl IH]; cbn [In]; [tauto|]. cbn [lin bound_sum fst snd].
  intros [<-|I].
  - pose proof (sum_down vi y tl H). cbn [fst snd]. lra.
  - specialize (IH I). pose proof (term_down vi y (v, a) H) as T. cbn [fst snd] in T. lra.
Qed.

(** * Rounding *)
Lemma ceil_below q z : q <= inject_Z z -> (Qceiling q <= z)%Z.
Proof. intros H. apply Qceiling_resp_le in H. now rewrite Qceiling_Z in H. Qed.
Lemma floor_above q z : inject_Z z <= q -> (z <= Qfloor q)%Z.
Proof. intros H. apply Qfloor_resp_le in H. now rewrite Qfloor_Z in H. Qed.
Lemma ceil_le q z : (Qceiling q <= z)%Z -> q <= inject_Z z.
Proof. intros H. pose proof (Qle_ceiling q). apply inject_Z_le' in H. lra. Qed.
Lemma floor_le q z : (z <= Qfloor q)%Z -> inject_Z z <= q.
Proof. intros H. pose proof (Qfloor_le q). apply inject_Z_le' in H. lra. Qed.

(** n / a against z. *)
Lemma div_pos_le n a z : 0 < a -> (n / a <= z <-> n <= a * z).
Proof.
  intros H. split; intros L.
  - assert (E : n == a * (n / a)) by (field; lra). rewrite E. apply Qmul_le_pos; lra.
  - apply Qle_shift_div_r; lra.
Qed.
Lemma div_pos_ge n a z : 0 < a -> (z <= n / a <-> a * z <= n).
Proof.
  intros H. split; intros L.
  - assert (E : n == a * (n / a)) by (field; lra). rewrite E. apply Qmul_le_pos; lra.
  - apply Qle_shift_div_l; lra.
Qed.
Lemma div_neg n a : a < 0 -> n / a == (- n) / (- a).
Proof. intros. field. lra. Qed.
Lemma div_neg_le n a z : a < 0 -> (n / a <= z <-> a * z <= n).
Proof. intros H. rewrite (div_neg _ _ H), div_pos_le by lra. split; lra. Qed.
Lemma div_neg_ge n a z : a < 0 -> (z <= n / a <-> n <= a * z).
Proof. intros H. rewrite (div_neg _ _ H), div_pos_ge by lra. split; lra. Qed.

(** * set_bound and fix_by *)
Definition bounded (vs : vars) (v : nat) (lo hi : Z) : vars :=
  set_var vs v (match v_step (vs v) (VSetBound lo hi) with Some a => a | None => vs v end).
Lemma set_bound_ok vs v lo hi : do_set_bound vs v lo hi = if (hi <? lo)%Z then Throw else Ok (bounded vs v lo hi).
Proof. unfold do_set_bound, bounded. cbn. destruct (hi <? lo)%Z; reflexivity. Qed.
Lemma bounded_facts vs v lo hi w : (lo <= hi)%Z ->
  va_fixed (bounded vs v lo hi w) = va_fixed (vs w) /\
  va_lower (bounded vs v lo hi w) = (if Nat.eqb w v then lo else va_lower (vs w)) /\
  va_upper (bounded vs v lo hi w) = (if Nat.eqb w v then hi else va_upper (vs w)) /\
  (w <> v -> bounded vs v lo hi w = vs w).
Proof.
  intros H. unfold bounded, set_var. cbn. destruct (Z.ltb_spec hi lo); [lia|].
  destruct (Nat.eqb_spec w v) as [->|N]; cbn; repeat split; auto. congruence.
Qed.
Lemma fix_by_facts vs v a w :
  va_fixed (do_fix_by vs v a w) = (if Nat.eqb w v then true else va_fixed (vs w)) /\
  va_value (do_fix_by vs v a w) = (if Nat.eqb w v then a else va_value (vs w)) /\
  va_lower (do_fix_by vs v a w) = va_lower (vs w) /\
  va_upper (do_fix_by vs v a w) = va_upper (vs w) /\
  (w <> v -> do_fix_by vs v a w = vs w).
Proof.
  unfold do_fix_by, set_var. cbn. destruct (Nat.eqb_spec w v) as [->|N]; cbn; repeat split; auto. congruence.
Qed.

Lemma to_int_ok z r : to_int z = Ok r -> r = z.
Proof. unfold to_int. destruct (_ && _)%bool; congruence. Qed.
Lemma to_int_throw z : to_int z <> Throw.
Proof. unfold to_int. destruct (_ && _)%bool; discriminate. Qed.

(** What one bound update can do. *)
Lemma raise_lower_cases vs v q lb ub :
  match raise_lower vs v q lb ub with
  | Ok (vs', u) => (vs' = vs /\ u = false /\ ((Qceiling q <= lb)%Z \/ (BOUND_LIMIT <= Z.abs (Qceiling q))%Z)) \/
                   (vs' = bounded vs v (Qceiling q) ub /\ u = true /\ (lb < Qceiling q <= ub)%Z /\
                    (Z.abs (Qceiling q) < BOUND_LIMIT)%Z)
  | Throw => (lb < Qceiling q /\ ub < Qceiling q)%Z
  | UB => (Qceiling q < INT_MIN \/ INT_MAX < Qceiling q \/ Qceiling q = INT_MIN)%Z
  end.
Proof.
  unfold raise_lower, to_int. set (z := Qceiling q).
  destruct ((INT_MIN <=? z)%Z && (z <=? INT_MAX)%Z)%bool eqn:R; cbn [bind]; [|apply andb_false_iff in R; lia].
  destruct (Z.ltb_spec lb z); [|left; repeat split; lia].
  destruct (Z.eqb_spec z INT_MIN); [lia|].
  destruct (Z.ltb_spec (Z.abs z) BOUND_LIMIT); [|left; repeat split; lia].
  rewrite set_bound_ok. destruct (Z.ltb_spec ub z); cbn [bind]; [lia|]. right. repeat split; lia.
Qed.
Lemma cut_upper_cases vs v q lb ub :
  match cut_upper vs v q lb ub with
  | Ok (vs', u) => (vs' = vs /\ u = false /\ ((ub <= Qfloor q)%Z \/ (BOUND_LIMIT <= Z.abs (Qfloor q))%Z)) \/
                   (vs' = bounded vs v lb (Qfloor q) /\ u = true /\ (lb <= Qfloor q < ub)%Z /\
                    (Z.abs (Qfloor q) < BOUND_LIMIT)%Z)
  | Throw => (Qfloor q < lb /\ Qfloor q < ub)%Z
  | UB => (Qfloor q < INT_MIN \/ INT_MAX < Qfloor q \/ Qfloor q = INT_MIN)%Z
  end.
Proof.
  unfold cut_upper, to_int. set (z := Qfloor q).
  destruct ((INT_MIN <=? z)%Z && (z <=? INT_MAX)%Z)%bool eqn:R; cbn [bind]; [|apply andb_false_iff in R; lia].
  destruct (Z.ltb_spec z ub); [|left; repeat split; lia].
  destruct (Z.eqb_spec z INT_MIN); [lia|].
  destruct (Z.ltb_spec (Z.abs z) BOUND_LIMIT); [|left; repeat split; lia].
  rewrite set_bound_ok. destruct (Z.ltb_spec z lb); cbn [bind]; [lia|]. right. repeat split; lia.
Qed.

Lemma legal_bounded vs v lo hi y : va_fixed (vs v) = false -> legal vs y -> (lo <= y v <= hi)%Z ->
  legal (bounded vs v lo hi) y.
Proof.
  intros F L B w. destruct (bounded_facts vs v lo hi w ltac:(lia)) as (F1 & F2 & F3 & F4).
  destruct (Nat.eqb_spec w v) as [->|N].
  - split; rewrite F1; intros E; [congruence|]. rewrite F2, F3. exact B.
  - rewrite (F4 N). apply L.
Qed.

Definition others_same (v : nat) (vs vs' : vars) : Prop := forall w, w <> v -> vs' w = vs w.
Definition fixed_same (vs vs' : vars) : Prop := forall w, va_fixed (vs' w) = va_fixed (vs w).
Lemma bounded_others vs v lo hi : (lo <= hi)%Z -> others_same v vs (bounded vs v lo hi) /\ fixed_same vs (bounded vs v lo hi).
Proof. intros H. split; intros w; apply (bounded_facts vs v lo hi w H). Qed.

Lemma raise_lower_keeps vs v q lb ub y : va_fixed (vs v) = false -> legal vs y -> (lb <= y v <= ub)%Z ->
  (Qceiling q <= y v)%Z ->
  match raise_lower vs v q lb ub with
  | Ok (vs', _) => legal vs' y /\ others_same v vs vs' /\ fixed_same vs vs'
  | Throw => False
  | UB => True
  end.
Proof.
  intros F L B H. pose proof (raise_lower_cases vs v q lb ub) as C.
  destruct (raise_lower vs v q lb ub) as [[vs' u]| |]; [|lia|trivial].
  destruct C as [(-> & _)|(-> & _ & R & _)].
  - split; [exact L|]. split; intros w; reflexivity.
  - split; [apply legal_bounded; auto; lia|]. apply bounded_others. lia.
Qed.
Lemma cut_upper_keeps vs v q lb ub y : va_fixed (vs v) = false -> legal vs y -> (lb <= y v <= ub)%Z ->
  (y v <= Qfloor q)%Z ->
  match cut_upper vs v q lb ub with
  | Ok (vs', _) => legal vs' y /\ others_same v vs vs' /\ fixed_same vs vs'
  | Throw => False
  | UB => True
  end.
Proof.
  intros F L B H. pose proof (cut_upper_cases vs v q lb ub) as C.
  destruct (cut_upper vs v q lb ub) as [[vs' u]| |]; [|lia|trivial].
  destruct C as [(-> & _)|(-> & _ & R & _)].
  - split; [exact L|]. split; intros w; reflexivity.
  - split; [apply legal_bounded; auto; lia|]. apply bounded_others. lia.
Qed.

(** * The general path *)
Section General.
  Variables (vs0 : vars) (c : constr) (y : nat -> Z).
  Hypothesis L0 : legal vs0 y.
  Hypothesis Sat : satisfies c y.
  Let e := ct_expr c.
  Let L := e_lower e (vi_of vs0).
  Let U := e_upper e (vi_of vs0).

  Lemma value_ge : ct_ge c = true -> 0 <= ex_const e + lin (ex_sens e) y.
  Proof. unfold e. rewrite <- eval_lin. unfold ct_ge. generalize Sat. unfold satisfies, holds.
    destruct (ct_sense c); try discriminate; intros S _; lra. Qed.
  Lemma value_le : ct_le c = true -> ex_const e + lin (ex_sens e) y <= 0.
  Proof. unfold e. rewrite <- eval_lin. unfold ct_le. generalize Sat. unfold satisfies, holds.
    destruct (ct_sense c); try discriminate; intros S _; lra. Qed.

  Lemma up_of v a : In (v, a) (ex_sens e) -> va_fixed (vs0 v) = false ->
    ex_const e + lin (ex_sens e) y - a * inject_Z (y v) +
    a * inject_Z (if Qlt_le_dec 0 a then va_upper (vs0 v) else va_lower (vs0 v)) <= U.
  Proof.
    intros I F. unfold U. rewrite upper_sum. pose proof (slack_up (vi_of vs0) y _ (v, a) L0 I) as S.
    assert (E : up (vi_of vs0) (v, a) = if Qlt_le_dec 0 a then va_upper (vs0 v) else va_lower (vs0 v)).
    { unfold up. cbn [fst snd vi_of vi_fixed vi_upper vi_lower]. now rewrite F. }
    rewrite E in S. cbn [fst snd] in S. lra.
  Qed.
  Lemma down_of v a : In (v, a) (ex_sens e) -> va_fixed (vs0 v) = false ->
    L <= ex_const e + lin (ex_sens e) y - a * inject_Z (y v) +
    a * inject_Z (if Qlt_le_dec 0 a then va_lower (vs0 v) else va_upper (vs0 v)).
  Proof.
    intros I F. unfold L. rewrite lower_sum. pose proof (slack_down (vi_of vs0) y _ (v, a) L0 I) as S.
    assert (E : down (vi_of vs0) (v, a) = if Qlt_le_dec 0 a then va_lower (vs0 v) else va_upper (vs0 v)).
    { unfold down. cbn [fst snd vi_of vi_fixed vi_upper vi_lower]. now rewrite F. }
    rewrite E in S. cbn [fst snd] in S. lra.
  Qed.

  Lemma pos_ge v a : In (v, a) (ex_sens e) -> va_fixed (vs0 v) = false -> 0 < a -> ct_ge c = true ->
    (Qceiling (- (U - a * inject_Z (va_upper (vs0 v))) / a) <= y v)%Z.
  Proof.
    intros I F P G. apply ceil_below. apply div_pos_le; [exact P|].
    pose proof (up_of v a I F) as S. destruct (Qlt_le_dec 0 a); [|lra]. pose proof (value_ge G). lra.
  Qed.
  Lemma pos_le v a : In (v, a) (ex_sens e) -> va_fixed (vs0 v) = false -> 0 < a -> ct_le c = true ->
    (y v <= Qfloor (- (L - a * inject_Z (va_lower (vs0 v))) / a))%Z.
  Proof.
    intros I F P G. apply floor_above. apply div_pos_ge; [exact P|].
    pose proof (down_of v a I F) as S. destruct (Qlt_le_dec 0 a); [|lra]. pose proof (value_le G). lra.
  Qed.
  Lemma neg_ge v a : In (v, a) (ex_sens e) -> va_fixed (vs0 v) = false -> a < 0 -> ct_ge c = true ->
    (y v <= Qfloor (- (U - a * inject_Z (va_lower (vs0 v))) / a))%Z.
  Proof.
    intros I F P G. apply floor_above. apply div_neg_ge; [exact P|].
    pose proof (up_of v a I F) as S. destruct (Qlt_le_dec 0 a); [lra|]. pose proof (value_ge G). lra.
  Qed.
  Lemma neg_le v a : In (v, a) (ex_sens e) -> va_fixed (vs0 v) = false -> a < 0 -> ct_le c = true ->
    (Qceiling (- (L - a * inject_Z (va_upper (vs0 v))) / a) <= y v)%Z.
  Proof.
    intros I F P G. apply ceil_below. apply div_neg_le; [exact P|].
    pose proof (down_of v a I F) as S. destruct (Qlt_le_dec 0 a); [lra|]. pose proof (value_le G). lra.
  Qed.

  Definition kept (todo : sens) (vs : vars) : Prop :=
    legal vs y /\ fixed_same vs0 vs /\ forall v, In v (map fst todo) -> vs v = vs0 v.

  Lemma step_positive p tl vs u : NoDup (map fst (p :: tl)) -> In p (ex_sens e) -> va_fixed (vs0 (fst p)) = false ->
    0 < snd p -> kept (p :: tl) vs ->
    match tighten_positive c L U (vs, u) p with
    | Ok s => kept tl (fst s) | Throw => False | UB => True
    end.
  Proof.
    destruct p as [v a]. cbn [fst snd map]. intros ND I F P (K1 & K2 & K3).
    inversion ND as [|? ? Hni Hnd]; subst.
    assert (E : vs v = vs0 v) by (apply K3; now left).
    assert (Fv : va_fixed (vs v) = false) by now rewrite E.
    assert (B : (va_lower (vs v) <= y v <= va_upper (vs v))%Z) by (apply K1; exact Fv).
    unfold tighten_positive.
    assert (G : forall w, In w (map fst tl) -> w <> v) by (intros w Hw ->; contradiction).
    assert (A1 : match (if ct_ge c then raise_lower vs v (- (U - a * inject_Z (va_upper (vs v))) / a) (va_lower (vs v)) (va_upper (vs v)) else Ok (vs, false)) with
                 | Ok (vs', _) => legal vs' y /\ others_same v vs vs' /\ fixed_same vs vs' | Throw => False | UB => True end).
    { destruct (ct_ge c) eqn:Ge; [|split; [exact K1|split; intros w; reflexivity]].
      apply raise_lower_keeps; auto. rewrite E. now apply pos_ge. }
    destruct (if ct_ge c then _ else _) as [[vs1 u1]| |]; [|contradiction|exact Logic.I]. cbn [bind fst snd].
    destruct A1 as (L1 & O1 & S1).
    assert (A2 : match (if ct_le c then cut_upper vs1 v (- (L - a * inject_Z (va_lower (vs v))) / a) (va_lower (vs v)) (va_upper (vs v)) else Ok (vs1, false)) with
                 | Ok (vs', _) => legal vs' y /\ others_same v vs1 vs' /\ fixed_same vs1 vs' | Throw => False | UB => True end).
    { destruct (ct_le c) eqn:Le; [|split; [exact L1|split; intros w; reflexivity]].
      apply cut_upper_keeps; auto; [rewrite S1; exact Fv|]. rewrite E. now apply pos_le. }
    destruct (if ct_le c then _ else _) as [[vs2 u2]| |]; [|contradiction|exact Logic.I]. cbn [bind fst snd].
    destruct A2 as (L2 & O2 & S2). split; [exact L2|]. split.
    - intros w. rewrite S2, S1. apply K2.
    - intros w Hw. rewrite O2, O1 by auto. apply K3. now right.
  Qed.
  Lemma step_negative p tl vs u : NoDup (map fst (p :: tl)) -> In p (ex_sens e) -> va_fixed (vs0 (fst p)) = false ->
    snd p <= 0 -> kept (p :: tl) vs ->
    match tighten_negative c L U (vs, u) p with
    | Ok s => kept tl (fst s) | Throw => False | UB => True
    end.
  Proof.
    destruct p as [v a]. cbn [fst snd map]. intros ND I F P (K1 & K2 & K3).
    inversion ND as [|? ? Hni Hnd]; subst.
    assert (E : vs v = vs0 v) by (apply K3; now left).
    assert (Fv : va_fixed (vs v) = false) by now rewrite E.
    assert (B : (va_lower (vs v) <= y v <= va_upper (vs v))%Z) by (apply K1; exact Fv).
    unfold tighten_negative.
    assert (G : forall w, In w (map fst tl) -> w <> v) by (intros w Hw ->; contradiction).
    destruct (Qeq_bool a 0) eqn:Z0; [exact Logic.I|]. apply Qeq_bool_neq in Z0.
    assert (P' : a < 0) by (apply Qle_lteq in P as [|]; [assumption|contradiction]).
    assert (A1 : match (if ct_ge c then cut_upper vs v (- (U - a * inject_Z (va_lower (vs v))) / a) (va_lower (vs v)) (va_upper (vs v)) else Ok (vs, false)) with
                 | Ok (vs', _) => legal vs' y /\ others_same v vs vs' /\ fixed_same vs vs' | Throw => False | UB => True end).
    { destruct (ct_ge c) eqn:Ge; [|split; [exact K1|split; intros w; reflexivity]].
      apply cut_upper_keeps; auto. rewrite E. now apply neg_ge. }
    destruct (if ct_ge c then _ else _) as [[vs1 u1]| |]; [|contradiction|exact Logic.I]. cbn [bind fst snd].
    destruct A1 as (L1 & O1 & S1).
    assert (A2 : match (if ct_le c then raise_lower vs1 v (- (L - a * inject_Z (va_upper (vs v))) / a) (va_lower (vs v)) (va_upper (vs v)) else Ok (vs1, false)) with
                 | Ok (vs', _) => legal vs' y /\ others_same v vs1 vs' /\ fixed_same vs1 vs' | Throw => False | UB => True end).
    { destruct (ct_le c) eqn:Le; [|split; [exact L1|split; intros w; reflexivity]].
      apply raise_lower_keeps; auto; [rewrite S1; exact Fv|]. rewrite E. now apply neg_le. }
    destruct (if ct_le c then _ else _) as [[vs2 u2]| |]; [|contradiction|exact Logic.I]. cbn [bind fst snd].
    destruct A2 as (L2 & O2 & S2). split; [exact L2|]. split.
    - intros w. rewrite S2, S1. apply K2.
    - intros w Hw. rewrite O2, O1 by auto. apply K3. now right.
  Qed.

  Lemma each_kept (f : vars * bool -> nat * Q -> outcome (vars * bool)) (good : nat * Q -> Prop) rest :
    (forall p tl vs u, NoDup (map fst (p :: tl)) -> good p -> kept (p :: tl) vs ->
       match f (vs, u) p with Ok s => kept tl (fst s) | Throw => False | UB => True end) ->
    forall l s, NoDup (map fst (l ++ rest)) -> (forall p, In p l -> good p) -> kept (l ++ rest) (fst s) ->
    match each f l s with Ok s => kept rest (fst s) | Throw => False | UB => True end.
  Proof.
    intros Hf. induction l as [|p tl IH]; intros [vs u] ND Hg K; cbn [each]; [exact K|].
    cbn [app] in ND, K. specialize (Hf p (tl ++ rest) vs u ND (Hg p (or_introl eq_refl)) K).
    destruct (f (vs, u) p) as [s| |]; [|contradiction|exact Logic.I]. cbn [bind]. apply IH; auto.
    - cbn [map] in ND. now inversion ND.
    - intros q Hq. apply Hg. now right.
  Qed.
End General.

Lemma filter_in_mut (vs : vars) (e : expr) p : In p (mutables vs e) <-> In p (ex_sens e) /\ va_fixed (vs (fst p)) = false.
Proof. unfold mutables. rewrite filter_In, negb_true_iff. reflexivity. Qed.

Lemma nodup_filter_keys (g : nat * Q -> bool) s : NoDup (map fst s) -> NoDup (map fst (filter g s)).
Proof.
  induction s as [|p tl IH]; cbn [filter map]; intros H; [constructor|].
  inversion H as [|? ? Hni Hnd]; subst. destruct (g p); [|auto]. cbn [map]. constructor; [|auto].
  intros I. apply Hni. apply in_map_iff in I as (q & <- & I). apply in_map. apply filter_In in I. apply I.
Qed.
Lemma split_sign_nodup vs e : wf e -> NoDup (map fst (positive_mutables vs e ++ negative_mutables vs e)).
Proof.
  intros W. unfold positive_mutables, negative_mutables.
  assert (H : NoDup (map fst (mutables vs e))) by now apply nodup_filter_keys.
  induction (mutables vs e) as [|p tl IH]; cbn [filter map]; [constructor|].
  cbn [map] in H. inversion H as [|? ? Hni Hnd]; subst. specialize (IH Hnd).
  assert (NI : forall g h : nat * Q -> bool, ~ In (fst p) (map fst (filter g tl ++ filter h tl))).
  { intros g h I. apply Hni. rewrite map_app in I. apply in_app_or in I as [I|I];
    apply in_map_iff in I as (q & <- & I); apply in_map; apply filter_In in I; apply I. }
  destruct (Qlt_le_dec 0 (snd p)).
  - cbn [app map]. constructor; auto.
  - rewrite map_app in *. cbn [map]. apply NoDup_Add with (a := fst p) (l := map fst (filter (fun p0 => if Qlt_le_dec 0 (snd p0) then true else false) tl) ++ map fst (filter (fun p0 => if Qlt_le_dec 0 (snd p0) then false else true) tl)).
    + apply Add_app.
    + split; [exact IH|]. rewrite <- map_app. apply NI.
Qed.

Lemma general_sound vs c y : wf (ct_expr c) -> legal vs y -> satisfies c y ->
  let e := ct_expr c in let L := e_lower e (vi_of vs) in let U := e_upper e (vi_of vs) in
  match bind (each (tighten_positive c L U) (positive_mutables vs e) (vs, false)) (fun s =>
        bind (each (tighten_negative c L U) (negative_mutables vs e) s) (fun s => Ok (fst s, false, snd s))) with
  | Ok (vs', _, _) => legal vs' y
  | Throw => False
  | UB => True
  end.
Proof.
  intros W L S e Lo Up.
  pose proof (each_kept vs y (tighten_positive c Lo Up)
    (fun p => In p (ex_sens e) /\ va_fixed (vs (fst p)) = false /\ 0 < snd p) (negative_mutables vs e)) as H1.
  specialize (H1 (fun p tl vs' u ND g K => step_positive vs c y L S p tl vs' u ND (proj1 g) (proj1 (proj2 g)) (proj2 (proj2 g)) K)).
  specialize (H1 (positive_mutables vs e) (vs, false) (split_sign_nodup vs e W)).
  assert (G1 : forall p, In p (positive_mutables vs e) -> In p (ex_sens e) /\ va_fixed (vs (fst p)) = false /\ 0 < snd p).
  { intros p I. apply filter_In in I as [I G]. apply filter_in_mut in I. destruct (Qlt_le_dec 0 (snd p)); [tauto|discriminate]. }
  specialize (H1 G1). 
  assert (K0 : kept vs y (positive_mutables vs e ++ negative_mutables vs e) vs).
  { split; [exact L|]. split; [intros w; reflexivity|auto]. }
  specialize (H1 K0). destruct (each (tighten_positive c Lo Up) _ _) as [s| |]; [|contradiction|exact I]. cbn [bind].
  pose proof (each_kept vs y (tighten_negative c Lo Up)
    (fun p => In p (ex_sens e) /\ va_fixed (vs (fst p)) = false /\ snd p <= 0) []) as H2.
  specialize (H2 (fun p tl vs' u ND g K => step_negative vs c y L S p tl vs' u ND (proj1 g) (proj1 (proj2 g)) (proj2 (proj2 g)) K)).
  specialize (H2 (negative_mutables vs e) s). rewrite app_nil_r in H2.
  assert (ND : NoDup (map fst (negative_mutables vs e))) by (apply nodup_filter_keys, nodup_filter_keys; exact W).
  assert (G2 : forall p, In p (negative_mutables vs e) -> In p (ex_sens e) /\ va_fixed (vs (fst p)) = false /\ snd p <= 0).
  { intros p I. apply filter_In in I as [I G]. apply filter_in_mut in I. destruct (Qlt_le_dec 0 (snd p)); [discriminate|tauto]. }
  specialize (H2 ND G2 H1). destruct (each (tighten_negative c Lo Up) _ _) as [s'| |]; [|contradiction|exact I].
  cbn [bind fst snd]. apply H2.
Qed.
