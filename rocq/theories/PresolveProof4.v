From Coq Require Import List ZArith QArith Qabs Qround Qfield Bool Lia Lqa Arith.
From Verif Require Import ExprModel ExprSpec ExprProof ConstraintModel ConstraintSpec VariableModel TypeSpec
  TypeProof PresolveModel PresolveSpec PresolveProof PresolveProof2 PresolveProof3.
Import ListNotations.
Local Open Scope Q_scope.

(** * No undefined behaviour on tame constraints *)
Lemma Qabs_lt_inv q b : - b <= q -> q <= b -> Qabs q <= b.
Proof. intros. apply Qabs_Qle_condition. split; lra. Qed.
Lemma abs_sum_nonneg s : 0 <= abs_sum s.
Proof. induction s as [|p tl IH]; cbn [abs_sum]; [lra|]. pose proof (Qabs_nonneg (snd p)). lra. Qed.
Lemma term_abs a z : (Z.abs z <= BOUND_LIMIT)%Z -> Qabs (a * inject_Z z) <= inject_Z BOUND_LIMIT * Qabs a.
Proof.
  intros H. rewrite Qabs_Qmult, Qmult_comm. pose proof (Qabs_nonneg a).
  assert (E : Qabs (inject_Z z) <= inject_Z BOUND_LIMIT).
  { apply Qabs_lt_inv; [rewrite <- inject_Z_opp|]; apply inject_Z_le'; lia. }
  apply Qmult_le_compat_r; assumption.
Qed.
Lemma bound_sum_abs f s : (forall p, In p s -> (Z.abs (f p) <= BOUND_LIMIT)%Z) ->
  Qabs (bound_sum f s) <= inject_Z BOUND_LIMIT * abs_sum s.
Proof.
  induction s as [|p tl IH]; intros H; cbn [bound_sum abs_sum]; [cbn; lra|].
  pose proof (term_abs (snd p) (f p) (H p (or_introl eq_refl))). specialize (IH (fun q I => H q (or_intror I))).
  pose proof (Qabs_triangle (snd p * inject_Z (f p)) (bound_sum f tl)). lra.
Qed.
Lemma bound_rest_abs f s p : (forall q, In q s -> (Z.abs (f q) <= BOUND_LIMIT)%Z) -> In p s ->
  Qabs (bound_sum f s - snd p * inject_Z (f p)) <= inject_Z BOUND_LIMIT * abs_sum s.
Proof.
  induction s as [|q tl IH]; intros H; cbn [In]; [tauto|]. cbn [bound_sum abs_sum]. intros [<-|I].
  - pose proof (bound_sum_abs f tl (fun r I => H r (or_intror I))) as B.
    assert (E : snd q * inject_Z (f q) + bound_sum f tl - snd q * inject_Z (f q) == bound_sum f tl) by ring.
    rewrite E. pose proof (Qabs_nonneg (snd q)).
    assert (0 <= inject_Z BOUND_LIMIT) by discriminate. nra.
  - specialize (IH (fun r I => H r (or_intror I)) I).
    pose proof (term_abs (snd q) (f q) (H q (or_introl eq_refl))).
    assert (E : snd q * inject_Z (f q) + bound_sum f tl - snd p * inject_Z (f p) == snd q * inject_Z (f q) + (bound_sum f tl - snd p * inject_Z (f p))) by ring.
    rewrite E. pose proof (Qabs_triangle (snd q * inject_Z (f q)) (bound_sum f tl - snd p * inject_Z (f p))). lra.
Qed.

Lemma unit_div n a m : 1 <= Qabs a -> Qabs n <= m -> Qabs (n / a) <= m.
Proof.
  intros A N. assert (Z0 : ~ a == 0) by (intros E; rewrite E in A; cbn in A; lra).
  assert (E : Qabs n == Qabs (n / a) * Qabs a).
  { rewrite <- Qabs_Qmult. apply Qabs_wd. field. exact Z0. }
  pose proof (Qabs_nonneg (n / a)). nra.
Qed.
Lemma integral_unit a : (exists z, a == inject_Z z) -> ~ a == 0 -> 1 <= Qabs a.
Proof.
  intros (z & E) N. rewrite E in N |- *. 
  assert (z <> 0)%Z by (intros ->; apply N; reflexivity).
  change (Qabs (inject_Z z)) with (inject_Z (Z.abs z)). change 1 with (inject_Z 1). apply inject_Z_le'. lia.
Qed.
Lemma in_int q : Qabs q <= inject_Z INT_MAX ->
  (- INT_MAX <= Qfloor q <= INT_MAX)%Z /\ (- INT_MAX <= Qceiling q <= INT_MAX)%Z /\ (- INT_MAX <= Qtrunc q <= INT_MAX)%Z.
Proof.
  intros H. apply Qabs_Qle_condition in H as [A B]. rewrite <- inject_Z_opp in A. split; [|split].
  - split; [now apply floor_above|]. apply Qfloor_resp_le in B. now rewrite Qfloor_Z in B.
  - split; [|now apply ceil_below]. apply Qceiling_resp_le in A. now rewrite Qceiling_Z in A.
  - unfold Qtrunc. destruct q as [n d]. cbn [Qnum Qden]. unfold Qle in A, B. cbn in A, B. rewrite Z.mul_1_r in A, B.
    assert (C : (Z.abs (n ÷ Z.pos d) <= INT_MAX)%Z).
    { rewrite <- Z.quot_abs by discriminate. apply Z.quot_le_upper_bound; [lia|]. change (Z.abs (Z.pos d)) with (Z.pos d).
      unfold INT_MAX in *. lia. }
    lia.
Qed.

Lemma raise_lower_no_ub vs v q lb ub : Qabs q <= inject_Z INT_MAX -> raise_lower vs v q lb ub <> UB.
Proof.
  intros H E. pose proof (raise_lower_cases vs v q lb ub) as C. rewrite E in C.
  destruct (in_int q H) as (_ & R & _). unfold INT_MIN, INT_MAX in *. lia.
Qed.
Lemma cut_upper_no_ub vs v q lb ub : Qabs q <= inject_Z INT_MAX -> cut_upper vs v q lb ub <> UB.
Proof.
  intros H E. pose proof (cut_upper_cases vs v q lb ub) as C. rewrite E in C.
  destruct (in_int q H) as (R & _). unfold INT_MIN, INT_MAX in *. lia.
Qed.

Section Tame.
  Variables (vs : vars) (c : constr) (y0 : nat -> Z).
  Let e := ct_expr c.
  Hypotheses (M : moderate vs) (MF : moderate_fixed vs) (L0 : legal vs y0).
  Hypotheses (W : wf e) (Int : integral e) (NZ : no_zero e) (Fit : fits e).

  Lemma range v : va_fixed (vs v) = false -> (Z.abs (va_lower (vs v)) <= BOUND_LIMIT /\ Z.abs (va_upper (vs v)) <= BOUND_LIMIT)%Z.
  Proof. intros F. destruct (M v F), (L0 v) as [_ B]. specialize (B F). lia. Qed.
  Lemma up_range p : (Z.abs (up (vi_of vs) p) <= BOUND_LIMIT)%Z.
  Proof.
    unfold up. cbn [vi_of vi_fixed vi_value vi_upper vi_lower]. destruct (va_fixed (vs (fst p))) eqn:F.
    - specialize (MF _ F). lia.
    - destruct (Qlt_le_dec 0 (snd p)); apply (range _ F).
  Qed.
  Lemma down_range p : (Z.abs (down (vi_of vs) p) <= BOUND_LIMIT)%Z.
  Proof.
    unfold down. cbn [vi_of vi_fixed vi_value vi_upper vi_lower]. destruct (va_fixed (vs (fst p))) eqn:F.
    - specialize (MF _ F). lia.
    - destruct (Qlt_le_dec 0 (snd p)); apply (range _ F).
  Qed.
  Lemma rest_fits f p b : (forall q, (Z.abs (f q) <= BOUND_LIMIT)%Z) -> In p (ex_sens e) -> f p = b ->
    forall T, T == ex_const e + bound_sum f (ex_sens e) -> Qabs (- (T - snd p * inject_Z b) / snd p) <= inject_Z INT_MAX.
  Proof.
    intros H I <- T ET. destruct p as [v a]. apply unit_div.
    - apply integral_unit; [exact (Int v a I)|exact (NZ v a I)].
    - rewrite Qabs_opp.
      assert (E : T - snd (v, a) * inject_Z (f (v, a)) == ex_const e + (bound_sum f (ex_sens e) - snd (v, a) * inject_Z (f (v, a)))) by (rewrite ET; ring).
      rewrite E. pose proof (bound_rest_abs f (ex_sens e) (v, a) (fun q _ => H q) I) as B.
      pose proof (Qabs_triangle (ex_const e) (bound_sum f (ex_sens e) - snd (v, a) * inject_Z (f (v, a)))) as Tr.
      unfold fits in Fit. lra.
  Qed.

  Lemma positive_no_ub p tl s : In p (ex_sens e) /\ va_fixed (vs (fst p)) = false /\ 0 < snd p ->
    fresh vs (p :: tl) (fst s) -> tighten_positive c (e_lower e (vi_of vs)) (e_upper e (vi_of vs)) s p <> UB.
  Proof.
    destruct p as [v a], s as [vs1 u]. cbn [fst snd]. intros (I & F & P) (K1 & K2).
    assert (E : vs1 v = vs v) by (apply K2; now left). unfold tighten_positive. rewrite E.
    assert (U1 : up (vi_of vs) (v, a) = va_upper (vs v)).
    { unfold up. cbn [fst snd vi_of vi_fixed vi_upper]. rewrite F. destruct (Qlt_le_dec 0 a); [reflexivity|lra]. }
    assert (D1 : down (vi_of vs) (v, a) = va_lower (vs v)).
    { unfold down. cbn [fst snd vi_of vi_fixed vi_lower]. rewrite F. destruct (Qlt_le_dec 0 a); [reflexivity|lra]. }
    pose proof (rest_fits _ (v, a) _ up_range I U1 _ (upper_sum e (vi_of vs))) as Q1.
    pose proof (rest_fits _ (v, a) _ down_range I D1 _ (lower_sum e (vi_of vs))) as Q2. cbn [snd] in Q1, Q2.
    set (q1 := - (e_upper e (vi_of vs) - a * inject_Z (va_upper (vs v))) / a) in *.
    set (q2 := - (e_lower e (vi_of vs) - a * inject_Z (va_lower (vs v))) / a) in *.
    destruct (if ct_ge c then _ else _) as [r| |] eqn:E1; cbn [bind]; [|discriminate|].
    2:{ destruct (ct_ge c); [|discriminate]. exact (fun _ => raise_lower_no_ub _ _ _ _ _ Q1 E1). }
    destruct (if ct_le c then _ else _) as [r'| |] eqn:E2; cbn [bind]; [discriminate|discriminate|].
    destruct (ct_le c); [|discriminate]. exact (fun _ => cut_upper_no_ub _ _ _ _ _ Q2 E2).
  Qed.
  Lemma negative_no_ub p tl s : In p (ex_sens e) /\ va_fixed (vs (fst p)) = false /\ snd p <= 0 ->
    fresh vs (p :: tl) (fst s) -> tighten_negative c (e_lower e (vi_of vs)) (e_upper e (vi_of vs)) s p <> UB.
  Proof.
    destruct p as [v a], s as [vs1 u]. cbn [fst snd]. intros (I & F & P) (K1 & K2).
    assert (E : vs1 v = vs v) by (apply K2; now left). unfold tighten_negative. rewrite E.
    assert (U1 : up (vi_of vs) (v, a) = va_lower (vs v)).
    { unfold up. cbn [fst snd vi_of vi_fixed vi_lower]. rewrite F. destruct (Qlt_le_dec 0 a); [lra|reflexivity]. }
    assert (D1 : down (vi_of vs) (v, a) = va_upper (vs v)).
    { unfold down. cbn [fst snd vi_of vi_fixed vi_upper]. rewrite F. destruct (Qlt_le_dec 0 a); [lra|reflexivity]. }
    pose proof (rest_fits _ (v, a) _ up_range I U1 _ (upper_sum e (vi_of vs))) as Q1.
    pose proof (rest_fits _ (v, a) _ down_range I D1 _ (lower_sum e (vi_of vs))) as Q2. cbn [snd] in Q1, Q2.
    destruct (Qeq_bool a 0) eqn:Z0; [apply Qeq_bool_iff in Z0; exfalso; exact (NZ v a I Z0)|].
    set (q1 := - (e_upper e (vi_of vs) - a * inject_Z (va_lower (vs v))) / a) in *.
    set (q2 := - (e_lower e (vi_of vs) - a * inject_Z (va_upper (vs v))) / a) in *.
    destruct (if ct_ge c then _ else _) as [r| |] eqn:E1; cbn [bind]; [|discriminate|].
    2:{ destruct (ct_ge c); [|discriminate]. exact (fun _ => cut_upper_no_ub _ _ _ _ _ Q1 E1). }
    destruct (if ct_le c then _ else _) as [r'| |] eqn:E2; cbn [bind]; [discriminate|discriminate|].
    destruct (ct_le c); [|discriminate]. exact (fun _ => raise_lower_no_ub _ _ _ _ _ Q2 E2).
  Qed.

  Lemma general_no_ub :
    bind (each (tighten_positive c (e_lower e (vi_of vs)) (e_upper e (vi_of vs))) (positive_mutables vs e) (vs, false)) (fun s =>
        bind (each (tighten_negative c (e_lower e (vi_of vs)) (e_upper e (vi_of vs))) (negative_mutables vs e) s) (fun s => Ok (fst s, false, snd s))) <> UB.
  Proof.
    set (L := e_lower e (vi_of vs)). set (U := e_upper e (vi_of vs)).
    pose (P := fun l (s : vars * bool) => fresh vs l (fst s)).
    pose (gp := fun p => In p (ex_sens e) /\ va_fixed (vs (fst p)) = false /\ 0 < snd p).
    pose (gn := fun p => In p (ex_sens e) /\ va_fixed (vs (fst p)) = false /\ snd p <= 0).
    assert (G1 : forall p, In p (positive_mutables vs e) -> gp p).
    { intros p I. apply filter_In in I as [I G]. apply filter_in_mut in I. unfold gp. destruct (Qlt_le_dec 0 (snd p)); [tauto|discriminate]. }
    assert (G2 : forall p, In p (negative_mutables vs e) -> gn p).
    { intros p I. apply filter_In in I as [I G]. apply filter_in_mut in I. unfold gn. destruct (Qlt_le_dec 0 (snd p)); [discriminate|tauto]. }
    assert (P0 : P (positive_mutables vs e ++ negative_mutables vs e) (vs, false)) by (split; [apply nested_refl|auto]).
    assert (S1 : forall p tl s s', NoDup (map fst (p :: tl)) -> gp p -> P (p :: tl) s -> tighten_positive c L U s p = Ok s' -> P tl s').
    { intros p tl s s' ND g K. apply positive_fresh; [exact ND|apply g|exact K]. }
    assert (S2 : forall p tl s s', NoDup (map fst (p :: tl)) -> gn p -> P (p :: tl) s -> tighten_negative c L U s p = Ok s' -> P tl s').
    { intros p tl s s' ND g K. apply negative_fresh; [exact ND|apply g|exact K]. }
    pose proof (each_no_ub P (tighten_positive c L U) gp (negative_mutables vs e) S1 (fun p tl s g K => positive_no_ub p tl s g K)
       (positive_mutables vs e) (vs, false) (split_sign_nodup vs e W) G1 P0) as U1.
    destruct (each (tighten_positive c L U) _ _) as [s| |] eqn:E1; cbn [bind]; [|discriminate|contradiction].
    pose proof (each_inv P (tighten_positive c L U) gp (negative_mutables vs e) S1 (positive_mutables vs e) (vs, false) s
       (split_sign_nodup vs e W) G1 P0 E1) as P1.
    pose proof (each_no_ub P (tighten_negative c L U) gn [] S2 (fun p tl s g K => negative_no_ub p tl s g K)
       (negative_mutables vs e) s) as U2. rewrite app_nil_r in U2.
    specialize (U2 (nodup_filter_keys _ _ (nodup_filter_keys _ _ W)) G2 P1).
    destruct (each (tighten_negative c L U) _ _) as [s'| |] eqn:E2; cbn [bind]; [discriminate|discriminate|contradiction].
  Qed.

  Lemma fixed_sum_abs s : Qabs (fixed_sum s (vi_of vs)) <= inject_Z BOUND_LIMIT * abs_sum s.
  Proof.
    induction s as [|[v a] tl IH]; cbn [fixed_sum abs_sum snd]; [cbn; lra|].
    cbn [vi_of vi_fixed vi_value]. assert (0 <= inject_Z BOUND_LIMIT) by discriminate. pose proof (Qabs_nonneg a).
    pose proof (Qabs_triangle (if va_fixed (vs v) then a * inject_Z (va_value (vs v)) else 0) (fixed_sum tl (vi_of vs))) as T.
    destruct (va_fixed (vs v)) eqn:F.
    - assert (B : (Z.abs (va_value (vs v)) <= BOUND_LIMIT)%Z) by (specialize (MF _ F); lia).
      pose proof (term_abs a _ B). lra.
    - change (Qabs 0) with 0 in T. nra.
  Qed.

  Lemma singleton_no_ub v a : mutables vs e = [(v, a)] -> tighten_singleton vs c v a <> UB.
  Proof.
    intros Hm. destruct (mut_var _ _ _ _ Hm) as [I F]. unfold tighten_singleton. fold (root vs c a).
    assert (Q : Qabs (root vs c a) <= inject_Z INT_MAX).
    { unfold root. apply unit_div; [apply integral_unit; [exact (Int v a I)|exact (NZ v a I)]|].
      rewrite Qabs_opp. fold e. rewrite (fixed_term_exact vs e (integral_fixed vs e Int)).
      pose proof (Qabs_triangle (fixed_sum (ex_sens e) (vi_of vs)) (ex_const e)). pose proof (fixed_sum_abs (ex_sens e)).
      unfold fits in Fit. lra. }
    pose proof (raise_lower_no_ub vs v _ (va_lower (vs v)) (va_upper (vs v)) Q) as R1.
    pose proof (cut_upper_no_ub vs v _ (va_lower (vs v)) (va_upper (vs v)) Q) as R2.
    assert (C1 : bind (cut_upper vs v (root vs c a) (va_lower (vs v)) (va_upper (vs v))) (fun r => Ok (fst r, true, snd r)) <> UB)
      by (destruct (cut_upper _ _ _ _ _); cbn [bind]; congruence).
    assert (C2 : bind (raise_lower vs v (root vs c a) (va_lower (vs v)) (va_upper (vs v))) (fun r => Ok (fst r, true, snd r)) <> UB)
      by (destruct (raise_lower _ _ _ _ _); cbn [bind]; congruence).
    destruct (ct_sense c).
    - destruct (Qlt_le_dec 0 a); [exact C1|]. destruct (Qlt_le_dec a 0); [exact C2|discriminate].
    - destruct (Qeq_bool a 0) eqn:Z0; [apply Qeq_bool_iff in Z0; exfalso; exact (NZ v a I Z0)|].
      destruct (in_int _ Q) as (_ & _ & R). unfold to_int.
      destruct ((INT_MIN <=? Qtrunc (root vs c a))%Z && (Qtrunc (root vs c a) <=? INT_MAX)%Z)%bool eqn:B; cbn [bind]; [discriminate|].
      apply andb_false_iff in B. unfold INT_MIN, INT_MAX in *. lia.
    - destruct (Qlt_le_dec a 0); [exact C1|]. destruct (Qlt_le_dec 0 a); [exact C2|discriminate].
  Qed.

  Lemma tighten_no_ub : tighten vs c <> UB.
  Proof.
    unfold tighten. cbv zeta. destruct (always_satisfied _ _ _); [discriminate|]. fold e.
    pose proof general_no_ub as G. pose proof singleton_no_ub as Sg.
    destruct (mutables vs e) as [|[v a] [|p l]] eqn:Hm; [exact G|auto|exact G].
  Qed.
End Tame.

Lemma shrinks_moderate_fixed vs vs' : shrinks vs vs' -> moderate vs -> moderate_fixed vs -> moderate_fixed vs'.
Proof.
  intros H M MF v F. destruct (H v) as (H1 & H2 & H3). destruct (va_fixed (vs v)) eqn:F0.
  - rewrite (H1 eq_refl). auto.
  - specialize (H3 eq_refl F). specialize (M v F0). lia.
Qed.
Lemma tame_plain cs : tame cs -> plain cs.
Proof. intros H c I E. destruct (H c I E) as (A & B & _). auto. Qed.

Lemma pass_no_ub cs : forall vs y0, tame cs -> moderate vs -> moderate_fixed vs -> legal vs y0 -> sat_all cs y0 ->
  redundant_pass vs cs <> UB.
Proof.
  induction cs as [|c tl IH]; intros vs y P M MF L S; cbn [redundant_pass]; [discriminate|].
  assert (Ptl : tame tl) by (intros d Hd; apply P; now right).
  assert (Stl : sat_all tl y) by (intros d Hd; apply S; now right).
  destruct (ct_enabled c) eqn:En.
  - destruct (P c (or_introl eq_refl) En) as (W & Int & NZ & Fit).
    assert (Sc : satisfies c y) by (apply S; [now left|exact En]).
    pose proof (tighten_sound vs c y W (fun _ => integral_fixed vs _ Int) L Sc) as TS.
    pose proof (tighten_no_ub vs c y M MF L W Int NZ Fit) as TU.
    destruct (tighten vs c) as [[[vs1 off] u1]| |] eqn:ET; cbn [bind]; [|discriminate|contradiction].
    assert (Sh : shrinks vs vs1) by (eapply tighten_shrinks; eauto using integral_fixed).
    pose proof (IH vs1 y Ptl (shrinks_moderate _ _ Sh M) (shrinks_moderate_fixed _ _ Sh M MF) TS Stl).
    destruct (redundant_pass vs1 tl) as [[[vs2 tl'] k']| |]; cbn [bind]; congruence.
  - pose proof (IH vs y Ptl M MF L Stl). destruct (redundant_pass vs tl) as [[[vs2 tl'] k']| |]; cbn [bind]; congruence.
Qed.

Lemma pass_tame cs : forall vs vs' cs' k, tame cs -> redundant_pass vs cs = Ok (vs', cs', k) -> tame cs'.
Proof.
  induction cs as [|c tl IH]; intros vs vs' cs' k P; cbn [redundant_pass].
  { intros E. injection E as <- <- <-. exact P. }
  assert (Ptl : tame tl) by (intros d Hd; apply P; now right).
  destruct (ct_enabled c) eqn:En.
  - destruct (tighten vs c) as [[[vs1 off] u1]| |]; cbn [bind]; try discriminate.
    destruct (redundant_pass vs1 tl) as [[[vs2 tl'] k']| |] eqn:ER; cbn [bind]; try discriminate.
    intros E. injection E as <- <- <-. intros d [<-|Hd] Ed; [|eapply IH; eauto].
    destruct off; [discriminate Ed|]. apply P; [now left|exact Ed].
  - destruct (redundant_pass vs tl) as [[[vs2 tl'] k']| |] eqn:ER; cbn [bind]; try discriminate.
    intros E. injection E as <- <- <-. intros d [<-|Hd] Ed; [congruence|eapply IH; eauto].
Qed.

Lemma reduce_no_ub fuel : forall s y0, tame (ps_cons s) -> moderate (ps_vars s) -> moderate_fixed (ps_vars s) -> solution s y0 ->
  reduce_loop fuel s <> Some UB.
Proof.
  induction fuel as [|f IH]; intros s y0 P M MF [L S]; cbn [reduce_loop]; [discriminate|].
  pose proof (pass_no_ub _ _ _ P M MF L S) as NU.
  destruct (redundant_pass (ps_vars s) (ps_cons s)) as [[[vs cs] k]| |] eqn:E; [|discriminate|contradiction].
  destruct (pass_exact _ _ _ _ _ _ (tame_plain _ P) M L S E) as (A1 & A2 & A3 & A4).
  destruct (implicit_pass (ps_number s) vs) as [vs' k'] eqn:EI. unfold implicit_pass in EI.
  destruct (implicit_fold _ (seq_NoDup _ _) _ _ _ _ EI) as (B1 & B2 & _ & B4).
  assert (Sh : shrinks (ps_vars s) vs') by (eapply shrinks_trans; eauto).
  destruct (Nat.eqb k 0 && Nat.eqb k' 0)%bool; [discriminate|].
  apply (IH _ y0); cbn [ps_cons ps_vars].
  - eapply pass_tame; eauto.
  - eapply shrinks_moderate; eauto.
  - eapply shrinks_moderate_fixed; eauto.
  - unfold solution. cbn [ps_vars ps_cons]. rewrite <- B2. apply A3. split; assumption.
Qed.

Lemma reduce_correct s y0 : tame (ps_cons s) -> moderate (ps_vars s) -> moderate_fixed (ps_vars s) -> solution s y0 ->
  forall fuel, (number_enabled (ps_cons s) + number_mutable (ps_number s) (ps_vars s) < fuel)%nat ->
  exists s', reduce_loop fuel s = Some (Ok s') /\ forall y, solution s y <-> solution s' y.
Proof.
  intros T M MF S fuel Hf. pose proof (reduce_exact fuel s y0 (tame_plain _ T) M S) as R.
  pose proof (reduce_no_ub fuel s y0 T M MF S) as NU.
  destruct (reduce_loop fuel s) as [[s'| |]|]; [|contradiction|contradiction|lia].
  exists s'. split; [reflexivity|apply R].
Qed.

(** * Termination without any hypothesis *)
Definition more_fixed (vs vs' : vars) : Prop := forall w, va_fixed (vs w) = true -> va_fixed (vs' w) = true.
Lemma more_refl vs : more_fixed vs vs. Proof. intros w; auto. Qed.
Lemma more_trans a b c : more_fixed a b -> more_fixed b c -> more_fixed a c. Proof. intros H G w F. auto. Qed.
Lemma more_set_bound vs v lo hi vs' : do_set_bound vs v lo hi = Ok vs' -> more_fixed vs vs'.
Proof.
  rewrite set_bound_ok. destruct (Z.ltb_spec hi lo); [discriminate|]. intros E. injection E as <-.
  intros w F. destruct (bounded_facts vs v lo hi w H) as (F1 & _). congruence.
Qed.
Lemma more_raise vs v q lb ub vs' u : raise_lower vs v q lb ub = Ok (vs', u) -> more_fixed vs vs'.
Proof.
  intros E. pose proof (raise_lower_cases vs v q lb ub) as C. rewrite E in C.
  destruct C as [(-> & _)|(-> & _ & R & _)]; [apply more_refl|]. intros w F.
  destruct (bounded_facts vs v (Qceiling q) ub w ltac:(lia)) as (F1 & _). congruence.
Qed.
Lemma more_cut vs v q lb ub vs' u : cut_upper vs v q lb ub = Ok (vs', u) -> more_fixed vs vs'.
Proof.
  intros E. pose proof (cut_upper_cases vs v q lb ub) as C. rewrite E in C.
  destruct C as [(-> & _)|(-> & _ & R & _)]; [apply more_refl|]. intros w F.
  destruct (bounded_facts vs v lb (Qfloor q) w ltac:(lia)) as (F1 & _). congruence.
Qed.
Lemma more_fix vs v a : more_fixed vs (do_fix_by vs v a).
Proof. intros w F. destruct (fix_by_facts vs v a w) as (F1 & _). rewrite F1, F. now destruct (Nat.eqb w v). Qed.

Lemma more_each (f : vars * bool -> nat * Q -> outcome (vars * bool)) :
  (forall s p s', f s p = Ok s' -> more_fixed (fst s) (fst s')) ->
  forall l s s', each f l s = Ok s' -> more_fixed (fst s) (fst s').
Proof.
  intros H. induction l as [|p tl IH]; intros s s'; cbn [each].
  - intros E. injection E as <-. apply more_refl.
  - destruct (f s p) as [s1| |] eqn:E; cbn [bind]; try discriminate. intros E'. eapply more_trans; eauto.
Qed.
Lemma more_positive c L U s p s' : tighten_positive c L U s p = Ok s' -> more_fixed (fst s) (fst s').
Proof.
  destruct s as [vs u], p as [v a]. unfold tighten_positive.
  destruct (if ct_ge c then _ else _) as [[vs1 u1]| |] eqn:E1; cbn [bind fst snd]; try discriminate.
  destruct (if ct_le c then _ else _) as [[vs2 u2]| |] eqn:E2; cbn [bind fst snd]; try discriminate.
  intros E. injection E as <-. cbn [fst]. apply more_trans with vs1.
  - destruct (ct_ge c); [eapply more_raise; eauto|]. injection E1 as <- <-. apply more_refl.
  - destruct (ct_le c); [eapply more_cut; eauto|]. injection E2 as <- <-. apply more_refl.
Qed.
Lemma more_negative c L U s p s' : tighten_negative c L U s p = Ok s' -> more_fixed (fst s) (fst s').
Proof.
  destruct s as [vs u], p as [v a]. unfold tighten_negative. destruct (Qeq_bool a 0); [discriminate|].
  destruct (if ct_ge c then _ else _) as [[vs1 u1]| |] eqn:E1; cbn [bind fst snd]; try discriminate.
  destruct (if ct_le c then _ else _) as [[vs2 u2]| |] eqn:E2; cbn [bind fst snd]; try discriminate.
  intros E. injection E as <-. cbn [fst]. apply more_trans with vs1.
  - destruct (ct_ge c); [eapply more_cut; eauto|]. injection E1 as <- <-. apply more_refl.
  - destruct (ct_le c); [eapply more_raise; eauto|]. injection E2 as <- <-. apply more_refl.
Qed.
Lemma more_singleton vs c v a vs' b u : tighten_singleton vs c v a = Ok (vs', b, u) -> more_fixed vs vs'.
Proof.
  unfold tighten_singleton. fold (root vs c a).
  assert (C1 : bind (cut_upper vs v (root vs c a) (va_lower (vs v)) (va_upper (vs v))) (fun r => Ok (fst r, true, snd r)) = Ok (vs', b, u) -> more_fixed vs vs').
  { destruct (cut_upper _ _ _ _ _) as [[vs1 u1]| |] eqn:E; cbn [bind fst snd]; try discriminate.
    intros E'. injection E' as <- <- <-. eapply more_cut; eauto. }
  assert (C2 : bind (raise_lower vs v (root vs c a) (va_lower (vs v)) (va_upper (vs v))) (fun r => Ok (fst r, true, snd r)) = Ok (vs', b, u) -> more_fixed vs vs').
  { destruct (raise_lower _ _ _ _ _) as [[vs1 u1]| |] eqn:E; cbn [bind fst snd]; try discriminate.
    intros E'. injection E' as <- <- <-. eapply more_raise; eauto. }
  destruct (ct_sense c).
  - destruct (Qlt_le_dec 0 a); [exact C1|]. destruct (Qlt_le_dec a 0); [exact C2|].
    intros E. injection E as <- <- <-. apply more_refl.
  - destruct (Qeq_bool a 0); [discriminate|]. destruct (to_int _); cbn [bind]; try discriminate.
    intros E. injection E as <- <- <-. apply more_fix.
  - destruct (Qlt_le_dec a 0); [exact C1|]. destruct (Qlt_le_dec 0 a); [exact C2|].
    intros E. injection E as <- <- <-. apply more_refl.
Qed.
Lemma more_tighten vs c vs' b u : tighten vs c = Ok (vs', b, u) -> more_fixed vs vs'.
Proof.
  unfold tighten. cbv zeta. destruct (always_satisfied _ _ _).
  { intros E. injection E as <- <- <-. apply more_refl. }
  assert (G : forall L U, bind (each (tighten_positive c L U) (positive_mutables vs (ct_expr c)) (vs, false)) (fun s =>
        bind (each (tighten_negative c L U) (negative_mutables vs (ct_expr c)) s) (fun s => Ok (fst s, false, snd s))) = Ok (vs', b, u) -> more_fixed vs vs').
  { intros L U. destruct (each (tighten_positive c L U) _ _) as [s| |] eqn:E1; cbn [bind]; try discriminate.
    destruct (each (tighten_negative c L U) _ _) as [s'| |] eqn:E2; cbn [bind]; try discriminate.
    intros E. injection E as <- <- <-. apply more_trans with (fst s).
    - apply (more_each _ (more_positive c L U) _ _ _ E1).
    - apply (more_each _ (more_negative c L U) _ _ _ E2). }
  destruct (mutables vs (ct_expr c)) as [|[v a] [|p l]]; [apply G|apply more_singleton|apply G].
Qed.
Lemma pass_counts cs : forall vs vs' cs' k, redundant_pass vs cs = Ok (vs', cs', k) ->
  more_fixed vs vs' /\ (number_enabled cs' + k = number_enabled cs)%nat.
Proof.
  induction cs as [|c tl IH]; intros vs vs' cs' k; cbn [redundant_pass].
  { intros E. injection E as <- <- <-. split; [apply more_refl|reflexivity]. }
  unfold number_enabled in *. cbn [filter]. destruct (ct_enabled c) eqn:En.
  - destruct (tighten vs c) as [[[vs1 off] u1]| |] eqn:ET; cbn [bind]; try discriminate.
    destruct (redundant_pass vs1 tl) as [[[vs2 tl'] k']| |] eqn:ER; cbn [bind]; try discriminate.
    intros E. injection E as <- <- <-. destruct (IH _ _ _ _ ER) as [H1 H2].
    split; [eapply more_trans; [eapply more_tighten; eauto|exact H1]|].
    cbn [filter length]. destruct off; cbn [disable ct_enabled]; [|rewrite En; cbn [length]]; lia.
  - destruct (redundant_pass vs tl) as [[[vs2 tl'] k']| |] eqn:ER; cbn [bind]; try discriminate.
    intros E. injection E as <- <- <-. destruct (IH _ _ _ _ ER) as [H1 H2]. split; [exact H1|].
    cbn [filter]. rewrite En. exact H2.
Qed.
Lemma reduce_terminates fuel : forall s,
  (number_enabled (ps_cons s) + number_mutable (ps_number s) (ps_vars s) < fuel)%nat -> reduce_loop fuel s <> None.
Proof.
  induction fuel as [|f IH]; intros s Hf; [lia|]. cbn [reduce_loop].
  destruct (redundant_pass (ps_vars s) (ps_cons s)) as [[[vs cs] k]| |] eqn:E; [|discriminate|discriminate].
  destruct (pass_counts _ _ _ _ _ E) as [A1 A2].
  destruct (implicit_pass (ps_number s) vs) as [vs' k'] eqn:EI. unfold implicit_pass in EI.
  destruct (implicit_fold _ (seq_NoDup _ _) _ _ _ _ EI) as (_ & _ & _ & B4).
  destruct (Nat.eqb k 0 && Nat.eqb k' 0)%bool eqn:Z0; [discriminate|]. apply IH. cbn [ps_cons ps_vars ps_number].
  assert (Mn : (number_mutable (ps_number s) vs <= number_mutable (ps_number s) (ps_vars s))%nat).
  { apply filter_le_length. intros v. destruct (va_fixed (ps_vars s v)) eqn:F; [|reflexivity]. rewrite (A1 v F). discriminate. }
  unfold number_mutable in *. apply andb_false_iff in Z0. destruct Z0 as [Z0|Z0]; apply Nat.eqb_neq in Z0; lia.
Qed.
