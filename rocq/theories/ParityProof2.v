(** Proofs for C79: the problem after the GF(2) step. *)
From Coq Require Import List NArith ZArith QArith Qabs Bool Arith Lia Lqa Permutation.
From Verif Require Import ExprModel ExprSpec ExprProof ConstraintModel ConstraintSpec VariableModel TypeModel TypeSpec PresolveModel PresolveSpec
  DuplicateModel DependentModel DependentSpec SelectionModel SelectionSpec BinMatModel BinMatSpec PrepareModel PrepareSpec EvalModel TabuModel WholeModel WholeSpec
  RelaxModel RelaxSpec OfferModel ParityModel ParitySpec.
From Verif Require Import BinMatProof2 DuplicateProof2 PresolveProof PrepareProof2 PrepareProof3 PrepareProof5 WholeProof RelaxProof2 RelaxProof4 ParityProof.
From Verif Require ScreenModel SolverModel SolverSpec.
Import ListNotations.
Local Open Scope nat_scope.

Lemma solved_vars y l : forall vs v,
  (In v l -> va_fixed (fix_solved l y vs v) = true /\ va_value (fix_solved l y vs v) = y v /\ va_lower (fix_solved l y vs v) = va_lower (vs v) /\
             va_upper (fix_solved l y vs v) = va_upper (vs v) /\ va_sense (fix_solved l y vs v) = va_sense (vs v)) /\
  (~ In v l -> fix_solved l y vs v = vs v).
Proof.
  induction l as [|w l IH]; intros vs v; [split; [intros []|reflexivity]|]. cbn [fix_solved fold_left]. change (fold_left _ l ?z) with (fix_solved l y z).
  destruct (IH (do_fix_by vs w (y w)) v) as [A B]. destruct (fixing_fix vs w (y w) v) as (F1 & F2 & F3 & F4).
  assert (D : v <> w -> do_fix_by vs w (y w) v = vs v) by (intros N; unfold do_fix_by; cbn [v_step]; unfold set_var; destruct (Nat.eqb_spec v w); [contradiction|reflexivity]).
  split.
  - intros I. destruct (in_dec Nat.eq_dec v l) as [J|J].
    + destruct (A J) as (A1 & A2 & A3 & A4 & A5). rewrite A3, A4, A5. auto.
    + destruct I as [I|I]; [subst w|contradiction]. rewrite (B J). unfold do_fix_by. cbn [v_step]. unfold set_var. rewrite Nat.eqb_refl. cbn. auto.
  - intros N. rewrite B by (intros J; apply N; right; exact J). apply D. intros ->. apply N. left. reflexivity.
Qed.

Section Step.
  Context (order : list nat -> list nat) (sw : switches) (su : surroundings) (m : bool) (s : dstate) (r : dstate * list sel).
  Hypothesis Op : forall l, Permutation (order l) l.
  Hypothesis Rd : search_ready m s r.
  Hypothesis Hold : all_in_force r.
  Let l := parity_items su (fst r).
  Let es := parity_equations su (fst r).
  Let bs := order (binary_variables es).
  Let r' := prepare_parities order sw su r.
  Let vs := ds_vars (fst r).
  Let vs' := ds_vars (fst r').
  Hypothesis Ka : keys_apart l.
  Hypothesis Pl : all_plus l.
  Hypothesis Fo : in_force (fst r) l.

  Lemma in_es e : In e es -> exists c, In (c, snd e) l /\ fst e = ct_expr c.
  Proof. unfold es, parity_equations. intros I. apply in_map_iff in I as ([c k] & <- & I). exists c. auto. Qed.
  Lemma row c k : In (c, k) l -> In c (ds_cons (fst r)) /\ parity_row vs c k.
  Proof. apply item_row. Qed.
  Lemma es_shaped e : In e es -> shaped e.
  Proof.
    intros I. destruct (in_es e I) as (c & Ic & E). destruct (row c _ Ic) as [Jc [R1 R2 R3 R4 R5 R6]]. destruct e as [e k]. cbn [fst snd] in *. subst e. unfold shaped. cbn [fst snd]. split; [|split; [exact R3|split]].
    - exact (proj1 (co_cons _ (sr_coherent _ _ _ Rd) c Jc)).
    - intros v a J N. exact (proj2 (R5 v a J N)).
    - destruct R6 as [R6|[R6|R6]]; [exists 0%Z|exists 1%Z|exists (-1)%Z]; exact R6.
  Qed.
  Lemma es_apart e e' : In e es -> In e' es -> ~ In (snd e) (nonkey e').
  Proof.
    intros I I' J. destruct (in_es e I) as (c & Ic & _). destruct (in_es e' I') as (c' & Ic' & E'). unfold nonkey in J. apply filter_In in J as [J N]. apply negb_true_iff, Nat.eqb_neq in N.
    rewrite E' in J. exact (N (Ka c (snd e) c' (snd e') Ic Ic' J)).
  Qed.
  Lemma es_plus e v a : In e es -> In (v, a) (ex_sens (fst e)) -> v <> snd e -> (a == 1)%Q.
  Proof. intros I J N. destruct (in_es e I) as (c & Ic & E). rewrite E in J. exact (Pl c (snd e) v a Ic J N). Qed.
  Lemma es_hold z e : meets r z -> In e es -> (e_eval (fst e) z == 0)%Q.
  Proof.
    intros M I. destruct (in_es e I) as (c & Ic & ->). destruct (row c _ Ic) as [Jc R].
    assert (S : satisfies c z). { destruct Fo as [F|F]; [exact (Hold F z M c Jc)|exact (sv_cons _ _ (proj1 M) c Jc (F c _ Ic))]. }
    unfold satisfies in S. rewrite (pr_equation _ _ _ R) in S. exact S.
  Qed.
  (** The variables of the equations are free and have no definition. *)
  Lemma listed v : In v (bs ++ map snd es) -> va_fixed (vs v) = false /\ (va_sense (vs v) = VBinary \/ va_sense (vs v) = VInteger).
  Proof.
    intros I. apply in_app_or in I as [I|I].
    - apply (Permutation_in v (Op _)) in I. unfold binary_variables in I. apply nodup_In, in_flat_map in I as (e & Ie & J). unfold nonkey in J. apply filter_In in J as [J N]. apply negb_true_iff, Nat.eqb_neq in N.
      destruct (in_es e Ie) as (c & Ic & E). destruct (row c _ Ic) as [Jc R]. rewrite E in J. split; [exact (pr_free _ _ _ R v J)|].
      apply in_map_iff in J as ([v' a] & Ev & J). cbn [fst] in Ev. subst v'. left. exact (proj1 (pr_others _ _ _ R v a J N)).
    - apply in_map_iff in I as (e & <- & Ie). destruct (in_es e Ie) as (c & Ic & E). destruct (row c _ Ic) as [Jc R]. split; [|exact (pr_key_sense _ _ _ R)].
      destruct (pr_key _ _ _ R) as (a & Ia & _). apply (pr_free _ _ _ R). apply in_map_iff. exists (snd e, a). auto.
  Qed.
  Lemma listed_free v : In v (bs ++ map snd es) -> ds_dep (fst r) v = None.
  Proof.
    intros I. destruct (listed v I) as [_ Sn]. destruct (ds_dep (fst r) v) eqn:D; [|reflexivity]. exfalso. assert (N : ds_dep (fst r) v <> None) by congruence.
    destruct (proj1 (co_dep _ (sr_coherent _ _ _ Rd) v) N) as [_ Dv]. unfold is_dependent in Dv. fold vs in Dv. destruct Sn as [Sn|Sn], Dv as [Dv|Dv]; congruence.
  Qed.

  (** The step, with all that is known. *)
  Lemma step_cases : r' = r \/ exists y, r' = (mkD (ds_number (fst r)) vs' (ds_cons (fst r)) (ds_obj (fst r)) (ds_exprs (fst r)) (ds_dep (fst r)), snd r) /\
    vs' = fix_solved (bs ++ map snd es) y vs /\ forall z, meets r z -> forall v, In v (bs ++ map snd es) -> y v = z v.
  Proof.
    assert (Q : r' = prepare_parities order sw su r) by reflexivity. unfold prepare_parities in Q. cbv zeta in Q. fold es in Q. fold bs in Q. destruct (_ && _) in Q; [|left; exact Q].
    destruct (gf2_solve es bs (fun v => va_value (ds_vars (fst r) v))) as [y|] eqn:G; [|left; exact Q]. right. exists y. unfold vs'. rewrite Q. cbn [fst ds_vars]. split; [reflexivity|]. split; [reflexivity|].
    intros z M v I. destruct (forced es bs _ y z (Op _) es_shaped es_apart G (fun e => es_hold z e M)) as (A & B & _).
    { intros w W. assert (W' : In w (bs ++ map snd es)) by (apply in_or_app; left; exact W). destruct (listed w W') as [Fw _].
      pose proof (sv_range _ _ (proj1 M) w (listed_free w W')) as X. unfold within in X. fold vs in X. rewrite Fw in X.
      destruct (sr_ready _ _ _ Rd) as (_ & So & _). destruct (So w) as (_ & S2 & _). fold vs in S2.
      assert (Sn : va_sense (vs w) = VBinary).
      { apply (Permutation_in w (Op _)) in W. unfold binary_variables in W. apply nodup_In, in_flat_map in W as (e & Ie & J). unfold nonkey in J. apply filter_In in J as [J N]. apply negb_true_iff, Nat.eqb_neq in N.
        destruct (in_es e Ie) as (c & Ic & E). destruct (row c _ Ic) as [Jc R]. rewrite E in J. apply in_map_iff in J as ([v' b] & Ev & J). cbn [fst] in Ev. subst v'. exact (proj1 (pr_others _ _ _ R w b J N)). }
      destruct (S2 (or_introl Sn)). lia. }
    apply in_app_or in I as [I|I]; [exact (A v I)|]. apply in_map_iff in I as (e & <- & Ie). apply (B e Ie). intros w a. exact (es_plus e w a Ie).
  Qed.
  Lemma step_meets z : meets r z -> meets r' z.
  Proof.
    intros M. destruct step_cases as [E|(y & E & Ev & F)]; [rewrite E; exact M|]. destruct M as [[M1 M2 M3] M4]. rewrite E. split; [|exact M4]. constructor; [|exact M2|exact M3].
    intros v D. cbn [fst ds_vars ds_dep] in *. rewrite Ev. destruct (in_dec Nat.eq_dec v (bs ++ map snd es)) as [I|I].
    - destruct (proj1 (solved_vars y (bs ++ map snd es) vs v) I) as (A1 & A2 & _). unfold within. rewrite A1, A2. symmetry. apply F; [split; [constructor|]; assumption|exact I].
    - rewrite (proj2 (solved_vars y (bs ++ map snd es) vs v) I). exact (M1 v D).
  Qed.
  Lemma step_values z v : meets r z -> va_fixed (vs' v) = true -> ds_dep (fst r) v = None -> z v = va_value (vs' v).
  Proof.
    intros M F D. pose proof (step_meets z M) as M'. destruct M' as [[M1 _ _] _]. assert (D' : ds_dep (fst r') v = None) by (destruct step_cases as [E|(y & E & _)]; rewrite E; exact D).
    specialize (M1 v D'). unfold within in M1. fold vs' in M1. rewrite F in M1. exact M1.
  Qed.

  Hypothesis Fe : exists z, solves s z.
  Lemma some_meets : exists z, meets r z.
  Proof. destruct Fe as [z S]. destruct (proj2 (sr_keeps _ _ _ Rd) z S) as (z' & M & _). eauto. Qed.
  (** What the step fixes it fixes within the bounds. *)
  Lemma step_inside v : (vs' v = vs v) \/ va_fixed (vs v) = false /\ ds_dep (fst r) v = None /\ va_fixed (vs' v) = true /\ va_lower (vs' v) = va_lower (vs v) /\ va_upper (vs' v) = va_upper (vs v) /\
    va_sense (vs' v) = va_sense (vs v) /\ (va_sense (vs v) = VBinary \/ va_sense (vs v) = VInteger) /\ (va_lower (vs v) <= va_value (vs' v) <= va_upper (vs v))%Z.
  Proof.
    destruct step_cases as [E|(y & E & Ev & F)]; [left; unfold vs'; now rewrite E|]. destruct some_meets as [z M]. rewrite Ev. destruct (in_dec Nat.eq_dec v (bs ++ map snd es)) as [I|I]; [right|left].
    - destruct (proj1 (solved_vars y (bs ++ map snd es) vs v) I) as (A1 & A2 & A3 & A4 & A5). destruct (listed v I) as [L1 L2]. pose proof (listed_free v I) as D.
      rewrite A1, A2, A3, A4, A5, (F z M v I). pose proof (sv_range _ _ (proj1 M) v D) as X. unfold within in X. fold vs in X. rewrite L1 in X. auto 10.
    - exact (proj2 (solved_vars y (bs ++ map snd es) vs v) I).
  Qed.
  Lemma step_same : ds_number (fst r') = ds_number (fst r) /\ ds_cons (fst r') = ds_cons (fst r) /\ ds_obj (fst r') = ds_obj (fst r) /\ ds_exprs (fst r') = ds_exprs (fst r) /\ ds_dep (fst r') = ds_dep (fst r) /\ snd r' = snd r.
  Proof. destruct step_cases as [E|(y & E & _)]; rewrite E; auto 10. Qed.
  Lemma step_back z : meets r' z -> meets r z.
  Proof.
    destruct step_same as (_ & E2 & _ & E4 & E5 & E6). intros [[M1 M2 M3] M4]. rewrite E6 in M4. split; [|exact M4]. constructor.
    - intros v D. rewrite <- E5 in D. specialize (M1 v D). fold vs. fold vs' in M1. destruct (step_inside v) as [E|(A1 & _ & A3 & _ & _ & _ & _ & A8)]; [rewrite E in M1; exact M1|].
      unfold within in *. rewrite A3 in M1. rewrite A1. lia.
    - rewrite <- E2. exact M2.
    - rewrite <- E4, <- E5. exact M3.
  Qed.
  Lemma step_iff z : meets r' z <-> meets r z.
  Proof. split; [apply step_back|apply step_meets]. Qed.
  Lemma step_keeps : keeps_optimum m s r'.
  Proof.
    destruct step_same as (_ & _ & E3 & _). destruct (sr_keeps _ _ _ Rd) as [K1 K2]. split.
    - intros z M. rewrite E3. apply K1, step_back, M.
    - intros z S. destruct (K2 z S) as (z' & M & G). exists z'. split; [apply step_meets, M|exact G].
  Qed.
  Lemma step_sense v : va_sense (vs' v) = va_sense (vs v) /\ va_lower (vs' v) = va_lower (vs v) /\ va_upper (vs' v) = va_upper (vs v).
  Proof. destruct (step_inside v) as [->|(_ & _ & _ & A & B & C & _)]; auto. Qed.
  Lemma step_selection v : va_sense (vs v) = VSelection -> vs' v = vs v.
  Proof. intros E. destruct (step_inside v) as [X|(_ & _ & _ & _ & _ & _ & [X|X] & _)]; [exact X|congruence|congruence]. Qed.

  Lemma step_ready : search_ready m s r'.
  Proof.
    destruct step_same as (E1 & E2 & E3 & E4 & E5 & E6). pose proof Rd as [R1 R2 R3 R4 R5 R6 R7 R8 R9].
    assert (Cc : coherent (fst r') /\ clean (fst r')).
    { apply (same_dependents (fst r)); try assumption; [rewrite E2; apply derived_refl|]. intros v. fold vs vs'. unfold is_dependent. rewrite (proj1 (step_sense v)). reflexivity. }
    destruct R4 as ((D1 & D2) & So & Ds). fold vs in D2, So, Ds, R3. constructor.
    - exact step_keeps.
    - rewrite E1. exact R2.
    - rewrite E1, E6. fold vs'. destruct R3 as [V1 V2]. split.
      + intros t I. destruct (V1 t I) as (v & A1 & A2 & A3). destruct (D2 t I) as [_ X]. exists v. split; [exact A1|]. rewrite (step_selection v (X v A1)). split; [exact A2|].
        intros w W N. rewrite (step_selection w (X w W)). exact (A3 w W N).
      + intros v L. destruct (V2 v L) as [B1 B2]. destruct (step_inside v) as [->|(_ & _ & _ & A4 & A5 & A6 & A7 & A8)]; [auto|]. rewrite A4, A5, A6. destruct (So v) as (_ & S2 & _). split; [|auto].
        intros Sn. destruct (S2 (or_introl Sn)). lia.
    - unfold ready. rewrite E5, E6. fold vs'. split; [split; [exact D1|]|split].
      + intros t I. destruct (D2 t I) as [Nd X]. split; [exact Nd|]. intros v J. rewrite (proj1 (step_sense v)). apply X, J.
      + intros v. destruct (So v) as (S1 & S2 & S3). destruct (step_inside v) as [X|(_ & _ & A3 & A4 & A5 & A6 & A7 & A8)]; [rewrite X; exact (So v)|]. unfold PrepareSpec.sound. rewrite A4, A5, A6. auto.
      + intros v E. apply Ds. rewrite <- (proj1 (step_sense v)). exact E.
    - rewrite E1, E6. exact R5.
    - exact (proj1 Cc).
    - exact (proj2 Cc).
    - rewrite E2. exact R8.
    - rewrite E4. exact R9.
  Qed.
  Lemma step_settled : settled r -> settled r'.
  Proof.
    destruct step_same as (E1 & E2 & E3 & E4 & E5 & E6). intros [T1 T2 T3 T4 T5]. constructor; rewrite ?E1, ?E2, ?E3, ?E5, ?E6; fold vs'; fold vs in T1, T2, T3, T4.
    - intros c I En. destruct (T1 c I En) as (A & B & C & D). split; [exact A|]. split; [exact B|]. split; [exact C|]. intros F v J. specialize (D F v J).
      unfold zero_one_in in *. destruct (step_sense v) as (-> & -> & ->). exact D.
    - intros v L F Sn. destruct (step_sense v) as (X & -> & ->). rewrite X in Sn. destruct (step_inside v) as [E|(_ & _ & A & _)]; [|congruence]. rewrite E in F. exact (T2 v L F Sn).
    - intros v D. destruct (step_inside v) as [->|(_ & A & _)]; [exact (T3 v D)|congruence].
    - intros v L Sn. rewrite (proj1 (step_sense v)) in Sn. exact (T4 v L Sn).
    - exact T5.
  Qed.
  Lemma step_in_force : all_in_force r'.
  Proof. destruct step_same as (E1 & E2 & E3 & E4 & E5 & E6). intros D y M c I. rewrite E2 in I. rewrite E5 in D. exact (Hold D y (step_back y M) c I). Qed.
  Lemma step_selected : (forall c, In c (sel_cons r) -> ct_sense c = Equal /\ (forall y, meets r y -> satisfies c y) /\ forall v, In v (keys (ct_expr c)) -> ds_dep (fst r) v = None) ->
    forall c, In c (sel_cons r') -> ct_sense c = Equal /\ (forall y, meets r' y -> satisfies c y) /\ forall v, In v (keys (ct_expr c)) -> ds_dep (fst r') v = None.
  Proof.
    destruct step_same as (E1 & E2 & E3 & E4 & E5 & E6). intros H c I. rewrite E5. destruct (H c) as (A & B & C).
    - unfold sel_cons in *. rewrite E2, E6 in I. exact I.
    - split; [exact A|]. split; [|exact C]. intros y M. apply B, step_back, M.
  Qed.
End Step.
