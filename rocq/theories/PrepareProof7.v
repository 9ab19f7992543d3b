From Coq Require Import List NArith ZArith QArith Bool Lia.
From Verif Require Import ExprModel ExprSpec ConstraintModel VariableModel TypeModel PresolveModel PresolveSpec DuplicateModel DependentModel DependentSpec SelectionModel SelectionSpec SelectionProof3 PrepareModel PrepareSpec PrepareProof5.
Import ListNotations.
Local Open Scope nat_scope.

(** ** Nothing is done that is switched off *)
Lemma disable_at_nth cs i k c : nth_error (disable_at cs i) k = Some c -> exists d, nth_error cs k = Some d /\ (c = d \/ c = disable d /\ k = i).
Proof.
  revert i k. induction cs as [|a cs IH]; intros [|i] [|k] H; cbn in *; try discriminate; eauto.
  - injection H as <-. eauto.
  - destruct (IH i k H) as (d & A & [B | [B ->]]); eauto.
Qed.
Lemma disable_all_nth l : forall cs k c, nth_error (fold_left disable_at l cs) k = Some c -> exists d, nth_error cs k = Some d /\ (c = d \/ c = disable d /\ In k l).
Proof.
  induction l as [|i l IH]; intros cs k c H; cbn [fold_left] in H; [eauto|].
  destruct (IH _ _ _ H) as (d & A & B). destruct (disable_at_nth _ _ _ _ A) as (e & A' & B'). exists e. split; [exact A'|].
  destruct B as [-> | [-> I]]; destruct B' as [-> | [-> ->]]; cbn [In]; auto.
Qed.
Lemma selections_untouched sw su s : let r := prepare_selections sw su s in
  ds_obj (fst r) = ds_obj s /\ ds_exprs (fst r) = ds_exprs s /\ ds_dep (fst r) = ds_dep s /\ ds_number (fst r) = ds_number s /\
  (forall v, let a := ds_vars s v in let b := ds_vars (fst r) v in
     va_lower b = va_lower a /\ va_upper b = va_upper a /\ va_fixed b = va_fixed a /\ va_value b = va_value a /\
     (va_sense b = va_sense a \/ exists t, In t (snd r) /\ In v (sl_vars t))) /\
  (forall k c, nth_error (ds_cons (fst r)) k = Some c -> exists d, nth_error (ds_cons s) k = Some d /\ (c = d \/ c = disable d /\ exists t, In t (snd r) /\ sl_con t = k)) /\
  (sw_mode sw = Off \/ ds_number s <= length (ds_cons s) -> r = (s, [])).
Proof.
  intros r. unfold prepare_selections in r. destruct (negb (is_off (sw_mode sw)) && (length (ds_cons s) <? ds_number s)) eqn:E.
  2:{ subst r. cbn [fst snd]. do 4 (split; [reflexivity|]). split; [intros v; cbv zeta; auto 10|]. split; [eauto|reflexivity]. }
  unfold extract_selections in r. subst r. cbn [fst snd ds_obj ds_exprs ds_dep ds_number ds_vars ds_cons]. do 4 (split; [reflexivity|]). split; [|split].
  - intros v. set (sels := map _ _). cbv zeta. destruct (existsb (Nat.eqb v) (flat_map sl_vars sels)) eqn:X; [|auto 10].
    do 4 (split; [reflexivity|]). right. apply existsb_exists in X as (w & I & W). apply Nat.eqb_eq in W. subst w. apply in_flat_map in I. exact I.
  - intros k c H. apply disable_all_nth in H as (d & A & B). exists d. split; [exact A|]. destruct B as [-> | [-> I]]; [auto|]. right. split; [reflexivity|].
    apply in_map_iff in I as (t & <- & I). eexists. split; [apply in_map, I|reflexivity].
  - intros [H | H].
    + rewrite H in E. discriminate.
    + apply andb_true_iff in E as [_ E]. apply Nat.ltb_lt in E. lia.
Qed.
Lemma sets_off sw su m s : sw_presolve sw = false \/ sw_set_vars sw = false /\ sw_duplicates sw = false -> prepare_sets sw su m s = s.
Proof.
  intros H. unfold prepare_sets. replace (sw_presolve sw && sw_set_vars sw) with false; [replace (sw_presolve sw && sw_duplicates sw) with false|].
  - destruct s; reflexivity.
  - destruct H as [-> | [_ ->]]; [reflexivity|now rewrite andb_false_r].
  - destruct H as [-> | [-> _]]; [reflexivity|now rewrite andb_false_r].
Qed.
Lemma presolve_off fuel sw su m s : sw_presolve sw = false -> prepare_problem fuel sw su m s = Some (Ok (prepare_selections sw su s)).
Proof. intros E. unfold prepare_problem, prepare_reduce, prepare_dependents. rewrite E. cbn [andb]. rewrite sets_off by auto. reflexivity. Qed.
Lemma dependents_off fuel sw su m s r : sw_presolve sw = false \/ wants_dependents sw = false -> prepare_problem fuel sw su m s = Some (Ok r) ->
  ds_obj (fst r) = ds_obj s /\ ds_exprs (fst r) = ds_exprs s /\ ds_dep (fst r) = ds_dep s /\ ds_number (fst r) = ds_number s.
Proof.
  intros W H. unfold prepare_problem in H. destruct (prepare_reduce fuel sw su m s) as [[s1| |]|] eqn:E; try discriminate.
  unfold prepare_dependents in H. replace (sw_presolve sw && wants_dependents sw) with false in H by (destruct W as [-> | ->]; [reflexivity|now rewrite andb_false_r]).
  injection H as <-. destruct (selections_untouched sw su (prepare_sets sw su m s1)) as (A & B & C & D & _). rewrite A, B, C, D. unfold prepare_sets. cbn [ds_obj ds_exprs ds_dep ds_number].
  unfold prepare_reduce in E. destruct (sw_presolve sw); [|injection E as <-; auto].
  destruct (reduce_problem_size _ _ _ _) as [[p| |]|]; try discriminate. injection E as <-. auto.
Qed.
Lemma size_only fuel sw su m s : sw_presolve sw = true -> sw_implicit sw = false -> sw_set_cons sw = false -> sw_set_vars sw = false -> sw_duplicates sw = false ->
  wants_dependents sw = false -> sw_mode sw = Off ->
  forall r, prepare_problem fuel sw su m s = Some (Ok r) <->
  exists p, reduce_problem_size fuel m (coef (ex_sens (ds_obj s))) (mkP (ds_number s) (ds_vars s) (ds_cons s)) = Some (Ok p) /\
  r = (mkD (ds_number s) (ps_vars p) (ps_cons p) (ds_obj s) (ds_exprs s) (ds_dep s), []).
Proof.
  intros H1 H2 H3 H4 H5 H6 H7 r. unfold prepare_problem, prepare_reduce, prepare_dependents. rewrite H1, H2, H3, H6. cbn [andb fst snd].
  destruct (reduce_problem_size _ _ _ _) as [[p| |]|]; (split; [intros H|intros (q & E & ->)]); try discriminate.
  - injection H as <-. exists p. split; [reflexivity|]. rewrite sets_off by auto. apply selections_untouched. auto.
  - injection E as <-. f_equal. f_equal. rewrite sets_off by auto. apply selections_untouched. auto.
Qed.
Lemma start_kept sw su r r' : ready r -> sw_correct sw = false -> prepare_start sw su r = Ok r' -> forall v, va_value (ds_vars (fst r') v) = va_value (ds_vars (fst r) v).
Proof.
  destruct r as [s sels]. intros (Rd & So & Nd) C H. unfold prepare_start in H.
  assert (Sa : sane_bounds (ds_number s) (ds_vars s)).
  { intros v _. destruct (So v) as (S1 & S2 & _). split; [exact S1|]. intros E. apply S2. auto. }
  destruct (verify _ _ _ _ _ _) as [[vs' sels']|] eqn:E; [|discriminate]. injection H as <-. cbn [fst ds_vars].
  exact (proj2 (proj2 (proj2 (verify_spec _ _ _ _ _ _ _ _ Rd Sa E))) C).
Qed.
Lemma values_kept sw su m s : proper_model s -> (exists x, solves s x) -> calm_rounds sw su m s -> calm_sets sw su m s -> sw_correct sw = false ->
  exists F, forall fuel r r', F <= fuel -> prepare_problem fuel sw su m s = Some (Ok r) -> prepare fuel sw su m s = Some (Ok r') ->
  forall v, va_value (ds_vars (fst r') v) = va_value (ds_vars (fst r) v).
Proof.
  intros P Fe C1 C2 C. destruct (problem_phase sw su m s P Fe C1 C2) as [F H]. exists F. intros fuel r r' L E E'.
  destruct (H fuel L) as (r0 & E0 & _ & Rd). rewrite E in E0. injection E0 as <-. unfold prepare in E'. rewrite E in E'. injection E' as E'.
  exact (start_kept sw su r r' Rd C E').
Qed.
Lemma wanted_iff sw : wants_dependents sw = true <->
  sw_dependent sw ExclusiveOR = true \/ sw_dependent sw ExclusiveNOR = true \/ sw_dependent sw InvertedIntegers = true \/ sw_dependent sw BalancedIntegers = true \/
  sw_dependent sw ConstantSumIntegers = true \/ sw_dependent sw ConstantDifferenceIntegers = true \/ sw_dependent sw ConstantRatioIntegers = true \/ sw_dependent sw Intermediate = true.
Proof. unfold wants_dependents, extracted_types. cbn [existsb]. rewrite !orb_true_iff. intuition congruence. Qed.
