(** Proofs for C73: the rounds of the dependent variables. *)
From Coq Require Import List NArith ZArith QArith Qabs Bool Arith Permutation Lia Lqa.
From Verif Require Import ExprModel ExprSpec ExprProof ConstraintModel ConstraintSpec VariableModel TypeModel TypeSpec PresolveModel PresolveSpec
  DuplicateModel DuplicateSpec DependentModel DependentSpec SelectionModel SelectionSpec PrepareModel PrepareSpec.
From Verif Require Import PresolveProof5 DependentProof3 DependentProof4 DependentProof5 DependentProof6 PrepareProof PrepareProof2 PrepareProof3.
Import ListNotations.
Local Open Scope nat_scope.

Lemma size_more f g mi obj p r : reduce_problem_size f mi obj p = Some r -> f <= g -> reduce_problem_size g mi obj p = Some r.
Proof.
  unfold reduce_problem_size. destruct (independent_pass (ps_number p) (ps_cons p) mi obj (ps_vars p)) as [vs k]. apply reduce_more.
Qed.

Lemma numbered_snd cs : map snd (numbered cs) = cs.
Proof.
  unfold numbered. generalize 0 as k. induction cs as [|c cs IH]; intros k; [reflexivity|]. cbn [length seq combine map snd]. f_equal. apply IH.
Qed.
Lemma extract_nothing opt names s s' : extract opt names s = Some (O, s') -> s' = s.
Proof.
  unfold extract. destruct (all_some _) as [es|] eqn:A; [|discriminate]. intros E. injection E as L <-.
  destruct (picks opt names s) as [|c ps]; [|discriminate]. cbn in A. injection A as <-.
  cbn [combine seq length fold_left flat_map existsb map]. rewrite !app_nil_r, numbered_snd. destruct s; reflexivity.
Qed.

Lemma dependent_sound vs v : all_sound vs -> all_sound (make_dependent vs v).
Proof.
  intros H w. unfold make_dependent. cbn [v_step]. unfold set_var. destruct (Nat.eqb_spec w v) as [->|D]; [|apply H].
  destruct (H v) as (A & B & C). unfold sound. cbn [v_with_sense va_lower va_upper va_sense va_fixed va_value]. split; [exact A|]. split; [|exact C].
  unfold binary_or_integer. destruct (_ || _) eqn:E; [|intros [X|[X|X]]; discriminate X].
  intros _. rewrite !orb_true_iff, !andb_true_iff, !Z.eqb_eq in E. lia.
Qed.
Lemma dependents_sound ps : forall vs, all_sound vs -> all_sound (fold_left (fun vs c => make_dependent vs (ca_key c)) ps vs).
Proof. induction ps as [|c ps IH]; intros vs H; [exact H|]. cbn [fold_left]. apply IH, dependent_sound, H. Qed.

Lemma moderate_covered vs x : moderate vs -> covered vs x.
Proof. intros M v F. specialize (M v F). unfold INT_HALF_MIN, INT_HALF_MAX, BOUND_LIMIT in *. lia. Qed.

Section Rounds.
  Variables (opt : ctype -> bool) (names : nat -> nat) (mi : bool).

  Lemma round_phase s k s1 s2 : fit s -> extract opt names s = Some (k, s1) -> acyclic s1 -> eliminate_loop 3 s1 = Some s2 ->
    tame (ds_cons s2) -> (forall e, In e (ds_exprs s2) -> whole e) -> unit_flags (ds_cons s2) -> fit s2 /\ refines mi s s2.
  Proof.
    intros Ft Ex Ac E2 Ta Wh Fl.
    destruct (round_covered opt names s k s1 3 (ft_coherent s Ft) (ft_clean s Ft) Ex Ac (Nat.le_refl 3)) as (t & Et & Co & Cl & _ & Vs & Eq).
    rewrite E2 in Et. injection Et as <-. pose proof (ft_good s Ft) as G.
    destruct (extract_shape opt names s k s1 Ex) as (es & _ & _ & _ & Hv & _).
    assert (SD : forall v, same_data (ds_vars s2 v) (ds_vars s v)) by (intros v; rewrite Vs, Hv; apply new_vars).
    split.
    - constructor; [exact Co|exact Cl| |exact Wh]. apply mkGood; [exact Ta| | | |exact Fl].
      + intros v F. destruct (SD v) as (A & B & C & D). rewrite A, B. apply (gd_moderate _ _ G). congruence.
      + intros v F. destruct (SD v) as (A & B & C & D). rewrite D. apply (gd_moderate_fixed _ _ G). congruence.
      + intros v. rewrite Vs, Hv. apply dependents_sound. exact (gd_sound _ _ G).
    - assert (Cv : forall x, covered (ds_vars s) x) by (intros x; apply moderate_covered, (gd_moderate _ _ G)).
      split.
      + intros x S. destruct (Eq x (Cv x)) as [A B]. split; [apply A, S|apply B, A, S].
      + intros x S. exists x. destruct (Eq x (Cv x)) as [A B]. split; [apply A, S|apply as_good_refl; reflexivity].
  Qed.

  Lemma rounds n : forall s N, equations (ds_cons s) < n -> fit s -> (exists x, solves s x) -> (forall f, N <= f -> calm f opt names mi s) ->
    exists F, forall fuel, F <= fuel -> exists s', dependent_loop fuel opt names mi s = Some (Ok s') /\ fit s' /\ refines mi s s'.
  Proof.
    induction n as [|n IH]; intros s N L Ft Fe Ca; [lia|].
    destruct (extract opt names s) as [[[|k] s1]|] eqn:Ex.
    - exists 1. intros [|f] Lf; [lia|]. exists s1. cbn [dependent_loop]. rewrite Ex. split; [reflexivity|].
      rewrite (extract_nothing _ _ _ _ Ex). split; [exact Ft|apply refines_refl].
    - pose proof (extract_equations opt names s k s1 (ft_coherent s Ft) Ex) as L1.
      assert (Ca' : forall f, N <= S f -> 3 <= S f -> exists s2, eliminate_loop 3 s1 = Some s2 /\ acyclic s1 /\
        tame (ds_cons s2) /\ decided (ds_cons s2) (ds_obj s2) (ds_vars s2) /\ (forall e, In e (ds_exprs s2) -> whole e) /\ unit_flags (ds_cons s2) /\
        forall p, reduce_problem_size (S f) mi (coef (ex_sens (ds_obj s2))) (mkP (ds_number s2) (ds_vars s2) (ds_cons s2)) = Some (Ok p) -> calm f opt names mi (after s2 p)).
      { intros f L2 L3. specialize (Ca (S f) L2). cbn [calm] in Ca. rewrite Ex in Ca. destruct Ca as [Ac Ca].
        destruct (round_covered opt names s (S k) s1 3 (ft_coherent s Ft) (ft_clean s Ft) Ex Ac (Nat.le_refl 3)) as (s2 & E2 & _).
        exists s2. split; [exact E2|]. split; [exact Ac|]. rewrite (eliminate_more _ _ _ _ E2 L3) in Ca. destruct Ca as (A & B & C & D & E).
        split; [exact A|]. split; [exact B|]. split; [exact C|]. split; [exact D|]. intros p R. rewrite R in E. exact E. }
      destruct (Ca' (N + 3)) as (s2 & E2 & Ac & Ta & De & Wh & Fl & _); [lia|lia|].
      destruct (round_phase s (S k) s1 s2 Ft Ex Ac E2 Ta Wh Fl) as [Ft2 R2]. pose proof (eliminates_equations _ _ _ E2) as Q2.
      destruct (size_phase mi s2 Ft2 (refines_feasible _ _ _ R2 Fe) De) as [B HB]. destruct (HB B (Nat.le_refl B)) as (p & Ep & Ft3 & R3).
      destruct (size_touched _ _ _ _ _ Ep) as [_ Le]. apply lessened_equations in Le. cbn [ps_cons] in Le.
      destruct (IH (after s2 p) (N + 3 + B)) as [F H].
      + cbn [after ds_cons]. lia.
      + exact Ft3.
      + exact (refines_feasible _ _ _ R3 (refines_feasible _ _ _ R2 Fe)).
      + intros f Lf. destruct (Ca' f) as (t & Et & _ & _ & _ & _ & _ & K); [lia|lia|]. rewrite E2 in Et. injection Et as <-.
        apply K. apply (size_more B); [exact Ep|lia].
      + exists (S (F + 3 + B)). intros [|f] Lf; [lia|]. destruct (H f) as (s' & E & Ft' & R'); [lia|]. exists s'. split.
        * cbn [dependent_loop]. rewrite Ex, (eliminate_more 3 (S f) _ _ E2) by lia. rewrite (size_more B (S f) _ _ _ _ Ep) by lia. exact E.
        * split; [exact Ft'|]. exact (refines_trans _ _ _ _ R2 (refines_trans _ _ _ _ R3 R')).
    - exfalso. exact (extract_total opt names s (ft_coherent s Ft) Ex).
  Qed.
End Rounds.

Lemma dependents_phase sw su m s : fit s -> (exists x, solves s x) ->
  (sw_presolve sw = true -> wants_dependents sw = true -> forall fuel, calm fuel (sw_dependent sw) (su_name su) m s) ->
  exists F, forall fuel, F <= fuel -> exists s', prepare_dependents fuel sw su m s = Some (Ok s') /\ fit s' /\ refines m s s'.
Proof.
  intros Ft Fe Ca. unfold prepare_dependents. destruct (sw_presolve sw && wants_dependents sw) eqn:E.
  - apply andb_true_iff in E as [E1 E2]. apply (rounds (sw_dependent sw) (su_name su) m (S (equations (ds_cons s))) s 0); auto.
  - exists 0. intros fuel _. exists s. split; [reflexivity|]. split; [exact Ft|apply refines_refl].
Qed.
