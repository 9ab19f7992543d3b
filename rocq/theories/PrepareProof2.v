(** Proofs for C73: the reduction keeps variables sound. *)
From Coq Require Import List ZArith QArith Qabs Qround Bool Arith Lia Lqa.
From Verif Require Import ExprModel ExprSpec ExprProof ConstraintModel ConstraintSpec VariableModel TypeModel TypeSpec PresolveModel PresolveSpec
  DuplicateModel DuplicateSpec DependentModel DependentSpec SelectionModel SelectionSpec PrepareModel PrepareSpec.
From Verif Require Import PresolveProof PresolveProof2 PresolveProof3 PresolveProof4 PresolveProof5 DependentProof6 PrepareProof.
Import ListNotations.
Local Open Scope Q_scope.

Definition core (a : var) : Prop := (va_lower a <= va_upper a)%Z /\
  (va_sense a = VBinary \/ va_sense a = VSelection \/ va_sense a = VDependentBinary -> 0 <= va_lower a /\ va_upper a <= 1)%Z.
Definition all_core (vs : vars) : Prop := forall v, core (vs v).
Definition all_sound (vs : vars) : Prop := forall v, sound (vs v).
Lemma sound_core vs : all_sound vs -> all_core vs.
Proof. intros H v. destruct (H v) as (A & B & _). split; assumption. Qed.

Lemma core_bounded vs v lo hi : (lo <= hi)%Z -> all_core vs -> all_core (bounded vs v lo hi).
Proof.
  intros H C w. unfold bounded, set_var. destruct (Nat.eqb w v); [|apply C]. cbn [v_step].
  destruct (Z.ltb_spec hi lo); [lia|]. unfold core, v_margin. cbn [va_lower va_upper va_sense]. split; [exact H|].
  unfold binary_or_integer. destruct (_ || _) eqn:E; [|intros [?|[?|?]]; discriminate]. intros _.
  apply orb_true_iff in E. rewrite orb_true_iff in E. rewrite !andb_true_iff, !Z.eqb_eq in E. lia.
Qed.
Lemma core_fix vs v a : all_core vs -> all_core (do_fix_by vs v a).
Proof.
  intros C w. unfold do_fix_by. cbn [v_step]. unfold set_var. destruct (Nat.eqb_spec w v) as [->|D]; [|apply C]. exact (C v).
Qed.
Lemma core_raise vs v q lb ub r : all_core vs -> raise_lower vs v q lb ub = Ok r -> all_core (fst r).
Proof.
  intros C E. pose proof (raise_lower_cases vs v q lb ub) as H. rewrite E in H. destruct r as [vs' u]. cbn [fst].
  destruct H as [(-> & _)|(-> & _ & R & _)]; [exact C|]. apply core_bounded; [lia|exact C].
Qed.
Lemma core_cut vs v q lb ub r : all_core vs -> cut_upper vs v q lb ub = Ok r -> all_core (fst r).
Proof.
  intros C E. pose proof (cut_upper_cases vs v q lb ub) as H. rewrite E in H. destruct r as [vs' u]. cbn [fst].
  destruct H as [(-> & _)|(-> & _ & R & _)]; [exact C|]. apply core_bounded; [lia|exact C].
Qed.
Lemma core_positive c L U st p st' : all_core (fst st) -> tighten_positive c L U st p = Ok st' -> all_core (fst st').
Proof.
  destruct st as [vs u]. destruct p as [v a]. cbn [fst]. intros C. unfold tighten_positive. intros E.
  apply bind_ok in E. destruct E as (r & E1 & E). apply bind_ok in E. destruct E as (r' & E2 & E). injection E as <-. cbn [fst].
  assert (C1 : all_core (fst r)) by (destruct (ct_ge c); [exact (core_raise _ _ _ _ _ _ C E1)|injection E1 as <-; exact C]).
  destruct (ct_le c); [exact (core_cut _ _ _ _ _ _ C1 E2)|injection E2 as <-; exact C1].
Qed.
Lemma core_negative c L U st p st' : all_core (fst st) -> tighten_negative c L U st p = Ok st' -> all_core (fst st').
Proof.
  destruct st as [vs u]. destruct p as [v a]. cbn [fst]. intros C. unfold tighten_negative. destruct (Qeq_bool a 0); [discriminate|]. intros E.
  apply bind_ok in E. destruct E as (r & E1 & E). apply bind_ok in E. destruct E as (r' & E2 & E). injection E as <-. cbn [fst].
  assert (C1 : all_core (fst r)) by (destruct (ct_ge c); [exact (core_cut _ _ _ _ _ _ C E1)|injection E1 as <-; exact C]).
  destruct (ct_le c); [exact (core_raise _ _ _ _ _ _ C1 E2)|injection E2 as <-; exact C1].
Qed.
Lemma core_each (f : vars * bool -> nat * Q -> outcome (vars * bool)) l :
  (forall st p st', all_core (fst st) -> f st p = Ok st' -> all_core (fst st')) ->
  forall st st', all_core (fst st) -> each f l st = Ok st' -> all_core (fst st').
Proof.
  intros H. induction l as [|p l IH]; intros st st' C E; [injection E as <-; exact C|].
  cbn [each] in E. apply bind_ok in E. destruct E as (st1 & E1 & E). apply (IH st1); [|exact E]. exact (H _ _ _ C E1).
Qed.

Lemma singleton_sound vs c v a vs' b u : va_fixed (vs v) = false -> all_sound vs -> shrinks vs vs' ->
  tighten_singleton vs c v a = Ok (vs', b, u) -> all_sound vs'.
Proof.
  intros Fv So Sh E. pose proof (sound_core _ So) as C.
  assert (Cut : forall q r, cut_upper vs v q (va_lower (vs v)) (va_upper (vs v)) = Ok r -> all_sound (fst r)).
  { intros q r E1. pose proof (core_cut _ _ _ _ _ _ C E1) as C1. pose proof (cut_upper_nested vs vs v q (nested_refl vs) Fv) as N.
    rewrite E1 in N. destruct r as [ws k]. cbn [fst] in *. destruct N as [N _]. intros w. destruct (C1 w) as [A B]. split; [exact A|]. split; [exact B|].
    destruct (N w) as (N1 & N2 & _). rewrite N1. intros F. rewrite (N2 F). apply So. exact F. }
  assert (Raise : forall q r, raise_lower vs v q (va_lower (vs v)) (va_upper (vs v)) = Ok r -> all_sound (fst r)).
  { intros q r E1. pose proof (core_raise _ _ _ _ _ _ C E1) as C1. pose proof (raise_lower_nested vs vs v q (nested_refl vs) Fv) as N.
    rewrite E1 in N. destruct r as [ws k]. cbn [fst] in *. destruct N as [N _]. intros w. destruct (C1 w) as [A B]. split; [exact A|]. split; [exact B|].
    destruct (N w) as (N1 & N2 & _). rewrite N1. intros F. rewrite (N2 F). apply So. exact F. }
  unfold tighten_singleton in E. destruct (ct_sense c).
  - destruct (Qlt_le_dec 0 a); [|destruct (Qlt_le_dec a 0)].
    + apply bind_ok in E. destruct E as (r & E & F). injection F as <- _ _. exact (Cut _ _ E).
    + apply bind_ok in E. destruct E as (r & E & F). injection F as <- _ _. exact (Raise _ _ E).
    + injection E as <- _ _. exact So.
  - destruct (Qeq_bool a 0); [discriminate|]. apply bind_ok in E. destruct E as (z & _ & F). injection F as <- _ _.
    intros w. destruct (core_fix vs v z C w) as [A B]. split; [exact A|]. split; [exact B|].
    destruct (fix_by_facts vs v z w) as (F1 & F2 & F3 & F4 & F5). destruct (Nat.eq_dec w v) as [->|D].
    + intros F. rewrite F3, F4. destruct (Sh v) as (_ & _ & S3). exact (S3 Fv F).
    + rewrite (F5 D). apply So.
  - destruct (Qlt_le_dec a 0); [|destruct (Qlt_le_dec 0 a)].
    + apply bind_ok in E. destruct E as (r & E & F). injection F as <- _ _. exact (Cut _ _ E).
    + apply bind_ok in E. destruct E as (r & E & F). injection F as <- _ _. exact (Raise _ _ E).
    + injection E as <- _ _. exact So.
Qed.

Lemma tighten_all_sound vs c vs' b u y0 : wf (ct_expr c) -> integral (ct_expr c) -> legal vs y0 -> satisfies c y0 -> all_sound vs ->
  tighten vs c = Ok (vs', b, u) -> all_sound vs'.
Proof.
  intros W In_ L S So E. pose proof (tighten_shrinks vs c vs' b u y0 W (fun _ => integral_fixed vs _ In_) L S E) as Sh. revert E.
  unfold tighten. cbv zeta. destruct (always_satisfied _ _ _).
  { intros E. injection E as <- <- <-. exact So. }
  pose proof (general_nested vs c vs' b u W) as G. cbv zeta in G.
  assert (K : bind (each (tighten_positive c (e_lower (ct_expr c) (vi_of vs)) (e_upper (ct_expr c) (vi_of vs))) (positive_mutables vs (ct_expr c)) (vs, false)) (fun s =>
        bind (each (tighten_negative c (e_lower (ct_expr c) (vi_of vs)) (e_upper (ct_expr c) (vi_of vs))) (negative_mutables vs (ct_expr c)) s) (fun s => Ok (fst s, false, snd s))) = Ok (vs', b, u) -> all_sound vs').
  { intros E. specialize (G E). apply bind_ok in E. destruct E as (s1 & E1 & E). apply bind_ok in E. destruct E as (s2 & E2 & E). injection E as <- _ _.
    assert (C1 : all_core (fst s1)) by (apply (core_each _ _ (fun st p st' => core_positive c _ _ st p st') (vs, false) s1 (sound_core _ So) E1)).
    assert (C2 : all_core (fst s2)) by (apply (core_each _ _ (fun st p st' => core_negative c _ _ st p st') s1 s2 C1 E2)).
    intros w. destruct (C2 w) as [A B]. split; [exact A|]. split; [exact B|].
    destruct (G w) as (N1 & N2 & _). rewrite N1. intros F. rewrite (N2 F). apply So. exact F. }
  destruct (mutables vs (ct_expr c)) as [|[v a] [|p l]] eqn:Hm; [exact K| |exact K].
  destruct (mut_var _ _ _ _ Hm) as [_ Fv]. intros E. exact (singleton_sound vs c v a vs' b u Fv So Sh E).
Qed.

Lemma pass_sound cs : forall vs vs' cs' k y0, PresolveProof3.plain cs -> legal vs y0 -> sat_all cs y0 -> all_sound vs ->
  redundant_pass vs cs = Ok (vs', cs', k) -> all_sound vs'.
Proof.
  induction cs as [|c tl IH]; intros vs vs' cs' k y0 P L S So; cbn [redundant_pass]; intros E.
  { injection E as <- _ _. exact So. }
  assert (Ptl : PresolveProof3.plain tl) by (intros d Hd; apply P; now right).
  assert (Stl : sat_all tl y0) by (intros d Hd; apply S; now right).
  destruct (ct_enabled c) eqn:En.
  - destruct (P c (or_introl eq_refl) En) as [W Int]. assert (Sc : satisfies c y0) by (apply S; [now left|exact En]).
    apply bind_ok in E. destruct E as ([[vs1 off] u] & E1 & E). apply bind_ok in E. destruct E as ([[vs2 tl'] m] & E2 & E). injection E as <- _ _.
    pose proof (tighten_sound vs c y0 W (fun _ => integral_fixed vs _ Int) L Sc) as TS. rewrite E1 in TS.
    apply (IH vs1 vs2 tl' m y0 Ptl TS Stl); [|exact E2]. exact (tighten_all_sound vs c vs1 off u y0 W Int L Sc So E1).
  - apply bind_ok in E. destruct E as ([[vs2 tl'] m] & E2 & E). injection E as <- _ _. exact (IH vs vs2 tl' m y0 Ptl L Stl So E2).
Qed.

Lemma fix_sound vs v z : (va_lower (vs v) <= z <= va_upper (vs v))%Z -> all_sound vs -> all_sound (do_fix_by vs v z).
Proof.
  intros B So w. destruct (core_fix vs v z (sound_core _ So) w) as [A1 A2]. split; [exact A1|]. split; [exact A2|].
  destruct (fix_by_facts vs v z w) as (F1 & F2 & F3 & F4 & F5). destruct (Nat.eq_dec w v) as [->|D].
  - intros _. rewrite F2, F3, F4, Nat.eqb_refl. exact B.
  - rewrite (F5 D). apply So.
Qed.
Lemma implicit_sound n vs : all_sound vs -> all_sound (fst (implicit_pass n vs)).
Proof.
  unfold implicit_pass. generalize (seq 0 n) as l. intros l.
  assert (G : forall st, all_sound (fst st) -> all_sound (fst (fold_left fix_implicit l st))).
  { induction l as [|v l IH]; intros [ws k] So; [exact So|]. cbn [fold_left]. apply IH. unfold fix_implicit.
    destruct (va_fixed (ws v)); [exact So|]. destruct (Z.eqb_spec (va_lower (ws v)) (va_upper (ws v))); [|exact So].
    cbn [fst] in *. apply fix_sound; [lia|exact So]. }
  intros So. exact (G (vs, O) So).
Qed.
Lemma reduce_sound fuel : forall p p' y0, tame (ps_cons p) -> moderate (ps_vars p) -> solution p y0 -> all_sound (ps_vars p) ->
  reduce_loop fuel p = Some (Ok p') -> all_sound (ps_vars p').
Proof.
  induction fuel as [|f IH]; intros [n vs cs] p' y0 T M [L S] So; cbn [reduce_loop ps_vars ps_cons ps_number] in *; intros E; [discriminate|].
  destruct (redundant_pass vs cs) as [[[vs1 cs1] k]| |] eqn:E1; try discriminate.
  pose proof (pass_sound cs vs vs1 cs1 k y0 (tame_plain _ T) L S So E1) as So1.
  destruct (pass_exact _ _ _ _ _ _ (tame_plain _ T) M L S E1) as (A1 & A2 & A3 & A4). pose proof (pass_tame _ _ _ _ _ T E1) as T1.
  pose proof (implicit_sound n vs1 So1) as So2. destruct (implicit_pass n vs1) as [vs2 k2] eqn:EI. cbn [fst] in So2. unfold implicit_pass in EI.
  destruct (implicit_fold _ (seq_NoDup _ _) _ _ _ _ EI) as (B1 & B2 & _).
  destruct (Nat.eqb k 0 && Nat.eqb k2 0); [injection E as <-; exact So2|].
  apply (IH (mkP n vs2 cs1) p' y0); cbn [ps_vars ps_cons]; auto.
  - apply (shrinks_moderate vs); [|exact M]. exact (shrinks_trans _ _ _ A1 B1).
  - destruct (proj1 (A3 y0) (conj L S)) as [L1 S1]. split; cbn [ps_vars ps_cons]; [|exact S1]. apply B2. exact L1.
Qed.
Lemma independent_sound cs minimize obj : forall l vs k, decided cs (mkExpr obj 0) vs -> (exists y, legal vs y) -> all_sound vs ->
  all_sound (fst (fold_left (fix_independent cs minimize (coef obj)) l (vs, k))).
Proof.
  induction l as [|v tl IH]; intros vs k D [y0 L0] So; cbn [fold_left]; [exact So|].
  cbn [fix_independent]. destruct (va_fixed (vs v)) eqn:F; [apply IH; eauto|].
  destruct (related cs v) eqn:R; [apply IH; eauto|].
  set (z := independent_value minimize (coef obj v) (vs v)).
  assert (B : (va_lower (vs v) <= z <= va_upper (vs v))%Z).
  { assert (B0 : (va_lower (vs v) <= y0 v <= va_upper (vs v))%Z) by (apply L0; exact F).
    specialize (D v F (related_false _ _ R)). cbn [ex_sens] in D. subst z. unfold independent_value.
    destruct (Qlt_le_dec (Qabs (coef obj v)) EPS10); [destruct D as [D|[_ D]]; [lra|exact D]|].
    destruct (Qlt_le_dec 0 (coef obj v)); destruct minimize; lia. }
  apply IH.
  - intros w Fw Rw. destruct (fix_by_facts vs v z w) as (F1 & F2 & F3 & F4 & _). rewrite F1 in Fw.
    destruct (Nat.eqb w v); [discriminate|]. rewrite F3, F4. exact (D w Fw Rw).
  - exists (set_val y0 v z). now apply legal_fixed_step.
  - apply fix_sound; assumption.
Qed.

(** ** One call of reduce_problem_size *)
Record good (vs : vars) (cs : list constr) : Prop := mkGood {
  gd_tame : tame cs; gd_moderate : moderate vs; gd_moderate_fixed : moderate_fixed vs; gd_sound : all_sound vs; gd_flags : unit_flags cs }.

Lemma size_good minimize obj n vs cs y0 : wf obj -> decided cs obj vs -> good vs cs -> solution (mkP n vs cs) y0 ->
  exists F, forall fuel, (F <= fuel)%nat -> exists p, reduce_problem_size fuel minimize (coef (ex_sens obj)) (mkP n vs cs) = Some (Ok p) /\
    good (ps_vars p) (ps_cons p) /\ lessened cs (ps_cons p) /\
    (forall y, solution (mkP n (ps_vars p) (ps_cons p)) y -> solution (mkP n vs cs) y) /\
    (forall y, solution (mkP n vs cs) y -> exists y', solution (mkP n (ps_vars p) (ps_cons p)) y' /\ as_good minimize (e_eval obj y') (e_eval obj y)).
Proof.
  intros W D [T M MF So Fl] S. exists (1 + number_enabled cs + number_mutable n vs)%nat. intros fuel Hf.
  destruct (reduce_problem_correct (mkP n vs cs) minimize obj y0 fuel W D T M MF S) as (p & E & H1 & H2); [cbn [ps_cons ps_vars ps_number]; lia|].
  exists p. split; [exact E|]. destruct (size_touched _ _ _ _ _ E) as [_ Le]. cbn [ps_cons] in Le.
  assert (G : good (ps_vars p) (ps_cons p)).
  2:{ split; [exact G|]. split; [exact Le|]. split; [exact H1|exact H2]. }
  unfold reduce_problem_size in E. cbn [ps_number ps_cons ps_vars] in E.
  destruct (independent_pass n cs minimize (coef (ex_sens obj)) vs) as [vs1 k] eqn:EI.
  pose proof (proj1 S) as L. cbn [ps_vars] in L.
  destruct (independent_solutions n cs minimize obj vs vs1 k y0 W D L EI) as [A1 A2].
  pose proof (independent_sound cs minimize (ex_sens obj) (seq 0 n) vs O D (ex_intro _ _ L) So) as So1.
  destruct (independent_moderate cs minimize (ex_sens obj) _ vs _ vs1 k D M MF (ex_intro _ _ L) EI) as (B1 & B2 & B3).
  unfold independent_pass in EI. rewrite EI in So1. cbn [fst] in So1.
  destruct (A2 y0 S) as (y1 & S1 & _).
  pose proof (reduce_exact fuel (mkP n vs1 cs) y1 (tame_plain _ T) B1 S1) as X. rewrite E in X. destruct X as [_ Sh]. cbn [ps_vars] in Sh.
  constructor.
  - intros c I En. destruct (lessened_in _ _ _ Le I) as (d & J & [->| ->]); [apply T; assumption|discriminate].
  - exact (shrinks_moderate _ _ Sh B1).
  - exact (shrinks_moderate_fixed _ _ Sh B1 B2).
  - exact (reduce_sound fuel (mkP n vs1 cs) p y1 T B1 S1 So1 E).
  - intros c I En. destruct (lessened_in _ _ _ Le I) as (d & J & [->| ->]); [apply Fl; assumption|discriminate].
Qed.
