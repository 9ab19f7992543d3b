(** Proofs for C81: the reduction of a model with inequalities only is sound, whether
    or not it has a solution. *)
From Coq Require Import List NArith ZArith QArith Qabs Qround Bool Arith Lia Lqa Permutation.
From Verif Require Import ExprModel ExprSpec ExprProof ConstraintModel ConstraintSpec VariableModel TypeModel TypeSpec PresolveModel PresolveSpec
  DuplicateModel DuplicateSpec DependentModel DependentSpec SelectionModel SelectionSpec PrepareModel PrepareSpec InfeasibleSpec.
From Verif Require Import PresolveProof PresolveProof2 PresolveProof3 PresolveProof4 PresolveProof5 DuplicateProof DuplicateProof2 DependentProof6
  PrepareProof PrepareProof2 PrepareProof3.
Import ListNotations.
Local Open Scope Q_scope.

(** ** Bounds on what is fixed *)
Fixpoint weight (M : nat -> Z) (l : sens) : Q :=
  match l with [] => 0 | (v, a) :: tl => Qabs a * inject_Z (M v) + weight M tl end.
Definition inside_M (M : nat -> Z) (vs : vars) : Prop := forall v, (Z.abs (va_lower (vs v)) <= M v /\ Z.abs (va_upper (vs v)) <= M v)%Z.
Definition light (M : nat -> Z) (cs : list constr) : Prop := forall c, In c cs -> ct_enabled c = true ->
  ct_sense c <> Equal /\ Qabs (ex_const (ct_expr c)) + weight M (ex_sens (ct_expr c)) <= 99999.

Lemma fixed_weight M vs l : inside_M M vs -> all_sound vs -> Qabs (fixed_sum l (vi_of vs)) <= weight M l.
Proof.
  intros B So. induction l as [|[v a] tl IH]; cbn [fixed_sum weight]; [cbn; lra|].
  cbn [vi_of vi_fixed vi_value]. pose proof (Qabs_nonneg a) as A. destruct (B v) as [B1 B2]. destruct (So v) as (_ & _ & S3).
  assert (Mn : 0 <= inject_Z (M v)) by (change 0 with (inject_Z 0); apply inject_Z_le'; lia).
  pose proof (Qabs_triangle (if va_fixed (vs v) then a * inject_Z (va_value (vs v)) else 0) (fixed_sum tl (vi_of vs))) as T.
  destruct (va_fixed (vs v)).
  - specialize (S3 eq_refl). assert (X : Qabs (inject_Z (va_value (vs v))) <= inject_Z (M v)).
    { apply Qabs_lt_inv; [rewrite <- inject_Z_opp|]; apply inject_Z_le'; lia. }
    assert (Y : Qabs (a * inject_Z (va_value (vs v))) <= Qabs a * inject_Z (M v)).
    { rewrite Qabs_Qmult, (Qmult_comm (Qabs a)), (Qmult_comm (Qabs a)). apply Qmult_le_compat_r; assumption. }
    lra.
  - change (Qabs 0) with 0 in T. assert (0 <= Qabs a * inject_Z (M v)) by (apply Qmult_le_0_compat; assumption). lra.
Qed.

Lemma root_small M vs c v a : inside_M M vs -> all_sound vs -> integral (ct_expr c) -> no_zero (ct_expr c) ->
  Qabs (ex_const (ct_expr c)) + weight M (ex_sens (ct_expr c)) <= 99999 -> mutables vs (ct_expr c) = [(v, a)] -> Qabs (root vs c a) <= 99999.
Proof.
  intros B So Int NZ S Hm. destruct (mut_var _ _ _ _ Hm) as [I F]. unfold root.
  apply unit_div; [apply integral_unit; [exact (Int v a I)|exact (NZ v a I)]|].
  rewrite Qabs_opp, (fixed_term_exact vs (ct_expr c) (integral_fixed vs _ Int)).
  pose proof (Qabs_triangle (fixed_sum (ex_sens (ct_expr c)) (vi_of vs)) (ex_const (ct_expr c))).
  pose proof (fixed_weight M vs (ex_sens (ct_expr c)) B So). lra.
Qed.
Lemma small_ints q : Qabs q <= 99999 -> (Z.abs (Qfloor q) < BOUND_LIMIT /\ Z.abs (Qceiling q) < BOUND_LIMIT)%Z.
Proof.
  intros H. change 99999 with (inject_Z 99999) in H. apply Qabs_Qle_condition in H as [A B]. rewrite <- inject_Z_opp in A. unfold BOUND_LIMIT.
  assert (F : (- (99999) <= Qfloor q <= 99999)%Z) by (split; [now apply floor_above|]; apply Qfloor_resp_le in B; now rewrite Qfloor_Z in B).
  assert (G : (- (99999) <= Qceiling q <= 99999)%Z) by (split; [|now apply ceil_below]; apply Qceiling_resp_le in A; now rewrite Qceiling_Z in A).
  lia.
Qed.

(** ** One constraint *)
Lemma singleton_nested vs c v a vs' b u : mutables vs (ct_expr c) = [(v, a)] -> ct_sense c <> Equal ->
  tighten_singleton vs c v a = Ok (vs', b, u) -> nested vs vs'.
Proof.
  intros Hm Ne. destruct (mut_var _ _ _ _ Hm) as [_ Fv]. unfold tighten_singleton. fold (root vs c a). set (t := root vs c a).
  pose proof (raise_lower_nested vs vs v t (nested_refl vs) Fv) as R1. pose proof (cut_upper_nested vs vs v t (nested_refl vs) Fv) as R2.
  assert (C1 : bind (cut_upper vs v t (va_lower (vs v)) (va_upper (vs v))) (fun r => Ok (fst r, true, snd r)) = Ok (vs', b, u) -> nested vs vs').
  { destruct (cut_upper _ _ _ _ _) as [[vs1 u1]| |]; cbn [bind fst snd]; try discriminate. intros E. injection E as <- _ _. apply R2. }
  assert (C2 : bind (raise_lower vs v t (va_lower (vs v)) (va_upper (vs v))) (fun r => Ok (fst r, true, snd r)) = Ok (vs', b, u) -> nested vs vs').
  { destruct (raise_lower _ _ _ _ _) as [[vs1 u1]| |]; cbn [bind fst snd]; try discriminate. intros E. injection E as <- _ _. apply R1. }
  assert (C3 : Ok (vs, false, false) = Ok (vs', b, u) -> nested vs vs') by (intros E; injection E as <- _ _; apply nested_refl).
  destruct (ct_sense c); [|contradiction|].
  - destruct (Qlt_le_dec 0 a); [exact C1|]. destruct (Qlt_le_dec a 0); [exact C2|exact C3].
  - destruct (Qlt_le_dec a 0); [exact C1|]. destruct (Qlt_le_dec 0 a); [exact C2|exact C3].
Qed.
Lemma tighten_nested vs c vs' b u : wf (ct_expr c) -> ct_sense c <> Equal -> tighten vs c = Ok (vs', b, u) -> nested vs vs'.
Proof.
  intros W Ne. unfold tighten. cbv zeta. destruct (always_satisfied _ _ _); [intros E; injection E as <- _ _; apply nested_refl|].
  pose proof (general_nested vs c vs' b u W) as G. cbv zeta in G.
  destruct (mutables vs (ct_expr c)) as [|[v a] [|p l]] eqn:Hm; [exact G| |exact G]. exact (singleton_nested vs c v a vs' b u Hm Ne).
Qed.
Lemma nested_core vs vs' : all_sound vs -> nested vs vs' -> all_core vs' -> all_sound vs'.
Proof.
  intros So N C w. destruct (C w) as [A B]. split; [exact A|]. split; [exact B|]. destruct (N w) as (N1 & N2 & _). rewrite N1. intros F. rewrite (N2 F). apply So, F.
Qed.
Lemma core_tighten vs c vs' b u : all_core vs -> tighten vs c = Ok (vs', b, u) -> all_core vs'.
Proof.
  intros C. unfold tighten. cbv zeta. destruct (always_satisfied _ _ _); [intros E; injection E as <- _ _; exact C|].
  set (L := e_lower _ _). set (U := e_upper _ _).
  assert (G : bind (each (tighten_positive c L U) (positive_mutables vs (ct_expr c)) (vs, false)) (fun s =>
     bind (each (tighten_negative c L U) (negative_mutables vs (ct_expr c)) s) (fun s => Ok (fst s, false, snd s))) = Ok (vs', b, u) -> all_core vs').
  { intros E. apply bind_ok in E as (s1 & E1 & E). apply bind_ok in E as (s2 & E2 & E). injection E as <- _ _.
    assert (C1 : all_core (fst s1)) by (apply (core_each _ _ (fun st p st' => core_positive c _ _ st p st') (vs, false) s1 C E1)).
    exact (core_each _ _ (fun st p st' => core_negative c _ _ st p st') s1 s2 C1 E2). }
  destruct (mutables vs (ct_expr c)) as [|[v a] [|p l]]; [exact G| |exact G]. clear G. unfold tighten_singleton. intros E.
  destruct (ct_sense c).
  - destruct (Qlt_le_dec 0 a); [|destruct (Qlt_le_dec a 0)].
    + apply bind_ok in E as (r & E & F). injection F as <- _ _. exact (core_cut _ _ _ _ _ _ C E).
    + apply bind_ok in E as (r & E & F). injection F as <- _ _. exact (core_raise _ _ _ _ _ _ C E).
    + injection E as <- _ _. exact C.
  - destruct (Qeq_bool a 0); [discriminate|]. apply bind_ok in E as (z & _ & F). injection F as <- _ _. apply core_fix, C.
  - destruct (Qlt_le_dec a 0); [|destruct (Qlt_le_dec 0 a)].
    + apply bind_ok in E as (r & E & F). injection F as <- _ _. exact (core_cut _ _ _ _ _ _ C E).
    + apply bind_ok in E as (r & E & F). injection F as <- _ _. exact (core_raise _ _ _ _ _ _ C E).
    + injection E as <- _ _. exact C.
Qed.
Lemma nested_legal vs vs' y : nested vs vs' -> legal vs' y -> legal vs y.
Proof. intros N. apply shrinks_legal, nested_shrinks, N. Qed.
Lemma nested_inside M vs vs' : all_sound vs' -> inside_M M vs -> nested vs vs' -> inside_M M vs'.
Proof.
  intros So B N v. destruct (B v) as [B1 B2]. destruct (N v) as (N1 & N2 & N3). destruct (So v) as (S1 & _). destruct (va_fixed (vs v)) eqn:F.
  - rewrite (N2 eq_refl). split; assumption.
  - specialize (N3 eq_refl). lia.
Qed.

Lemma tighten_kept M vs c vs' u y : inside_M M vs -> all_sound vs -> integral (ct_expr c) -> no_zero (ct_expr c) -> ct_sense c <> Equal ->
  Qabs (ex_const (ct_expr c)) + weight M (ex_sens (ct_expr c)) <= 99999 -> tighten vs c = Ok (vs', true, u) -> legal vs' y -> satisfies c y.
Proof.
  intros B So Int NZ Ne S E L. destruct (Nat.eq_dec (length (mutables vs (ct_expr c))) 1) as [H1|H1].
  2:{ destruct (removed_many vs c vs' u y H1 E) as [-> R]. auto. }
  revert E. unfold tighten. cbv zeta. destruct (always_satisfied _ _ _) eqn:A.
  { intros E. injection E as <- <-. now apply (always_sound vs). }
  destruct (mutables vs (ct_expr c)) as [|[v a] [|p l]] eqn:Hm; try discriminate. intros E.
  destruct (small_ints _ (root_small M vs c v a B So Int NZ S Hm)) as [Q1 Q2].
  apply (singleton_removed vs c v a vs' u y Hm (integral_fixed vs _ Int)); [|exact E|exact L].
  split; [intros X; contradiction|]. split; intros _; right; assumption.
Qed.

(** ** The passes *)
Record state_ok (M : nat -> Z) (vs : vars) (cs : list constr) : Prop := mkOk {
  ok_tame : tame cs; ok_light : light M cs; ok_moderate : moderate vs; ok_fixed : moderate_fixed vs; ok_sound : all_sound vs; ok_inside : inside_M M vs }.

Lemma pass_ok M cs : forall vs vs' cs' k, state_ok M vs cs -> redundant_pass vs cs = Ok (vs', cs', k) ->
  state_ok M vs' cs' /\ forall y, legal vs' y -> sat_all cs' y -> legal vs y /\ sat_all cs y.
Proof.
  induction cs as [|c tl IH]; intros vs vs' cs' k [T Lt Md Mf So B]; cbn [redundant_pass]; intros E.
  { injection E as <- <- _. split; [constructor; assumption|auto]. }
  assert (Ttl : tame tl) by (intros d I; apply T; now right). assert (Ltl : light M tl) by (intros d I; apply Lt; now right).
  destruct (ct_enabled c) eqn:En.
  - apply bind_ok in E as ([[vs1 off] u] & E1 & E). apply bind_ok in E as ([[vs2 tl'] q] & E2 & E). injection E as <- <- _.
    destruct (T c (or_introl eq_refl) En) as (W & Int & NZ & _). destruct (Lt c (or_introl eq_refl) En) as [Ne Sm].
    pose proof (tighten_nested vs c vs1 off u W Ne E1) as N. pose proof (nested_core vs vs1 So N (core_tighten vs c vs1 off u (sound_core _ So) E1)) as So1.
    assert (K1 : state_ok M vs1 tl).
    { constructor; [exact Ttl|exact Ltl|apply (shrinks_moderate vs); [apply nested_shrinks, N|exact Md]|apply (shrinks_moderate_fixed vs); [apply nested_shrinks, N|exact Md|exact Mf]|exact So1|exact (nested_inside M vs vs1 So1 B N)]. }
    destruct (IH vs1 vs2 tl' q K1 E2) as [[T' L' Md' Mf' So' B'] H]. split.
    + constructor; try assumption.
      * intros d [<-|I] Ed; [|exact (T' d I Ed)]. destruct off; [discriminate Ed|]. apply T; [now left|exact En].
      * intros d [<-|I] Ed; [|exact (L' d I Ed)]. destruct off; [discriminate Ed|]. split; assumption.
    + intros y Ly Sy. destruct (H y Ly (fun d I => Sy d (or_intror I))) as [Ly1 Sy1]. split; [exact (nested_legal _ _ _ N Ly1)|].
      intros d [<-|I] Ed; [|exact (Sy1 d I Ed)]. destruct off; [|apply (Sy c); [now left|exact En]].
      exact (tighten_kept M vs c vs1 u y B So Int NZ Ne Sm E1 Ly1).
  - apply bind_ok in E as ([[vs2 tl'] q] & E2 & E). injection E as <- <- _.
    assert (K1 : state_ok M vs tl) by (constructor; assumption). destruct (IH vs vs2 tl' q K1 E2) as [[T' L' Md' Mf' So' B'] H]. split.
    + constructor; try assumption.
      * intros d [<-|I] Ed; [congruence|exact (T' d I Ed)].
      * intros d [<-|I] Ed; [congruence|exact (L' d I Ed)].
    + intros y Ly Sy. destruct (H y Ly (fun d I => Sy d (or_intror I))) as [Ly1 Sy1]. split; [exact Ly1|].
      intros d [<-|I] Ed; [congruence|exact (Sy1 d I Ed)].
Qed.
Lemma fixing_inside M vs vs' : inside_M M vs -> fixing vs vs' -> inside_M M vs'.
Proof. intros B F v. destruct (F v) as (-> & -> & _). apply B. Qed.
Lemma fix_implicit_fixing n vs : fixing vs (fst (implicit_pass n vs)).
Proof.
  unfold implicit_pass. generalize (seq 0 n) as l. intros l. assert (G : forall st, fixing (fst st) (fst (fold_left fix_implicit l st))).
  { induction l as [|v l IH]; intros [ws k]; [apply fixing_refl|]. cbn [fold_left]. eapply fixing_trans; [|apply IH].
    unfold fix_implicit. destruct (va_fixed (ws v)); [apply fixing_refl|]. destruct (_ =? _)%Z; [apply fixing_fix|apply fixing_refl]. }
  exact (G (vs, O)).
Qed.
Lemma reduce_ok M fuel : forall p p', state_ok M (ps_vars p) (ps_cons p) -> reduce_loop fuel p = Some (Ok p') ->
  state_ok M (ps_vars p') (ps_cons p') /\ forall y, solution p' y -> solution p y.
Proof.
  induction fuel as [|f IH]; intros [n vs cs] p' K; cbn [reduce_loop ps_vars ps_cons ps_number] in *; intros E; [discriminate|].
  destruct (redundant_pass vs cs) as [[[vs1 cs1] k]| |] eqn:E1; try discriminate. destruct (pass_ok M cs vs vs1 cs1 k K E1) as [[T1 L1 Md1 Mf1 So1 B1] H1].
  pose proof (implicit_sound n vs1 So1) as So2. pose proof (fix_implicit_fixing n vs1) as Fx2. destruct (implicit_pass n vs1) as [vs2 k2] eqn:EI. cbn [fst] in *.
  unfold implicit_pass in EI. destruct (implicit_fold _ (seq_NoDup _ _) _ _ _ _ EI) as (A1 & A2 & _).
  assert (K2 : state_ok M vs2 cs1).
  { constructor; [exact T1|exact L1|exact (shrinks_moderate _ _ A1 Md1)|exact (shrinks_moderate_fixed _ _ A1 Md1 Mf1)|exact So2|exact (fixing_inside M vs1 vs2 B1 Fx2)]. }
  assert (H2 : forall y, solution (mkP n vs2 cs1) y -> solution (mkP n vs cs) y) by (intros y [Ly Sy]; exact (H1 y (proj2 (A2 y) Ly) Sy)).
  destruct (Nat.eqb k 0 && Nat.eqb k2 0); [injection E as <-; split; [exact K2|exact H2]|].
  destruct (IH (mkP n vs2 cs1) p' K2 E) as [K3 H3]. split; [exact K3|]. intros y S. apply H2, H3, S.
Qed.

Definition start_point (vs : vars) (v : nat) : Z := if va_fixed (vs v) then va_value (vs v) else va_lower (vs v).
Lemma start_legal vs : (forall v, va_lower (vs v) <= va_upper (vs v))%Z -> legal vs (start_point vs).
Proof. intros H v. specialize (H v). unfold start_point. destruct (va_fixed (vs v)); split; intros F; try discriminate; [reflexivity|lia]. Qed.
Lemma sound_start vs : all_sound vs -> legal vs (start_point vs).
Proof. intros So. apply start_legal. intros v. apply So. Qed.

Lemma size_ok M fuel m obj n vs cs p : wf obj -> decided cs obj vs -> state_ok M vs cs ->
  reduce_problem_size fuel m (coef (ex_sens obj)) (mkP n vs cs) = Some (Ok p) ->
  state_ok M (ps_vars p) (ps_cons p) /\ forall y, solution p y -> solution (mkP n vs cs) y.
Proof.
  intros W D [T Lt Md Mf So B]. unfold reduce_problem_size. cbn [ps_number ps_cons ps_vars].
  pose proof (sound_start vs So) as L0. pose proof (independent_sound cs m (ex_sens obj) (seq 0 n) vs O D (ex_intro _ _ L0) So) as So1.
  assert (Fx : fixing vs (fst (independent_pass n cs m (coef (ex_sens obj)) vs))).
  { unfold independent_pass. generalize (seq 0 n) as l. intros l. assert (G : forall st, fixing (fst st) (fst (fold_left (fix_independent cs m (coef (ex_sens obj))) l st))).
    { induction l as [|v l IH]; intros [ws k]; [apply fixing_refl|]. cbn [fold_left]. eapply fixing_trans; [|apply IH].
      unfold fix_independent. destruct (va_fixed (ws v)); [apply fixing_refl|]. destruct (related cs v); [apply fixing_refl|apply fixing_fix]. }
    exact (G (vs, O)). }
  destruct (independent_pass n cs m (coef (ex_sens obj)) vs) as [vs1 k] eqn:EI. cbn [fst] in Fx.
  destruct (independent_solutions n cs m obj vs vs1 k _ W D L0 EI) as [A1 _]. unfold independent_pass in EI. rewrite EI in So1. cbn [fst] in So1.
  destruct (independent_moderate cs m (ex_sens obj) _ vs _ vs1 k D Md Mf (ex_intro _ _ L0) EI) as (B1 & B2 & _).
  intros E. assert (K : state_ok M vs1 cs) by (constructor; [exact T|exact Lt|exact B1|exact B2|exact So1|exact (fixing_inside M vs vs1 B Fx)]).
  destruct (reduce_ok M fuel (mkP n vs1 cs) p K E) as [K' H]. split; [exact K'|]. intros y S. apply A1, H, S.
Qed.
