(** Proofs for C76: what the preparation does to all the constraints, enabled or not. *)
From Coq Require Import List NArith ZArith QArith Qabs Bool Arith Permutation Lia Lqa.
From Verif Require Import ExprModel ExprSpec ExprProof ConstraintModel ConstraintSpec VariableModel TypeModel TypeSpec PresolveModel PresolveSpec
  DuplicateModel DuplicateSpec DependentModel DependentSpec SelectionModel SelectionSpec PrepareModel PrepareSpec RelaxModel.
From Verif Require Import DuplicateProof DuplicateProof2 SelectionProof2 SelectionProof3 DependentProof6 PrepareProof PrepareProof2 PrepareProof3 PrepareProof4 PrepareProof5 PrepareProof6 WholeProof.
Import ListNotations.
Local Open Scope nat_scope.

Definition all_hold (cs : list constr) (y : nat -> Z) : Prop := forall c, In c cs -> satisfies c y.
Lemma lessened_hold cs cs' y : lessened cs cs' -> all_hold cs y -> all_hold cs' y.
Proof. intros Le H d I. destruct (lessened_in _ _ _ Le I) as (c & J & [->| ->]); exact (H c J). Qed.

(** ** Implicit equalities *)
Lemma implicit_hold addr is01 refs cs y : well_formed cs -> all_hold cs y -> all_hold (extract_implicit_equalities addr is01 refs cs) y.
Proof.
  intros W H. pose proof (implicit_spec addr is01 refs cs W y) as Sp. unfold extract_implicit_equalities in *. cbv zeta in *.
  set (ptrs := flat_map refs equality_types ++ filter _ (refs GeneralLinear)) in *. destruct (Nat.leb (length ptrs) 1); [exact H|].
  set (l := stable_sort (by_hash addr cs) ptrs) in *. pose proof (equality_shape addr is01 l O cs []) as Sh. cbv zeta in Sh.
  destruct (equality_scan addr is01 l O cs []) as [cs1 added]. cbn [fst snd] in Sh. destruct Sh as (Le & _ & more & -> & Add). cbn [app] in *.
  intros d I. pose proof I as I'. apply in_app_or in I as [I|I]; [exact (lessened_hold _ _ y Le H d I)|]. destruct (Add d I) as (c & J & En & E).
  apply (proj1 Sp); [intros k K _; exact (H k K)|exact I'|]. rewrite E. reflexivity.
Qed.
Lemma reduce_hold f sw su m s s1 y : coherent s -> prepare_reduce f sw su m s = Some (Ok s1) -> all_hold (ds_cons s) y -> all_hold (ds_cons s1) y.
Proof.
  intros Co E H. unfold prepare_reduce in E. destruct (sw_presolve sw); [|now injection E as <-]. cbv zeta in E.
  set (refs := type_refs _ _) in E. set (cs1 := if sw_implicit sw then _ else _) in E. set (r := if sw_set_cons sw then _ else _) in E.
  assert (H1 : all_hold cs1 y).
  { unfold cs1. destruct (sw_implicit sw); [|exact H]. apply implicit_hold; [|exact H]. intros c I. apply (co_cons s Co c I). }
  assert (H2 : all_hold (snd r) y).
  { unfold r. destruct (sw_set_cons sw); [|exact H1]. unfold remove_redundant_set_constraints.
    exact (lessened_hold _ _ y (proj2 (set_scan_fixing _ (ds_vars s) cs1)) H1). }
  destruct (reduce_problem_size _ _ _ _) as [[p| |]|] eqn:Ep; try discriminate. injection E as <-.
  destruct (size_touched _ _ _ _ _ Ep) as [_ Le]. cbn [ps_cons] in Le. exact (lessened_hold _ _ y Le H2).
Qed.

(** ** Definitions do not disappear *)
Lemma eliminate_dep f : forall s s', eliminate_loop f s = Some s' -> ds_dep s' = ds_dep s.
Proof.
  induction f as [|f IH]; intros s s' E; [discriminate|]. cbn [eliminate_loop] in E. destruct (Nat.eqb _ 0).
  - injection E as <-. reflexivity.
  - apply IH in E. rewrite E. reflexivity.
Qed.
Lemma dep_fold (l : list (cand * nat)) : forall (f : nat -> option nat) v, f v <> None \/ In v (map (fun ck => ca_key (fst ck)) l) ->
  fold_left (fun f ck v => if Nat.eqb v (ca_key (fst ck)) then Some (snd ck) else f v) l f v <> None.
Proof.
  induction l as [|ck l IH]; intros f v H; cbn [fold_left].
  - destruct H as [H|[]]. exact H.
  - apply IH. destruct (Nat.eqb_spec v (ca_key (fst ck))) as [E|N]; [left; discriminate|].
    destruct H as [H|[H|H]]; [left; exact H| |right; exact H]. congruence.
Qed.
Lemma extract_dep opt names s k s' : extract opt names s = Some (k, s') -> (forall v, ds_dep s v <> None -> ds_dep s' v <> None) /\
  (k <> O -> exists v, ds_dep s' v <> None).
Proof.
  unfold extract. destruct (all_some _) as [es|]; [|discriminate]. intros E. injection E as <- <-. cbn [ds_dep]. split.
  - intros v H. apply dep_fold. now left.
  - destruct (picks opt names s) as [|c ps]; [contradiction|]. intros _. exists (ca_key c). apply dep_fold. right. cbn [combine seq length map fst]. now left.
Qed.
Lemma loop_dep opt names m f : forall s s', dependent_loop f opt names m s = Some (Ok s') ->
  (forall v, ds_dep s v <> None -> ds_dep s' v <> None) /\ ((forall v, ds_dep s' v = None) -> s' = s).
Proof.
  induction f as [|f IH]; intros s s' E; [discriminate|]. cbn [dependent_loop] in E.
  destruct (extract opt names s) as [[[|k] s1]|] eqn:X; [|destruct (eliminate_loop (S f) s1) as [s2|] eqn:E2; [|discriminate]|discriminate].
  - injection E as <-. rewrite (extract_nothing _ _ _ _ X). auto.
  - destruct (reduce_problem_size _ _ _ _) as [[p| |]|]; try discriminate. apply IH in E as [A _]. cbn [ds_dep] in A. rewrite (eliminate_dep _ _ _ E2) in A.
    destruct (extract_dep _ _ _ _ _ X) as [B C]. split; [auto|]. intros N. destruct (C ltac:(discriminate)) as (v & Hv). destruct (A v Hv (N v)).
Qed.

(** ** All phases *)
Lemma prepare_hold f sw su m s r y : proper_model s -> prepare f sw su m s = Some (Ok r) -> (forall v, ds_dep (fst r) v = None) ->
  all_hold (ds_cons s) y -> all_hold (ds_cons (fst r)) y.
Proof.
  intros P E N H. unfold prepare in E. destruct (prepare_problem f sw su m s) as [[q| |]|] eqn:Eq; try discriminate. cbn [bind] in E. injection E as E.
  assert (Q : ds_cons (fst r) = ds_cons (fst q) /\ ds_dep (fst r) = ds_dep (fst q)).
  { unfold prepare_start in E. destruct q as [sq sels]. destruct (verify _ _ _ _ _ _) as [[vs' sels']|]; [|discriminate]. injection E as <-. auto. }
  destruct Q as [Q1 Q2]. rewrite Q1. rewrite Q2 in N. unfold prepare_problem in Eq.
  destruct (prepare_reduce f sw su m s) as [[s1| |]|] eqn:E1; try discriminate. destruct (prepare_dependents f sw su m s1) as [[s2| |]|] eqn:E2; try discriminate.
  injection Eq as <-. pose proof (rest_selections sw su (prepare_sets sw su m s2)) as Rs. cbv zeta in Rs. destruct Rs as (_ & _ & _ & R4 & R5). rewrite R4 in N.
  apply (lessened_hold _ _ y R5). cbn [prepare_sets ds_dep] in N.
  assert (H2 : all_hold (ds_cons s2) y).
  { pose proof (reduce_hold _ _ _ _ _ _ y (pm_coherent s P) E1 H) as H1. unfold prepare_dependents in E2. destruct (_ && _); [|now injection E2 as <-].
    rewrite (proj2 (loop_dep _ _ _ _ _ _ E2) N). exact H1. }
  unfold prepare_sets. cbn [ds_cons]. destruct (sw_presolve sw && sw_duplicates sw); [|exact H2].
  exact (lessened_hold _ _ y (duplicates_lessened _ _ _) H2).
Qed.

(** ** The constraints of the selections *)
Lemma partitioning_equal x c : fst (classify x c) = SetPartitioning -> ct_sense c = Equal.
Proof.
  unfold classify. cbn [first_verdict].
  assert (B1 : forall r, b_singleton c = Some r -> fst r <> SetPartitioning) by (unfold b_singleton; intros r; destruct (_ =? _)%nat; [intros E; injection E as <-; discriminate|discriminate]).
  destruct (b_singleton c) as [r|]; [intros E; destruct (B1 r eq_refl E)|]. clear B1.
  assert (B2 : forall r, b_pair_equal x c = Some r -> fst r <> SetPartitioning).
  { unfold b_pair_equal. intros r. destruct (ex_sens (ct_expr c)) as [|[v0 c0] [|[v1 c1] [|]]]; try discriminate.
    cbv zeta. repeat match goal with |- (if ?b then _ else _) = _ -> _ => destruct b end; intros E; try discriminate; injection E as <-; discriminate. }
  destruct (b_pair_equal x c) as [r|]; [intros E; destruct (B2 r eq_refl E)|]. clear B2.
  assert (B3 : forall r, b_pair_inequality x c = Some r -> fst r <> SetPartitioning).
  { unfold b_pair_inequality. intros r. destruct (ex_sens (ct_expr c)) as [|[v0 c0] [|[v1 c1] [|]]]; try discriminate.
    repeat match goal with |- (if ?b then _ else _) = _ -> _ => destruct b end; intros E; try discriminate; injection E as <-; discriminate. }
  destruct (b_pair_inequality x c) as [r|]; [intros E; destruct (B3 r eq_refl E)|]. clear B3.
  assert (B4 : forall r, b_trinomial x c = Some r -> fst r <> SetPartitioning).
  { unfold b_trinomial. intros r. destruct (_ && _); [|discriminate].
    repeat match goal with |- (match ?l with [] => _ | _ :: _ => _ end) = _ -> _ => destruct l end; intros E; try discriminate; injection E as <-; discriminate. }
  destruct (b_trinomial x c) as [r|]; [intros E; destruct (B4 r eq_refl E)|]. clear B4.
  assert (B5 : forall r, b_set c = Some r -> fst r = SetPartitioning -> ct_sense c = Equal).
  { unfold b_set. intros r. destruct (_ && _); [|discriminate]. destruct (qe _ _ && TypeModel.csense_eqb (ct_sense c) Equal) eqn:G.
    - intros _ _. apply andb_true_iff in G as [_ G]. destruct (ct_sense c); [discriminate|reflexivity|discriminate].
    - repeat match goal with |- (if ?b then _ else _) = _ -> _ => destruct b end; intros E; try discriminate; injection E as <-; discriminate. }
  destruct (b_set c) as [r|]; [exact (B5 r eq_refl)|]. clear B5.
  assert (B6 : forall r, b_flow x c = Some r -> fst r <> SetPartitioning).
  { unfold b_flow. intros r. cbv zeta. destruct (_ && _); [|discriminate]. destruct (forallb _ _).
    - repeat match goal with |- (match ?l with [] => _ | _ :: _ => _ end) = _ -> _ => destruct l | |- (if ?b then _ else _) = _ -> _ => destruct b end; intros E; try discriminate; injection E as <-; discriminate.
    - destruct (_ && _ && _); [|discriminate]. intros E. injection E as <-. discriminate. }
  destruct (b_flow x c) as [r|]; [intros E; destruct (B6 r eq_refl E)|]. clear B6.
  assert (B7 : forall r, b_minmax x c = Some r -> fst r <> SetPartitioning).
  { unfold b_minmax. intros r. cbv zeta. destruct (ct_is_integer c); [|discriminate].
    repeat match goal with |- (match ?l with [] => _ | _ :: _ => _ end) = _ -> _ => destruct l | |- (if ?b then _ else _) = _ -> _ => destruct b end; intros E; try discriminate; injection E as <-; discriminate. }
  destruct (b_minmax x c) as [r|]; [intros E; destruct (B7 r eq_refl E)|]. clear B7.
  assert (B8 : forall r, b_knapsack x c = Some r -> fst r <> SetPartitioning).
  { unfold b_knapsack. intros r. cbv zeta.
    repeat match goal with |- (if ?b then _ else _) = _ -> _ => destruct b end; intros E; try discriminate; injection E as <-; discriminate. }
  destruct (b_knapsack x c) as [r|]; [intros E; destruct (B8 r eq_refl E)|]. clear B8.
  assert (B9 : forall r, b_gf2 x c = Some r -> fst r <> SetPartitioning).
  { unfold b_gf2. intros r. destruct (_ && _); [|discriminate]. destruct (filter _ _) as [|[key a] [|]]; try discriminate. cbv zeta.
    destruct (ltq 0 a); (destruct (_ || _); [discriminate|]); intros E; injection E as <-; discriminate. }
  destruct (b_gf2 x c) as [r|]; [intros E; destruct (B9 r eq_refl E)|]. cbn [fst]. discriminate.
Qed.

Lemma lessened_nth cs cs' i c : lessened cs cs' -> nth_error cs i = Some c -> exists c', nth_error cs' i = Some c' /\ (c' = c \/ c' = disable c).
Proof.
  intros Le. revert i. induction Le as [|a b l l' D Le IH]; intros [|i] E; try discriminate; cbn [nth_error] in *.
  - injection E as <-. exists b. auto.
  - apply IH, E.
Qed.
Lemma selection_origin sw su s t : In t (snd (prepare_selections sw su s)) ->
  exists c, nth_error (ds_cons s) (sl_con t) = Some c /\ ct_enabled c = true /\ ct_sense c = Equal /\ forall v, In v (keys (ct_expr c)) -> va_sense (ds_vars s v) = VBinary.
Proof.
  unfold prepare_selections. destruct (_ && _); [|intros []]. rewrite extract_eq.
  pose proof (extracted_origin (su_name su) (su_cname su) (sw_mode sw) (su_user su) (vctx (su_name su) (ds_vars s)) (ds_vars s) (ds_cons s)) as HO. cbn [snd].
  intros I. destruct (HO t I) as (c & (E & En & T & B) & _). exists c. split; [exact E|]. split; [exact En|]. split; [exact (partitioning_equal _ _ T)|exact B].
Qed.
Lemma prepare_selected f sw su m s r : proper_model s -> (exists x, solves s x) -> calm_rounds sw su m s -> calm_sets sw su m s ->
  prepare f sw su m s = Some (Ok r) -> forall c, In c (sel_cons r) -> ct_sense c = Equal /\ (forall y, meets r y -> satisfies c y) /\
  forall v, In v (keys (ct_expr c)) -> ds_dep (fst r) v = None.
Proof.
  intros P Fe C1 C2 Pr. unfold prepare in Pr. destruct (prepare_problem f sw su m s) as [[q| |]|] eqn:Eq; try discriminate. cbn [bind] in Pr. injection Pr as Pr.
  destruct (reduce_phase sw su m s P Fe) as [F1 H1]. destruct (H1 F1 (Nat.le_refl F1)) as (s1 & E1 & Ft1 & R1).
  destruct (dependents_phase sw su m s1 Ft1 (refines_feasible _ _ _ R1 Fe) (C1 F1 s1 E1)) as [F2 H2].
  set (g := F1 + F2 + f). pose proof (reduce_more_fuel F1 g _ _ _ _ _ E1 ltac:(lia)) as E1'.
  destruct (H2 g ltac:(lia)) as (s2 & E2 & Ft2 & R2). pose proof (refines_trans _ _ _ _ R1 R2) as R12.
  destruct (sets_phase sw su m s2 Ft2 (refines_feasible _ _ _ R12 Fe) (C2 g s1 s2 E1' E2)) as [Ft3 R3]. pose proof (refines_trans _ _ _ _ R12 R3) as R.
  apply (prepare_more _ g) in Eq; [|lia]. unfold prepare_problem in Eq. rewrite E1', E2 in Eq. injection Eq as Eq.
  set (s3 := prepare_sets sw su m s2) in *. destruct (selections_phase sw su s3 Ft3) as (Ob & _ & Rd & Mt).
  destruct (rest_selections sw su s3) as (_ & _ & _ & Q4 & Q5). pose proof (selection_origin sw su s3) as So. rewrite Eq in *.
  assert (Fq : exists x, meets q x).
  { destruct Fe as [x Sx]. destruct (proj2 R x Sx) as (x' & S' & _). exists x'. apply Mt, S'. }
  pose proof (start_phase sw su q Rd Fq) as S. rewrite Pr in S. destruct S as (Mt' & _ & _ & T3 & _ & T5 & _).
  assert (Cn : forall t, In t (snd r) -> exists t', In t' (snd q) /\ sl_con t' = sl_con t).
  { unfold prepare_start in Pr. destruct q as [sq sels]. cbn [fst snd] in *. destruct (verify _ _ _ _ _ _) as [[vs' sels']|] eqn:V; [|discriminate]. injection Pr as <-. cbn [snd].
    destruct Rd as (Rd & Sn & _). cbn [fst snd] in *.
    assert (Sa : sane_bounds (ds_number sq) (ds_vars sq)) by (intros v _; destruct (Sn v) as (S1 & S2 & _); split; [exact S1|intros X; apply S2; auto]).
    destruct (verify_spec _ _ _ _ _ _ _ _ Rd Sa V) as (_ & _ & Ca & _). clear -Ca. induction Ca as [|a b l l' H Ca IH]; intros t [].
    - subst t. exists a. split; [now left|]. symmetry. apply H.
    - destruct (IH t H0) as (t' & I & E). exists t'. split; [now right|exact E]. }
  intros c I. unfold sel_cons in I. apply in_flat_map in I as (t & It & I). destruct (Cn t It) as (t' & It' & Et).
  destruct (So t' It') as (d & Ed & En & Se & Bi). destruct (lessened_nth _ _ _ _ Q5 Ed) as (d' & Ed' & Or). rewrite Et in *. rewrite T3, Ed' in I. destruct I as [<-|[]].
  assert (Sd : ct_sense d' = ct_sense d /\ ct_expr d' = ct_expr d) by (destruct Or as [->| ->]; split; reflexivity). destruct Sd as [Sd Xd].
  split; [congruence|]. split.
  - intros y M. apply Mt' in M. apply Mt in M. unfold satisfies. rewrite Sd, Xd. exact (sv_cons _ _ M d (nth_error_In _ _ Ed) En).
  - intros v K. rewrite T5, Q4. apply (not_dependent s3 v (ft_coherent s3 Ft3)). left. apply Bi. rewrite <- Xd. exact K.
Qed.
