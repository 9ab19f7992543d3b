(** Proofs for C73: the phases before the dependent variables. *)
From Coq Require Import List NArith ZArith QArith Qabs Bool Arith Permutation Lia Lqa.
From Verif Require Import ExprModel ExprSpec ExprProof ConstraintModel ConstraintSpec VariableModel TypeModel TypeSpec PresolveModel PresolveSpec
  DuplicateModel DuplicateSpec DependentModel DependentSpec SelectionModel SelectionSpec PrepareModel PrepareSpec.
From Verif Require Import PresolveProof PresolveProof3 PresolveProof4 PresolveProof5 DuplicateProof DuplicateProof2 DependentProof6 PrepareProof PrepareProof2.
Import ListNotations.
Local Open Scope nat_scope.

(** Variables get fixed, and nothing else happens to them. *)
Definition fixing (vs vs' : vars) : Prop := forall v,
  va_lower (vs' v) = va_lower (vs v) /\ va_upper (vs' v) = va_upper (vs v) /\ va_sense (vs' v) = va_sense (vs v) /\
  (vs' v = vs v \/ va_fixed (vs' v) = true).
(** Every constraint is one of the old ones in a new guise. *)
Definition derived (cs cs' : list constr) : Prop := forall c', In c' cs' ->
  exists c, In c cs /\ ct_expr c' = ct_expr c /\ (ct_enabled c' = true -> ct_enabled c = true).

Lemma fixing_refl vs : fixing vs vs. Proof. intros v. auto. Qed.
Lemma fixing_trans a b c : fixing a b -> fixing b c -> fixing a c.
Proof.
  intros H G v. destruct (H v) as (H1 & H2 & H3 & H4), (G v) as (G1 & G2 & G3 & G4). rewrite G1, G2, G3.
  split; [exact H1|]. split; [exact H2|]. split; [exact H3|]. destruct G4 as [->|G4]; auto.
Qed.
Lemma fixing_fix vs v z : fixing vs (do_fix_by vs v z).
Proof.
  intros w. unfold do_fix_by. cbn [v_step]. unfold set_var. destruct (Nat.eqb_spec w v) as [->|D]; [|auto]. cbn. auto.
Qed.
Lemma derived_refl cs : derived cs cs. Proof. intros c I. exists c. auto. Qed.
Lemma derived_trans a b c : derived a b -> derived b c -> derived a c.
Proof.
  intros H G d I. destruct (G d I) as (e & Ie & E1 & E2). destruct (H e Ie) as (f & If & F1 & F2).
  exists f. split; [exact If|]. split; [congruence|auto].
Qed.
Lemma lessened_derived cs cs' : lessened cs cs' -> derived cs cs'.
Proof.
  intros L d I. destruct (lessened_in _ _ _ L I) as (c & J & [->| ->]); exists c; (split; [exact J|]); split; auto. discriminate.
Qed.
Lemma lessened_flags cs cs' : lessened cs cs' -> unit_flags cs -> unit_flags cs'.
Proof. intros L H d I En. destruct (lessened_in _ _ _ L I) as (c & J & [->| ->]); [apply H; assumption|discriminate]. Qed.
Lemma derived_tame cs cs' : derived cs cs' -> tame cs -> tame cs'.
Proof. intros D T c I En. destruct (D c I) as (d & J & E & F). rewrite E. apply T; auto. Qed.

Lemma fixing_good vs vs' cs cs' y0 : good vs cs -> fixing vs vs' -> derived cs cs' -> unit_flags cs' -> legal vs y0 -> legal vs' y0 -> good vs' cs'.
Proof.
  intros [T M MF So Fl] Fx D Fl' L L'.
  assert (In' : forall v, (va_lower (vs v) <= y0 v <= va_upper (vs v))%Z).
  { intros v. destruct (L v) as [A B]. destruct (So v) as (_ & _ & C). destruct (va_fixed (vs v)); [rewrite (A eq_refl)|]; auto. }
  constructor.
  - exact (derived_tame cs cs' D T).
  - intros v F. destruct (Fx v) as (F1 & F2 & F3 & [F4|F4]); [|congruence]. rewrite F4 in *. apply M, F.
  - intros v F. destruct (Fx v) as (F1 & F2 & F3 & F4). destruct (L' v) as [A _]. rewrite <- (A F).
    destruct (va_fixed (vs v)) eqn:E; [destruct (L v) as [B _]; rewrite (B E); apply MF, E|]. specialize (M v E). specialize (In' v). lia.
  - intros v. destruct (Fx v) as (F1 & F2 & F3 & F4). destruct (So v) as (S1 & S2 & S3). unfold sound. rewrite F1, F2, F3.
    split; [exact S1|]. split; [exact S2|]. intros F. destruct (L' v) as [A _]. rewrite <- (A F). apply In'.
  - exact Fl'.
Qed.
Lemma fixing_coherent s vs' cs' : coherent s -> clean s -> (forall v, va_sense (vs' v) = va_sense (ds_vars s v)) -> derived (ds_cons s) cs' ->
  let s' := mkD (ds_number s) vs' cs' (ds_obj s) (ds_exprs s) (ds_dep s) in coherent s' /\ clean s'.
Proof.
  intros Co Cl Se D s'. assert (Di : forall v, is_dependent (vs' v) <-> is_dependent (ds_vars s v)) by (intros v; unfold is_dependent; rewrite Se; reflexivity).
  split; constructor; cbn [s' ds_obj ds_cons ds_exprs ds_dep ds_number ds_vars].
  - apply Co.
  - intros c I. destruct (D c I) as (d & J & -> & _). apply Co, J.
  - apply Co.
  - intros v. rewrite (co_dep s Co v), Di. reflexivity.
  - apply Co.
  - apply Co.
  - intros v Lv Dv. apply (cl_obj s Cl v Lv), Di, Dv.
  - intros v c Lv Dv I En. destruct (D c I) as (d & J & -> & E). apply (cl_cons s Cl v d Lv); [apply Di, Dv|exact J|exact (E En)].
  - intros v e Lv Dv. apply (cl_exprs s Cl v e Lv), Di, Dv.
Qed.

(** ** Implicit equalities *)
Lemma disable_lessened cs i : lessened cs (disable_at cs i).
Proof.
  revert i. induction cs as [|c tl IH]; intros [|i]; cbn [disable_at]; try constructor; auto; try apply lessened_refl. apply IH.
Qed.
Lemma opposite_in addr cs c l : forall k j, opposite_scan addr cs c l k = ScanFound j -> In j l.
Proof.
  induction l as [|j tl IH]; intros k j0; cbn [opposite_scan]; [discriminate|].
  destruct (nth_error cs j) as [d|]; [|intros E; right; exact (IH _ _ E)]. destruct (negb _); [discriminate|].
  destruct (_ && _); [intros E; injection E as ->; left; reflexivity|intros E; right; exact (IH _ _ E)].
Qed.
Lemma equality_shape addr is01 l : forall skip cs added, let r := equality_scan addr is01 l skip cs added in
  lessened cs (fst r) /\ (forall k, ~ In k l -> nth_error (fst r) k = nth_error cs k) /\
  exists more, snd r = added ++ more /\ forall d, In d more -> exists c, In c cs /\ ct_enabled c = true /\ d = c_setup (ct_expr c) Equal is01.
Proof.
  induction l as [|i tl IH]; intros skip cs added; cbn [equality_scan].
  { split; [apply lessened_refl|]. split; [reflexivity|]. exists []. rewrite app_nil_r. split; [reflexivity|]. intros d []. }
  assert (Go : forall k, let r := equality_scan addr is01 tl k cs added in
    lessened cs (fst r) /\ (forall j, ~ In j (i :: tl) -> nth_error (fst r) j = nth_error cs j) /\
    exists more, snd r = added ++ more /\ forall d, In d more -> exists c, In c cs /\ ct_enabled c = true /\ d = c_setup (ct_expr c) Equal is01).
  { intros k r. destruct (IH k cs added) as (A & B & C). split; [exact A|]. split; [|exact C]. intros j N. apply B. intros I. apply N. now right. }
  destruct skip as [|skip]; [|apply Go]. destruct (nth_error cs i) as [c|] eqn:E; [|apply Go]. destruct (ct_enabled c) eqn:En; cbn [negb]; [|apply Go].
  assert (Found : let r := match opposite_scan addr cs c tl O with ScanEnd => (cs, added) | ScanOther k => equality_scan addr is01 tl k cs added
        | ScanFound j => equality_scan addr is01 tl O (disable_at (disable_at cs i) j) (added ++ [c_setup (ct_expr c) Equal is01]) end in
    lessened cs (fst r) /\ (forall j, ~ In j (i :: tl) -> nth_error (fst r) j = nth_error cs j) /\
    exists more, snd r = added ++ more /\ forall d, In d more -> exists c, In c cs /\ ct_enabled c = true /\ d = c_setup (ct_expr c) Equal is01).
  { destruct (opposite_scan addr cs c tl O) as [|k|j] eqn:F.
    - split; [apply lessened_refl|]. split; [reflexivity|]. exists []. rewrite app_nil_r. split; [reflexivity|]. intros d [].
    - apply Go.
    - pose proof (opposite_in _ _ _ _ _ _ F) as Ij. intros r.
      destruct (IH O (disable_at (disable_at cs i) j) (added ++ [c_setup (ct_expr c) Equal is01])) as (A & B & (more & C & D)). fold r in A, B, C.
      assert (Le : lessened cs (disable_at (disable_at cs i) j)) by (eapply lessened_trans; apply disable_lessened).
      split; [eapply lessened_trans; eauto|]. split.
      + intros q N. rewrite B by (intros I; apply N; now right). rewrite !nth_disable.
        destruct (Nat.eqb_spec q j) as [->|_]; [exfalso; apply N; now right|]. destruct (Nat.eqb_spec q i) as [->|_]; [exfalso; apply N; now left|reflexivity].
      + exists (c_setup (ct_expr c) Equal is01 :: more). rewrite C, <- app_assoc. split; [reflexivity|]. intros d [<-|I].
        * exists c. split; [exact (nth_error_In _ _ E)|auto].
        * destruct (D d I) as (e & Ie & Ee & ->). destruct (lessened_in _ _ _ Le Ie) as (g & Ig & [->| ->]); [exists g; auto|discriminate]. }
  destruct (ct_sense c); [exact Found|apply Go|exact Found].
Qed.

Lemma setup_flag e s is01 : ct_only_binary_coef (c_setup e s is01) = true -> forall v a, In (v, a) (ex_sens e) -> (a == 1)%Q.
Proof.
  cbn [c_setup ct_only_binary_coef]. intros H v a I. rewrite forallb_forall in H. specialize (H (v, a) I). now apply Qeq_bool_iff.
Qed.
Lemma implicit_shape addr is01 refs cs : let cs' := extract_implicit_equalities addr is01 refs cs in
  derived cs cs' /\ (unit_flags cs -> unit_flags cs') /\ (forall c, In c cs -> exists c', In c' cs' /\ ct_expr c' = ct_expr c) /\
  (forall i, ~ In i (flat_map refs equality_types) -> ~ In i (refs GeneralLinear) -> i < length cs -> nth_error cs' i = nth_error cs i).
Proof.
  unfold extract_implicit_equalities. cbv zeta.
  set (ptrs := flat_map refs equality_types ++ filter _ (refs GeneralLinear)). destruct (Nat.leb (length ptrs) 1).
  { split; [apply derived_refl|]. split; [auto|]. split; [intros c I; exists c; auto|auto]. }
  set (l := stable_sort (by_hash addr cs) ptrs). pose proof (equality_shape addr is01 l O cs []) as H. cbv zeta in H.
  destruct (equality_scan addr is01 l O cs []) as [cs1 added]. cbn [fst snd] in H. destruct H as (Le & Same & more & -> & Add). cbn [app].
  split; [|split; [|split]].
  - intros d I. apply in_app_or in I as [I|I]; [exact (lessened_derived _ _ Le d I)|]. destruct (Add d I) as (c & J & En & ->). exists c. auto.
  - intros H d I En. apply in_app_or in I as [I|I]; [exact (lessened_flags _ _ Le H d I En)|]. destruct (Add d I) as (c & J & Ec & ->).
    cbn [ct_expr c_setup]. apply (setup_flag (ct_expr c) Equal is01).
  - intros c I. apply In_nth_error in I as [i E]. clear -Le E. revert i E. induction Le as [|x y a b D Le IH]; intros [|i] E; try discriminate.
    + injection E as ->. exists y. split; [left; reflexivity|]. destruct D as [->| ->]; reflexivity.
    + destruct (IH i E) as (c' & J & F). exists c'. split; [right; exact J|exact F].
  - intros i N1 N2 Li. assert (Len : length cs1 = length cs) by (clear -Le; induction Le; cbn [length]; congruence).
    rewrite nth_error_app1 by lia. apply Same. intros I. assert (J : In i ptrs) by (apply (Permutation_in _ (sort_perm _ _) I)).
    apply in_app_or in J as [J|J]; [contradiction|]. apply filter_In in J as [J _]. contradiction.
Qed.

(** ** Redundant set constraints *)
Lemma fix_zero_fixing l : forall vs, fixing vs (fix_zero vs l).
Proof.
  induction l as [|v l IH]; intros vs; [apply fixing_refl|]. cbn [fix_zero fold_left]. eapply fixing_trans; [apply fixing_fix|apply IH].
Qed.
Lemma set_scan_fixing l : forall vs cs, fixing vs (fst (set_scan l (vs, cs))) /\ lessened cs (snd (set_scan l (vs, cs))).
Proof.
  induction l as [|i tl IH]; intros vs cs; cbn [set_scan fst snd]; [split; [apply fixing_refl|apply lessened_refl]|].
  destruct (find _ tl) as [j|]; [|apply IH]. fold (surplus (members cs i) (members cs j)). fold (fix_zero vs (surplus (members cs i) (members cs j))).
  destruct (IH (fix_zero vs (surplus (members cs i) (members cs j))) (disable_at cs i)) as [A B]. split.
  - eapply fixing_trans; [apply fix_zero_fixing|exact A].
  - eapply lessened_trans; [apply disable_lessened|exact B].
Qed.

Lemma sound_proper name vs : all_sound vs -> proper_senses (vctx name vs).
Proof.
  intros So v Se. cbn [vctx tx_sense tx_vi vi_of vi_lower vi_upper vi_fixed vi_value] in *. destruct (So v) as (_ & B & C). specialize (B Se). split; [exact B|].
  intros F. specialize (C F). lia.
Qed.
Lemma wf_nodup c : wf (ct_expr c) -> NoDup (variables c).
Proof. intros W. exact W. Qed.

Lemma lessened_exprs cs cs' c : lessened cs cs' -> In c cs -> exists c', In c' cs' /\ ct_expr c' = ct_expr c.
Proof.
  intros Le I. apply In_nth_error in I as [i E]. revert i E. induction Le as [|x y a b D Le IH]; intros [|i] E; try discriminate.
  - injection E as ->. exists y. split; [left; reflexivity|]. destruct D as [->| ->]; reflexivity.
  - destruct (IH i E) as (c' & J & F). exists c'. split; [right; exact J|exact F].
Qed.

(** ** The phase *)
Record fit (s : dstate) : Prop := mkFit {
  ft_coherent : coherent s; ft_clean : clean s; ft_good : good (ds_vars s) (ds_cons s); ft_whole : forall e, In e (ds_exprs s) -> whole e }.

Lemma proper_fit s : proper_model s -> fit s.
Proof.
  intros P. constructor.
  - apply P.
  - assert (N : forall v, v < ds_number s -> ~ is_dependent (ds_vars s v)).
    { intros v L D. apply (proj2 (co_dep s (pm_coherent s P) v)); [split; assumption|]. apply (pm_no_dependents s P). }
    constructor; intros v.
    + intros L D. destruct (N v L D).
    + intros c L D. destruct (N v L D).
    + intros e L D. destruct (N v L D).
  - apply mkGood; [exact (pm_tame s P)|exact (pm_moderate s P)|exact (pm_moderate_fixed s P)|exact (pm_sound s P)|].
    intros c I _ F. exact (proj1 (pm_flags s P c I) F).
  - rewrite (pm_no_exprs s P). intros e [].
Qed.
(** What the phases after the presolve need of it. *)
Definition tidy (cs : list constr) : Prop := forall c, In c cs -> ct_enabled c = true -> wf (ct_expr c) /\ integral (ct_expr c) /\ no_zero (ct_expr c).
Lemma derived_tidy cs cs' : derived cs cs' -> tidy cs -> tidy cs'.
Proof. intros D T c I En. destruct (D c I) as (d & J & E & F). rewrite E. apply T; auto. Qed.
Record slim (s : dstate) : Prop := mkSlim {
  sm_coherent : coherent s; sm_clean : clean s; sm_tidy : tidy (ds_cons s); sm_sound : all_sound (ds_vars s); sm_flags : unit_flags (ds_cons s);
  sm_whole : forall e, In e (ds_exprs s) -> whole e }.
Lemma fit_slim s : fit s -> slim s.
Proof.
  intros F. constructor; [apply F|apply F| |exact (gd_sound _ _ (ft_good s F))|exact (gd_flags _ _ (ft_good s F))|exact (ft_whole s F)].
  intros c I En. destruct (gd_tame _ _ (ft_good s F) c I En) as (A & B & C & _). auto.
Qed.
Lemma plain_slim s : plain_model s -> slim s.
Proof.
  intros P. constructor.
  - apply P.
  - assert (N : forall v, v < ds_number s -> ~ is_dependent (ds_vars s v)).
    { intros v L D. apply (proj2 (co_dep s (pl_coherent s P) v)); [split; assumption|]. apply (pl_no_dependents s P). }
    constructor; intros v.
    + intros L D. destruct (N v L D).
    + intros c L D. destruct (N v L D).
    + intros e L D. destruct (N v L D).
  - intros c I _. split; [exact (proj1 (co_cons s (pl_coherent s P) c I))|exact (pl_integral s P c I)].
  - exact (pl_sound s P).
  - intros c I _ F. exact (proj1 (pl_flags s P c I) F).
  - rewrite (pl_no_exprs s P). intros e [].
Qed.
Lemma proper_plain s : proper_model s -> plain_model s.
Proof.
  intros P. constructor; try apply P. intros c I. destruct (pm_tame s P c I (pm_enabled s P c I)) as (_ & A & B & _). auto.
Qed.
Lemma fit_bounds s : fit s -> forall v, (va_lower (ds_vars s v) <= va_upper (ds_vars s v))%Z.
Proof. intros F v. apply (gd_sound _ _ (ft_good s F) v). Qed.
Lemma fit_feasible s : fit s -> (exists x, solves s x) -> exists y, solution (mkP (ds_number s) (ds_vars s) (ds_cons s)) y.
Proof. intros F [x S]. exists (fill s x). exact (fill_solution s (ft_coherent s F) (ft_clean s F) x (fit_bounds s F) S). Qed.

(** The size reduction on a state that fits. *)
Lemma size_phase m s : fit s -> (exists x, solves s x) -> decided (ds_cons s) (ds_obj s) (ds_vars s) ->
  exists F, forall fuel, F <= fuel -> exists p,
    reduce_problem_size fuel m (coef (ex_sens (ds_obj s))) (mkP (ds_number s) (ds_vars s) (ds_cons s)) = Some (Ok p) /\
    fit (after s p) /\ refines m s (after s p).
Proof.
  intros Ft Fe De. destruct (fit_feasible s Ft Fe) as [y0 S0].
  destruct (size_good m (ds_obj s) (ds_number s) (ds_vars s) (ds_cons s) y0 (co_obj s (ft_coherent s Ft)) De (ft_good s Ft) S0) as [F H].
  exists F. intros fuel L. destruct (H fuel L) as (p & E & G & Le & H1 & H2). exists p. split; [exact E|].
  destruct (size_coherent _ _ _ s p (ft_coherent s Ft) (ft_clean s Ft) E) as [Co Cl].
  assert (Ft' : fit (after s p)) by (constructor; [exact Co|exact Cl|exact G|apply (ft_whole s Ft)]).
  split; [exact Ft'|]. exact (lift m s (ps_vars p) (ps_cons p) (ft_coherent s Ft) (ft_clean s Ft) Co Cl (fit_bounds s Ft) (fit_bounds _ Ft') (ft_whole s Ft) H1 H2).
Qed.

Section Reduce.
  Variables (sw : switches) (su : surroundings) (m : bool) (s : dstate).
  Hypothesis P : proper_model s.
  Hypothesis Fe : exists x, solves s x.
  Let refs := type_refs (vctx (su_name su) (ds_vars s)) (ds_cons s).
  Let cs1 := if sw_implicit sw then extract_implicit_equalities (su_addr su) (is01_of (ds_vars s)) refs (ds_cons s) else ds_cons s.
  Let r := if sw_set_cons sw then remove_redundant_set_constraints refs (ds_vars s) cs1 else (ds_vars s, cs1).

  Lemma first_shape : derived (ds_cons s) cs1 /\ unit_flags cs1 /\ (forall c, In c (ds_cons s) -> exists c', In c' cs1 /\ ct_expr c' = ct_expr c) /\
    (forall i, In i (refs ExclusiveOR ++ refs SetPartitioning) -> nth_error cs1 i = nth_error (ds_cons s) i) /\
    (forall y, solution (mkP (ds_number s) (ds_vars s) (ds_cons s)) y <-> solution (mkP (ds_number s) (ds_vars s) cs1) y).
  Proof.
    pose proof (gd_flags _ _ (ft_good s (proper_fit s P))) as Fl. unfold cs1. destruct (sw_implicit sw).
    - destruct (implicit_shape (su_addr su) (is01_of (ds_vars s)) refs (ds_cons s)) as (A & B & C & D).
      split; [exact A|]. split; [exact (B Fl)|]. split; [exact C|]. split.
      + intros i I. assert (X : exists c, nth_error (ds_cons s) i = Some c /\ (fst (classify (vctx (su_name su) (ds_vars s)) c) = ExclusiveOR \/ fst (classify (vctx (su_name su) (ds_vars s)) c) = SetPartitioning)).
        { apply in_app_or in I as [I|I]; apply in_type_refs in I as (c & E & T); exists c; auto. }
        destruct X as (c & E & T). apply D; [| |apply nth_error_Some; congruence].
        * intros J. apply in_flat_map in J as (t & It & J). apply in_type_refs in J as (d & Ed & Td). rewrite E in Ed. injection Ed as <-.
          cbn [equality_types In] in It. destruct T as [T|T]; rewrite T in Td; subst t; intuition discriminate.
        * intros J. apply in_type_refs in J as (d & Ed & Td). rewrite E in Ed. injection Ed as <-. destruct T as [T|T]; rewrite T in Td; discriminate.
      + intros y. unfold solution. cbn [ps_vars ps_cons]. pose proof (implicit_spec (su_addr su) (is01_of (ds_vars s)) refs (ds_cons s)) as H.
        unfold satisfies_all in H. rewrite <- H; [reflexivity|]. intros c I. apply (co_cons s (pm_coherent s P) c I).
    - split; [apply derived_refl|]. split; [exact Fl|]. split; [intros c I; exists c; auto|]. split; reflexivity.
  Qed.

  Lemma second_shape : fixing (ds_vars s) (fst r) /\ derived (ds_cons s) (snd r) /\ unit_flags (snd r) /\
    (forall c, In c (ds_cons s) -> exists c', In c' (snd r) /\ ct_expr c' = ct_expr c) /\
    (forall y, solution (mkP (ds_number s) (ds_vars s) (ds_cons s)) y <-> solution (mkP (ds_number s) (fst r) (snd r)) y).
  Proof.
    destruct first_shape as (A & B & C & D & E). unfold r. destruct (sw_set_cons sw).
    2:{ split; [apply fixing_refl|]. split; [exact A|]. split; [exact B|]. split; [exact C|exact E]. }
    destruct (set_scan_fixing (stable_sort (by_size cs1) (refs ExclusiveOR ++ refs SetPartitioning)) (ds_vars s) cs1) as [Fx Le].
    split; [exact Fx|]. split; [eapply derived_trans; [exact A|]; apply lessened_derived; exact Le|].
    split; [exact (lessened_flags _ _ Le B)|]. split.
    - intros c I. destruct (C c I) as (d & J & Ed). destruct (lessened_exprs _ _ d Le J) as (e & K & Ee). exists e. split; [exact K|congruence].
    - pose proof (sound_proper (su_name su) (ds_vars s) (pm_sound s P)) as PS.
      destruct (redundant_set_spec refs (ds_vars s) cs1 (ds_number s)) as [_ H].
      + apply nodup_app; [apply type_refs_nodup|apply type_refs_nodup|]. intros i Ia Ib.
        apply in_type_refs in Ia as (c & Ec & Tc), Ib as (d & Ed & Td). rewrite Ec in Ed. injection Ed as <-. congruence.
      + intros i I. rewrite (D i I). assert (X : exists c, nth_error (ds_cons s) i = Some c /\ (fst (classify (vctx (su_name su) (ds_vars s)) c) = ExclusiveOR \/ fst (classify (vctx (su_name su) (ds_vars s)) c) = SetPartitioning)).
        { apply in_app_or in I as [I|I]; apply in_type_refs in I as (c & Ec & T); exists c; auto. }
        destruct X as (c & Ec & T). exists c. split; [exact Ec|]. pose proof (nth_error_In _ _ Ec) as Ic. split; [exact (pm_enabled s P c Ic)|].
        pose proof (unit_type_meaning (su_name su) (ds_vars s) c PS (pm_flags s P c Ic) (wf_nodup c (proj1 (co_cons s (pm_coherent s P) c Ic)))) as M.
        destruct T as [T|T]; rewrite T in M; exact M.
      + intros y. rewrite E. apply H. destruct (fit_feasible s (proper_fit s P) Fe) as [y0 S0]. exists y0. apply E. exact S0.
  Qed.

  Lemma reduce_phase : exists F, forall fuel, F <= fuel -> exists s1,
    prepare_reduce fuel sw su m s = Some (Ok s1) /\ fit s1 /\ refines m s s1.
  Proof.
    pose proof (proper_fit s P) as Ft. unfold prepare_reduce. destruct (sw_presolve sw).
    2:{ exists O. intros fuel _. exists s. split; [reflexivity|]. split; [exact Ft|apply refines_refl]. }
    fold refs. fold cs1. fold r. cbv zeta. destruct second_shape as (Fx & De & Fl & Ex & Eq).
    destruct (fit_feasible s Ft Fe) as [y0 S0]. set (s0 := mkD (ds_number s) (fst r) (snd r) (ds_obj s) (ds_exprs s) (ds_dep s)).
    destruct (fixing_coherent s (fst r) (snd r) (ft_coherent s Ft) (ft_clean s Ft)) as [Co Cl]; [intros v; apply Fx|exact De|].
    assert (Ft0 : fit s0).
    { constructor; [exact Co|exact Cl| |exact (ft_whole s Ft)]. apply (fixing_good (ds_vars s) (fst r) (ds_cons s) (snd r) y0); try assumption; [apply Ft|apply S0|].
      apply (proj1 (Eq y0) S0). }
    assert (R0 : refines m s s0).
    { apply (lift m s (fst r) (snd r) (ft_coherent s Ft) (ft_clean s Ft) Co Cl (fit_bounds s Ft) (fit_bounds _ Ft0) (ft_whole s Ft)).
      - intros y. apply Eq.
      - intros y S. exists y. split; [apply Eq, S|apply as_good_refl; reflexivity]. }
    destruct (size_phase m s0 Ft0 (refines_feasible _ _ _ R0 Fe)) as [F H].
    { intros v Fv Nv. destruct (Fx v) as (F1 & F2 & F3 & [F4|F4]); cbn [s0 ds_vars ds_cons ds_obj] in *; [|congruence].
      rewrite F4 in *. apply (pm_decided s P v Fv). intros c I K. destruct (Ex c I) as (d & J & Ed). apply (Nv d J). rewrite Ed. exact K. }
    exists F. intros fuel L. destruct (H fuel L) as (p & E & Fp & Rp). cbn [s0 ds_vars ds_cons ds_obj ds_number] in E. rewrite E.
    exists (after s0 p). split; [reflexivity|]. split; [exact Fp|exact (refines_trans _ _ _ _ R0 Rp)].
  Qed.
End Reduce.
