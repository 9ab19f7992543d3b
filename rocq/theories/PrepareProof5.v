(** Proofs for C73: set variables, duplicates, selections and the start; the whole. *)
From Coq Require Import List NArith ZArith QArith Qabs Bool Arith Permutation Lia Lqa.
From Verif Require Import ExprModel ExprSpec ExprProof ConstraintModel ConstraintSpec VariableModel TypeModel TypeSpec PresolveModel PresolveSpec
  DuplicateModel DuplicateSpec DependentModel DependentSpec SelectionModel SelectionSpec PrepareModel PrepareSpec.
From Verif Require Import PresolveProof5 DuplicateProof DuplicateProof2 DuplicateProof3 SelectionProof2 SelectionProof3 DependentProof6
  PrepareProof PrepareProof2 PrepareProof3 PrepareProof4.
Import ListNotations.
Local Open Scope nat_scope.

(** ** Redundant set variables and duplicates *)
Lemma dominated_fixing caddr cs i l : forall vs, fixing vs (fst (dominated_scan caddr cs i l vs)).
Proof.
  induction l as [|j tl IH]; intros vs; cbn [dominated_scan]; [apply fixing_refl|].
  destruct (negb _); [apply fixing_refl|]. destruct (_ && _); [apply IH|]. eapply fixing_trans; [|apply IH].
  destruct (list_eqb _ _); [apply fixing_fix|apply fixing_refl].
Qed.
Lemma domination_fixing caddr cs l : forall vs, fixing vs (domination_scan caddr cs l vs).
Proof.
  induction l as [|i tl IH]; intros vs; cbn [domination_scan]; [apply fixing_refl|]. destruct (va_fixed (vs i)); [apply IH|].
  pose proof (dominated_fixing caddr cs i tl vs) as H. destruct (dominated_scan caddr cs i tl vs) as [vs1 [|]]; cbn [fst] in H; [exact H|].
  eapply fixing_trans; [exact H|apply IH].
Qed.
Lemma variables_fixing caddr refs m obj name n cs vs : fixing vs (remove_redundant_set_variables caddr refs m obj name n cs vs).
Proof.
  unfold remove_redundant_set_variables. destruct (_ =? _); [apply fixing_refl|]. destruct (negb _); [apply fixing_refl|]. apply domination_fixing.
Qed.
Lemma duplicate_lessened addr l : forall cur cs, lessened cs (duplicate_scan addr cur l cs).
Proof.
  induction l as [|j tl IH]; intros cur cs; cbn [duplicate_scan]; [apply lessened_refl|]. destruct cur as [i|]; [|apply IH].
  destruct (N.eqb _ _); [|apply IH]. eapply lessened_trans; [|apply IH]. destruct (_ && _); [apply disable_lessened|apply lessened_refl].
Qed.
Lemma duplicates_lessened addr refs cs : lessened cs (remove_duplicated_constraints addr refs cs).
Proof.
  unfold remove_duplicated_constraints. generalize duplicate_types as l. intros l. revert cs. induction l as [|t l IH]; intros cs; [apply lessened_refl|].
  cbn [fold_left]. eapply lessened_trans; [|apply IH]. unfold remove_duplicates_in. destruct (_ <=? _); [apply lessened_refl|apply duplicate_lessened].
Qed.

Lemma legal_same vs vs' y : (forall v, vs' v = vs v) -> legal vs' y <-> legal vs y.
Proof. intros H. split; intros L v; [rewrite <- H|rewrite H]; apply L. Qed.

Lemma sets_phase sw su m s : fit s -> (exists x, solves s x) -> set_calm sw su m s ->
  fit (prepare_sets sw su m s) /\ refines m s (prepare_sets sw su m s).
Proof.
  intros Ft Fe Sc. unfold set_calm in Sc. unfold prepare_sets in *. cbv zeta in *. cbn [ds_vars] in Sc.
  set (refs := type_refs (vctx (su_name su) (ds_vars s)) (ds_cons s)) in *.
  set (vs := if sw_presolve sw && sw_set_vars sw then _ else ds_vars s) in *.
  set (cs := if sw_presolve sw && sw_duplicates sw then _ else ds_cons s).
  assert (Fx : fixing (ds_vars s) vs) by (unfold vs; destruct (sw_presolve sw && sw_set_vars sw); [apply variables_fixing|apply fixing_refl]).
  assert (Le : lessened (ds_cons s) cs) by (unfold cs; destruct (sw_presolve sw && sw_duplicates sw); [apply duplicates_lessened|apply lessened_refl]).
  assert (Cs : forall y, satisfies_all (ds_cons s) y <-> satisfies_all cs y).
  { unfold cs. destruct (sw_presolve sw && sw_duplicates sw); [|reflexivity]. apply remove_duplicated_spec; [intros t; apply type_refs_nodup|].
    intros c I. apply (co_cons s (ft_coherent s Ft) c I). }
  assert (Im : improves m (ds_obj s) (ds_cons s) (ds_vars s) vs).
  { destruct (sw_presolve sw) eqn:E1, (sw_set_vars sw) eqn:E2; cbn [andb] in vs; try apply improves_refl.
    destruct (Sc eq_refl eq_refl) as [Same|(UB & SP & WZ & NT)].
    - split; [intros y; apply (proj1 (legal_same _ _ y Same))|]. intros y L S. exists y. split; [exact (proj2 (legal_same _ _ y Same) L)|]. split; [exact S|apply as_good_refl; reflexivity].
    - apply (redundant_variables_spec (ds_number s) m (ds_obj s) (ds_cons s) (ds_vars s) (co_obj s (ft_coherent s Ft)) UB SP WZ NT). }
  destruct Im as [Im1 Im2].
  assert (D : derived (ds_cons s) cs) by (apply lessened_derived, Le).
  destruct (fixing_coherent s vs cs (ft_coherent s Ft) (ft_clean s Ft)) as [Co Cl]; [intros v; apply Fx|exact D|].
  assert (Ft' : fit (mkD (ds_number s) vs cs (ds_obj s) (ds_exprs s) (ds_dep s))).
  { constructor; [exact Co|exact Cl| |exact (ft_whole s Ft)]. cbn [ds_vars ds_cons].
    destruct (fit_feasible s Ft Fe) as [y [L S]]. destruct (Im2 y L S) as (y0 & L0 & S0 & _).
    apply (fixing_good (ds_vars s) vs (ds_cons s) cs y0 (ft_good s Ft) Fx D); [|apply Im1, L0|exact L0].
    exact (lessened_flags _ _ Le (gd_flags _ _ (ft_good s Ft))). }
  split; [exact Ft'|]. apply (lift m s vs cs (ft_coherent s Ft) (ft_clean s Ft) Co Cl (fit_bounds s Ft) (fit_bounds _ Ft') (ft_whole s Ft)).
  - intros y [L S]. split; [apply Im1, L|exact (proj2 (Cs y) S)].
  - intros y [L S]. destruct (Im2 y L S) as (y0 & L0 & S0 & G). exists y0. split; [split; [exact L0|exact (proj1 (Cs y0) S0)]|exact G].
Qed.

(** ** Selections *)
Lemma one_of_total l x : NoDup l -> (forall v, In v l -> 0 <= x v <= 1)%Z -> (total l x = 1%Z <-> one_of l x).
Proof.
  induction l as [|a l IH]; intros N B.
  { cbn. split; [discriminate|]. intros (v & [] & _). }
  inversion N as [|? ? Na Nl]; subst. cbn [total]. assert (Bl : forall v, In v l -> (0 <= x v <= 1)%Z) by (intros v I; apply B; now right).
  pose proof (B a (or_introl eq_refl)) as Ba. pose proof (total_nonneg l x (fun v I => proj1 (Bl v I))) as P. specialize (IH Nl Bl). split.
  - intros E. assert (C : (x a = 0 \/ x a = 1)%Z) by lia. destruct C as [C|C].
    + destruct (proj1 IH) as (v & I & V & O); [lia|]. exists v. split; [now right|]. split; [exact V|]. intros w [<-|J] D; [exact C|apply O; assumption].
    + exists a. split; [now left|]. split; [exact C|]. intros w [<-|J] D; [contradiction|]. clear -E C J Bl P.
      assert (T : total l x = 0%Z) by lia. clear E P. induction l as [|b l IH]; [destruct J|]. cbn [total] in T.
      pose proof (Bl b (or_introl eq_refl)). pose proof (total_nonneg l x (fun v I => proj1 (Bl v (or_intror I)))).
      destruct J as [<-|J]; [lia|]. apply IH; [intros v I; apply Bl; now right|exact J|lia].
  - intros (v & [<-|I] & V & O).
    + rewrite (total_zero l x); [lia|]. intros w J. apply O; [now right|]. intros ->. contradiction.
    + rewrite (O a); [|now left|intros ->; contradiction]. rewrite (proj2 IH); [lia|]. exists v. split; [exact I|]. split; [exact V|]. intros w J. apply O. now right.
Qed.

(** An assignment within the bounds that agrees wherever it can. *)
Definition clip (vs : vars) (x : nat -> Z) (v : nat) : Z :=
  if va_fixed (vs v) then va_value (vs v) else Z.max (va_lower (vs v)) (Z.min (va_upper (vs v)) (x v)).
Lemma clip_legal vs x : all_sound vs -> legal vs (clip vs x).
Proof.
  intros So v. destruct (So v) as (A & _). unfold clip. destruct (va_fixed (vs v)); split; intros H; try discriminate; [reflexivity|lia].
Qed.
Lemma clip_same vs x v : within (vs v) (x v) -> clip vs x v = x v.
Proof. unfold clip, within. destruct (va_fixed (vs v)); [congruence|lia]. Qed.

Definition ready (r : dstate * list sel) : Prop :=
  selections_ready (ds_vars (fst r)) (snd r) /\ all_sound (ds_vars (fst r)) /\
  forall v, va_sense (ds_vars (fst r) v) = VSelection -> ds_dep (fst r) v = None.

Lemma not_dependent s v : coherent s -> va_sense (ds_vars s v) = VBinary \/ va_sense (ds_vars s v) = VSelection -> ds_dep s v = None.
Proof.
  intros Co H. destruct (ds_dep s v) as [k|] eqn:E; [|reflexivity]. exfalso.
  destruct (proj1 (co_dep s Co v)) as [_ [D|D]]; [congruence| |]; destruct H as [H|H]; rewrite H in D; discriminate.
Qed.

Lemma selections_slim sw su s : slim s -> let r := prepare_selections sw su s in
  ds_obj (fst r) = ds_obj s /\ ds_number (fst r) = ds_number s /\ ready r /\ forall x, meets r x <-> solves s x.
Proof.
  intros Ft r. pose proof (sm_sound s Ft) as So. pose proof (sm_coherent s Ft) as Co. unfold prepare_selections in r.
  destruct (_ && _).
  2:{ subst r. cbn [fst snd]. split; [reflexivity|]. split; [reflexivity|]. split.
      - split; [|split; [exact So|]].
        + split; [intros [|i] j t u D E; discriminate|intros t []].
        + intros v E. apply (not_dependent s v Co). auto.
      - intros x. split; [intros [H _]; exact H|]. intros H. split; [exact H|]. intros t []. }
  subst r. rewrite extract_eq.
  set (vn := su_name su). set (cn := su_cname su). set (md := sw_mode sw). set (us := su_user su). set (cx := vctx vn (ds_vars s)).
  pose proof (extracted_constraints vn cn md us cx (ds_vars s) (ds_cons s)) as HC. pose proof (extracted_senses vn cn md us cx (ds_vars s) (ds_cons s)) as HS.
  pose proof (extracted_origin vn cn md us cx (ds_vars s) (ds_cons s)) as HO. pose proof (extracted_disjoint vn cn md us cx (ds_vars s) (ds_cons s)) as HD.
  set (vs' := fun v => if existsb _ _ then _ else _) in *. set (cs' := fold_left disable_at _ _) in *. set (sels := map (setup_related vn cn (ds_cons s)) _) in *.
  cbv zeta in HC, HS. cbn [fst snd ds_obj ds_number]. destruct HC as [[Len OD] HC].
  (* the selections *)
  assert (Sel : forall t, In t sels -> exists c, nth_error (ds_cons s) (sl_con t) = Some c /\ ct_enabled c = true /\ NoDup (sl_vars t) /\
    (forall v, In v (sl_vars t) -> va_sense (ds_vars s v) = VBinary) /\
    forall x, (forall v, ds_dep s v = None -> within (ds_vars s v) (x v)) -> (satisfies c x <-> one_of (sl_vars t) x)).
  { intros t I. destruct (HO t I) as (c & (E & En & T & Bin) & Pm & _). exists c. split; [exact E|]. split; [exact En|].
    pose proof (nth_error_In _ _ E) as Ic. pose proof (wf_nodup c (proj1 (co_cons s Co c Ic))) as Nc.
    assert (Nt : NoDup (sl_vars t)) by exact (Permutation_NoDup (Permutation_sym Pm) Nc). split; [exact Nt|].
    assert (Bt : forall v, In v (sl_vars t) -> va_sense (ds_vars s v) = VBinary) by (intros v J; apply Bin, (Permutation_in _ Pm), J). split; [exact Bt|].
    intros x R. set (y := clip (ds_vars s) x). assert (Ag : forall v, In v (variables c) -> y v = x v).
    { intros v J. apply clip_same, R, (not_dependent s v Co). left. apply Bin, J. }
    assert (Ag' : forall v, In v (variables c) -> x v = y v) by (intros v J; symmetry; apply Ag, J).
    assert (TF : truthful_flags cx c).
    { split; [exact (sm_flags s Ft c Ic En)|]. intros _ v J. left. apply Bin, J. }
    pose proof (unit_type_meaning vn (ds_vars s) c (sound_proper vn (ds_vars s) So) TF Nc) as M. fold cx in M. rewrite T in M.
    destruct M as [_ M]. destruct (M y (clip_legal (ds_vars s) x So)) as [B M'].
    assert (Tx : total (sl_vars t) x = total (variables c) y).
    { rewrite (total_perm _ _ x Pm). clear -Ag'. induction (variables c) as [|a l IH]; [reflexivity|]. cbn [total]. rewrite (Ag' a (or_introl eq_refl)).
      rewrite IH; [reflexivity|]. intros v J. apply Ag'. now right. }
    rewrite <- one_of_total; [|exact Nt|].
    - rewrite Tx, <- M'. split; apply satisfies_agree; [exact Ag'|exact Ag].
    - intros v J. apply (Permutation_in _ Pm) in J. rewrite (Ag' v J). apply B, J. }
  assert (Vs : forall v, vs' v = ds_vars s v \/ (vs' v = v_with_sense (ds_vars s v) VSelection /\ va_sense (ds_vars s v) = VBinary)).
  { intros v. destruct (HS v) as [H1 H2]. destruct (existsb (fun t => existsb (Nat.eqb v) (sl_vars t)) sels) eqn:E.
    - apply existsb_exists in E as (t & It & Ev). apply mem_iff in Ev. right. split; [apply H1; eauto|]. destruct (Sel t It) as (c & _ & _ & _ & B & _). apply B, Ev.
    - left. apply H2. intros (t & It & Iv). assert (X : existsb (fun t => existsb (Nat.eqb v) (sl_vars t)) sels = true); [|congruence].
      apply existsb_exists. exists t. split; [exact It|apply mem_iff, Iv]. }
  assert (W : forall v z, within (vs' v) z <-> within (ds_vars s v) z).
  { intros v z. destruct (Vs v) as [->|[-> _]]; reflexivity. }
  split; [reflexivity|]. split; [reflexivity|]. split; [split; [|split]|].
  - split; [exact HD|]. cbn [ds_vars]. intros t I. destruct (Sel t I) as (c & _ & _ & N & _). split; [exact N|]. intros v J.
    destruct (HS v) as [H1 _]. assert (X : vs' v = v_with_sense (ds_vars s v) VSelection) by (apply H1; eauto).
    change (va_sense (vs' v) = VSelection). rewrite X. reflexivity.
  - intros v. change (sound (vs' v)). destruct (Vs v) as [->|[-> B]]; [apply So|]. destruct (So v) as (S1 & S2 & S3).
    unfold sound. cbn [v_with_sense va_lower va_upper va_sense va_fixed va_value]. split; [exact S1|]. split; [|exact S3]. intros _. apply S2. auto.
  - intros v E. change (va_sense (vs' v) = VSelection) in E. apply (not_dependent s v Co). destruct (Vs v) as [X|[_ X]]; [rewrite X in E|]; auto.
  - intros x. unfold meets. cbn [fst snd]. split.
    + intros [[R C D] O]. cbn [ds_dep ds_vars ds_cons ds_exprs] in *.
      assert (R' : forall v, ds_dep s v = None -> within (ds_vars s v) (x v)) by (intros v E; apply W, R, E).
      constructor; [exact R'| |exact D]. intros c I En. apply In_nth_error in I as [i E].
      destruct (nth_error cs' i) as [c'|] eqn:E'.
      2:{ apply nth_error_None in E'. assert (i < length (ds_cons s)) by (apply nth_error_Some; congruence). lia. }
      destruct (HC i c c' E E') as [_ H2]. destruct (existsb (fun t => sl_con t =? i) sels) eqn:Ex.
      * apply existsb_exists in Ex as (t & It & Et). apply Nat.eqb_eq in Et. destruct (Sel t It) as (d & Ed & _ & _ & _ & M). rewrite Et, E in Ed. injection Ed as <-.
        apply M; [exact R'|apply O, It].
      * rewrite H2 in E'.
        -- apply C; [exact (nth_error_In _ _ E')|exact En].
        -- intros (t & It & Et). assert (X : existsb (fun t => sl_con t =? i) sels = true); [|congruence]. apply existsb_exists. exists t. split; [exact It|apply Nat.eqb_eq, Et].
    + intros [R C D]. split.
      * constructor; cbn [ds_dep ds_vars ds_cons ds_exprs]; [intros v E; apply W, R, E| |exact D].
        intros c' I En. apply In_nth_error in I as [i E']. destruct (nth_error (ds_cons s) i) as [c|] eqn:E.
        2:{ apply nth_error_None in E. assert (i < length cs') by (apply nth_error_Some; congruence). lia. }
        destruct (OD i c c' E E') as (O1 & O2 & O3). unfold satisfies. rewrite O1, O2. exact (C c (nth_error_In _ _ E) (O3 En)).
      * intros t It. destruct (Sel t It) as (c & E & En & _ & _ & M). apply M; [exact R|]. apply C; [exact (nth_error_In _ _ E)|exact En].
Qed.
Lemma selections_phase sw su s : fit s -> let r := prepare_selections sw su s in
  ds_obj (fst r) = ds_obj s /\ ds_number (fst r) = ds_number s /\ ready r /\ forall x, meets r x <-> solves s x.
Proof. intros Ft. exact (selections_slim sw su s (fit_slim s Ft)). Qed.

(** ** The start *)
Lemma start_done sw su r r' : ready r -> prepare_start sw su r = Ok r' ->
  (forall x, meets r' x <-> meets r x) /\ ds_obj (fst r') = ds_obj (fst r) /\ ds_number (fst r') = ds_number (fst r) /\
  ds_cons (fst r') = ds_cons (fst r) /\ ds_exprs (fst r') = ds_exprs (fst r) /\ ds_dep (fst r') = ds_dep (fst r) /\
  same_but_value (ds_vars (fst r)) (ds_vars (fst r')) /\ map sl_vars (snd r') = map sl_vars (snd r) /\
  valid_start (ds_number (fst r')) (ds_vars (fst r')) (snd r').
Proof.
  destruct r as [s sels]. intros (Rd & So & Nd). cbn [fst snd] in *. unfold prepare_start.
  assert (Sa : sane_bounds (ds_number s) (ds_vars s)).
  { intros v _. destruct (So v) as (S1 & S2 & _). split; [exact S1|]. intros E. apply S2. auto. }
  destruct (verify (sw_correct sw) (ds_number s) (ds_cons s) (su_sens su (ds_cons s)) (ds_vars s) sels) as [[vs' sels']|] eqn:E; [|discriminate].
  intros H. injection H as <-.
  - destruct (verify_spec _ _ _ _ _ _ _ _ Rd Sa E) as (Sb & Vs & Ca & _). cbn [fst snd ds_vars ds_number ds_obj ds_cons ds_exprs ds_dep].
    assert (Mp : map sl_vars sels' = map sl_vars sels) by (clear -Ca; induction Ca as [|a b l l' H Ca IH]; [reflexivity|]; cbn [map]; f_equal; [apply H|exact IH]).
    assert (In' : forall t', In t' sels' -> exists t, In t sels /\ sl_vars t = sl_vars t').
    { intros t' I. assert (J : In (sl_vars t') (map sl_vars sels)) by (rewrite <- Mp; now apply in_map). apply in_map_iff in J as (t & A & B). eauto. }
    assert (In'' : forall t, In t sels -> exists t', In t' sels' /\ sl_vars t' = sl_vars t).
    { intros t I. assert (J : In (sl_vars t) (map sl_vars sels')) by (rewrite Mp; now apply in_map). apply in_map_iff in J as (t' & A & B). eauto. }
    assert (W : forall v z, within (vs' v) z <-> within (ds_vars s v) z).
    { intros v z. destruct (Sb v) as (A & B & C & _ & D). unfold within. rewrite A, B, C. destruct (va_fixed (ds_vars s v)); [rewrite (D eq_refl)|]; reflexivity. }
    split; [|split; [reflexivity|split; [reflexivity|split; [reflexivity|split; [reflexivity|split; [reflexivity|split; [exact Sb|split; [exact Mp|]]]]]]]].
    + intros y. unfold meets. cbn [fst snd]. split; intros [[R C D] O]; (split; [constructor; cbn [ds_dep ds_vars ds_cons ds_exprs] in *; [intros v F; apply W, R, F|exact C|exact D]|]).
      * intros t I. destruct (In'' t I) as (t' & I' & <-). apply O, I'.
      * intros t' I'. destruct (In' t' I') as (t & I & <-). apply O, I.
    + destruct Vs as [V1 V2]. split; [|exact V2]. intros t' I'. destruct (In' t' I') as (t & I & <-). apply V1, I.
Qed.
Lemma start_phase sw su r : ready r -> (exists x, meets r x) ->
  match prepare_start sw su r with
  | Ok r' => (forall x, meets r' x <-> meets r x) /\ ds_obj (fst r') = ds_obj (fst r) /\ ds_number (fst r') = ds_number (fst r) /\
             ds_cons (fst r') = ds_cons (fst r) /\ ds_exprs (fst r') = ds_exprs (fst r) /\ ds_dep (fst r') = ds_dep (fst r) /\
             same_but_value (ds_vars (fst r)) (ds_vars (fst r')) /\ map sl_vars (snd r') = map sl_vars (snd r) /\
             valid_start (ds_number (fst r')) (ds_vars (fst r')) (snd r')
  | Throw => sw_correct sw = false /\ ~ valid_start (ds_number (fst r)) (ds_vars (fst r)) (snd r) \/
             overflowing (ds_cons (fst r)) (su_sens su (ds_cons (fst r))) (snd r)
  | UB => False
  end.
Proof.
  destruct r as [s sels]. intros (Rd & So & Nd) [x Mx]. cbn [fst snd] in *. unfold prepare_start.
  assert (Sa : sane_bounds (ds_number s) (ds_vars s)).
  { intros v _. destruct (So v) as (S1 & S2 & _). split; [exact S1|]. intros E. apply S2. auto. }
  destruct (verify (sw_correct sw) (ds_number s) (ds_cons s) (su_sens su (ds_cons s)) (ds_vars s) sels) as [[vs' sels']|] eqn:E.
  - exact (start_done sw su (s, sels) _ (conj Rd (conj So Nd)) ltac:(unfold prepare_start; rewrite E; reflexivity)).
  - destruct (sw_correct sw) eqn:Co.
    + right. destruct (verify_none _ _ _ _ _ Rd E) as [H|H]; [exfalso|exact H]. destruct Mx as [Sx Ox]. cbn [fst snd] in *.
      assert (Bd : forall v, va_fixed (ds_vars s v) = true -> va_sense (ds_vars s v) = VBinary \/ va_sense (ds_vars s v) = VSelection -> (0 <= va_value (ds_vars s v) <= 1)%Z).
      { intros v F Se. destruct (So v) as (_ & S2 & S3). specialize (S3 F). destruct S2 as [A B]; [tauto|lia]. }
      assert (Fx : forall t v, In t sels -> In v (sl_vars t) -> va_fixed (ds_vars s v) = true -> x v = va_value (ds_vars s v)).
      { intros t v It Iv F. pose proof (sv_range s x Sx v (Nd v (proj2 (proj2 Rd t It) v Iv))) as X. unfold within in X. rewrite F in X. exact X. }
      destruct H as [(t & It & [(v & Iv & F & N0 & N1)|[(v & w & D & Iv & Iw & Fv & Fw & Vv & Vw)|All]])|(v & Lv & F & [(Se & N0 & N1)|(Se & N)])].
      * assert (X := Bd v F (or_intror (proj2 (proj2 Rd t It) v Iv))). lia.
      * destruct (Ox t It) as (u & Iu & Vu & O). rewrite <- (Fx t v It Iv Fv) in Vv. rewrite <- (Fx t w It Iw Fw) in Vw.
        destruct (Nat.eq_dec v u) as [->|D1]; [|rewrite (O v Iv D1) in Vv; discriminate].
        destruct (Nat.eq_dec w u) as [->|D2]; [contradiction|rewrite (O w Iw D2) in Vw; discriminate].
      * destruct (Ox t It) as (u & Iu & Vu & O). destruct (All u Iu) as [Fu Nu]. apply Nu. rewrite <- (Fx t u It Iu Fu). exact Vu.
      * assert (X := Bd v F (or_introl Se)). lia.
      * apply N. destruct (So v) as (_ & _ & S3). apply S3, F.
    + left. split; [reflexivity|]. intros Vs. destruct (verify_valid false _ (ds_cons s) (su_sens su (ds_cons s)) _ _ Rd Vs) as (a & b & Ev & _). congruence.
Qed.

(** ** The whole *)
Lemma reduce_more_fuel f g sw su m s s1 : prepare_reduce f sw su m s = Some (Ok s1) -> f <= g -> prepare_reduce g sw su m s = Some (Ok s1).
Proof.
  unfold prepare_reduce. destruct (sw_presolve sw); [|auto]. cbv zeta. set (p := mkP _ _ _).
  destruct (reduce_problem_size f m _ p) as [o|] eqn:E; [|discriminate]. intros H L. rewrite (size_more _ g _ _ _ _ E L). exact H.
Qed.

Lemma problem_phase sw su m s : proper_model s -> (exists x, solves s x) -> calm_rounds sw su m s -> calm_sets sw su m s ->
  exists F, forall fuel, F <= fuel -> exists r, prepare_problem fuel sw su m s = Some (Ok r) /\ keeps_optimum m s r /\ ready r.
Proof.
  intros P Fe C1 C2. destruct (reduce_phase sw su m s P Fe) as [F1 H1]. destruct (H1 F1 (Nat.le_refl F1)) as (s1 & E1 & Ft1 & R1).
  destruct (dependents_phase sw su m s1 Ft1 (refines_feasible _ _ _ R1 Fe) (C1 F1 s1 E1)) as [F2 H2].
  exists (F1 + F2). intros fuel L. pose proof (reduce_more_fuel F1 fuel _ _ _ _ _ E1 ltac:(lia)) as E1'.
  destruct (H2 fuel ltac:(lia)) as (s2 & E2 & Ft2 & R2). pose proof (refines_trans _ _ _ _ R1 R2) as R12.
  destruct (sets_phase sw su m s2 Ft2 (refines_feasible _ _ _ R12 Fe) (C2 fuel s1 s2 E1' E2)) as [Ft3 R3]. pose proof (refines_trans _ _ _ _ R12 R3) as R.
  set (s3 := prepare_sets sw su m s2) in *. exists (prepare_selections sw su s3). destruct (selections_phase sw su s3 Ft3) as (Ob & _ & Rd & Mt).
  split; [unfold prepare_problem; rewrite E1', E2; reflexivity|]. split; [|exact Rd]. destruct R as [Ra Rb]. split.
  - intros x M. apply Mt in M. rewrite Ob. apply Ra, M.
  - intros x S. destruct (Rb x S) as (x' & S' & G). exists x'. split; [apply Mt, S'|]. exact G.
Qed.

Lemma prepared sw su m s : proper_model s -> (exists x, solves s x) -> calm_rounds sw su m s -> calm_sets sw su m s ->
  exists F, forall fuel, F <= fuel -> exists r, prepare_problem fuel sw su m s = Some (Ok r) /\ keeps_optimum m s r /\
  ((exists r', prepare fuel sw su m s = Some (Ok r') /\ keeps_optimum m s r' /\ valid_start (ds_number (fst r')) (ds_vars (fst r')) (snd r')) \/
   (prepare fuel sw su m s = Some Throw /\
    (sw_correct sw = false /\ ~ valid_start (ds_number (fst r)) (ds_vars (fst r)) (snd r) \/
     overflowing (ds_cons (fst r)) (su_sens su (ds_cons (fst r))) (snd r)))).
Proof.
  intros P Fe C1 C2. destruct (problem_phase sw su m s P Fe C1 C2) as [F H]. exists F. intros fuel L. destruct (H fuel L) as (r & E & K & Rd).
  exists r. split; [exact E|]. split; [exact K|]. destruct Fe as [x Sx]. destruct (proj2 K x Sx) as (x' & Mx & _).
  pose proof (start_phase sw su r Rd (ex_intro _ x' Mx)) as S. unfold prepare. rewrite E. cbn [bind].
  destruct (prepare_start sw su r) as [r'| |]; [|right; auto|contradiction].
  left. exists r'. split; [reflexivity|]. destruct S as (Mt & Ob & _ & _ & _ & _ & _ & _ & V). split; [|exact V]. destruct K as [K1 K2]. split.
  - intros y M. apply Mt in M. rewrite Ob. apply K1, M.
  - intros y S. destruct (K2 y S) as (y' & M & G). exists y'. split; [apply Mt, M|exact G].
Qed.
