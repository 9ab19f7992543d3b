(** Proofs for C79: the values the GF(2) solver fixes are those of every solution. *)
From Coq Require Import List NArith ZArith QArith Qabs Bool Arith Lia Lqa Permutation.
From Verif Require Import ExprModel ExprSpec ExprProof ConstraintModel ConstraintSpec VariableModel TypeModel TypeSpec PresolveModel PresolveSpec
  DuplicateModel DependentModel DependentSpec SelectionModel SelectionSpec BinMatModel BinMatSpec PrepareModel PrepareSpec OfferModel ParityModel ParitySpec.
From Verif Require Import BinMatProof BinMatProof2 TypeProof TypeProof2 DuplicateProof2.
Import ListNotations.
Local Open Scope nat_scope.

(** ** The rows *)
Ltac no_gf2 := repeat (match goal with
  | |- (if ?b then _ else _) = _ -> _ => destruct b
  | |- match ?b with _ => _ end = _ -> _ => destruct b
  | |- Some _ = _ -> _ => let I := fresh in intros I; discriminate I
  | |- None = _ -> _ => let I := fresh in intros I; discriminate I end).
Lemma gf2_last x c k : classify x c = (GF2, Some k) -> b_gf2 x c = Some (GF2, Some k).
Proof.
  unfold classify. cbn [first_verdict].
  assert (H1 : b_singleton c = Some (GF2, Some k) -> False) by (unfold b_singleton; no_gf2).
  assert (H2 : b_pair_equal x c = Some (GF2, Some k) -> False) by (unfold b_pair_equal; cbv zeta; no_gf2).
  assert (H3 : b_pair_inequality x c = Some (GF2, Some k) -> False) by (unfold b_pair_inequality; cbv zeta; no_gf2).
  assert (H4 : b_trinomial x c = Some (GF2, Some k) -> False) by (unfold b_trinomial; cbv zeta; no_gf2).
  assert (H5 : b_set c = Some (GF2, Some k) -> False) by (unfold b_set; cbv zeta; no_gf2).
  assert (H6 : b_flow x c = Some (GF2, Some k) -> False) by (unfold b_flow; cbv zeta; no_gf2).
  assert (H7 : b_minmax x c = Some (GF2, Some k) -> False) by (unfold b_minmax; cbv zeta; no_gf2).
  assert (H8 : b_knapsack x c = Some (GF2, Some k) -> False) by (unfold b_knapsack; cbv zeta; no_gf2).
  destruct (b_singleton c) as [p|]; [intros ->; tauto|]. destruct (b_pair_equal x c) as [p|]; [intros ->; tauto|]. destruct (b_pair_inequality x c) as [p|]; [intros ->; tauto|].
  destruct (b_trinomial x c) as [p|]; [intros ->; tauto|]. destruct (b_set c) as [p|]; [intros ->; tauto|]. destruct (b_flow x c) as [p|]; [intros ->; tauto|].
  destruct (b_minmax x c) as [p|]; [intros ->; tauto|]. destruct (b_knapsack x c) as [p|]; [intros ->; tauto|]. destruct (b_gf2 x c) as [p|]; [intros ->; reflexivity|discriminate].
Qed.
Lemma gf2_row name vs c k : classify (vctx name vs) c = (GF2, Some k) -> parity_row vs c k.
Proof.
  intros H. apply gf2_last in H. unfold b_gf2 in H. destruct (_ && _ && _) eqn:E; [|discriminate]. bools.
  match goal with H : TypeModel.csense_eqb _ _ = true |- _ => apply csense_eqb_true in H; rename H into He end.
  match goal with H : forallb _ _ = true |- _ => rewrite forallb_forall in H; rename H into Hf end.
  destruct (filter _ _) as [|[u a] [|]] eqn:Ef; try discriminate.
  match goal with H : (let '(lo, hi) := ?b in _) = _ |- _ => destruct b as [lo hi] end.
  match goal with H : (if ?b then _ else _) = _ |- _ => destruct b; [discriminate|] end. injection H as ->.
  assert (Iu : In (k, a) (ex_sens (ct_expr c)) /\ two_key (vctx name vs) (k, a) = true) by (apply filter_In; rewrite Ef; now left).
  destruct Iu as [Iu Tu]. constructor.
  - exact He.
  - intros v I. apply in_map_iff in I as ([v' b] & <- & I). specialize (Hf _ I). apply andb_true_iff in Hf as [Hf _]. apply negb_true_iff in Hf. exact Hf.
  - exists a. split; [exact Iu|]. unfold two_key in Tu. bools. cbn [snd] in *.
    match goal with H : (Qabs a == 2)%Q |- _ => revert H; apply Qabs_case; intros; [left|right]; lra end.
  - unfold two_key in Tu. cbn [fst snd] in Tu. apply andb_true_iff in Tu as [Tu _]. cbn [vctx tx_sense] in Tu. destruct (va_sense (vs k)); try discriminate Tu; auto.
  - intros v b I N. specialize (Hf _ I). apply andb_true_iff in Hf as [_ Hf]. apply orb_true_iff in Hf as [Hf|Hf].
    + exfalso. assert (J : In (v, b) (filter (two_key (vctx name vs)) (ex_sens (ct_expr c)))) by now apply filter_In. rewrite Ef in J. destruct J as [J|[]]. injection J as -> _. contradiction.
    + apply andb_true_iff in Hf as [A B]. split; [|exact (unit_cases _ B)]. cbn [fst vctx tx_sense] in A. destruct (va_sense (vs v)); try discriminate A. reflexivity.
  - match goal with H : _ || _ = true |- _ => apply orb_true_iff in H; destruct H as [H|H] end; [left; now apply qe_iff|right; now apply unit_cases].
Qed.
Lemma item_row su s c k : In (c, k) (parity_items su s) -> In c (ds_cons s) /\ parity_row (ds_vars s) c k.
Proof.
  intros I. unfold parity_items in I. apply in_flat_map in I as ([c0 q] & I & J). cbn [fst snd] in J. destruct q as [k0|]; [|destruct J]. destruct J as [J|[]]. injection J as -> ->.
  unfold items_of in I. apply in_flat_map in I as (i & Ii & J). apply in_type_refs in Ii as (d & E & T). rewrite E in J. destruct J as [J|[]]. injection J as -> K.
  split; [exact (nth_error_In _ _ E)|]. apply (gf2_row (su_name su)). rewrite <- T, <- K. destruct (classify _ c); reflexivity.
Qed.

(** ** The solution is forced *)
Definition shaped (c : gf2c) : Prop := NoDup (map fst (ex_sens (fst c))) /\
  (exists a, In (snd c, a) (ex_sens (fst c)) /\ (a == 2 \/ a == -(2))%Q) /\
  (forall v a, In (v, a) (ex_sens (fst c)) -> v <> snd c -> a == 1 \/ a == -(1))%Q /\ exists z, (ex_const (fst c) == inject_Z z)%Q.

Lemma zsum_total l x : TypeSpec.total l x = zsum l x.
Proof. induction l; cbn; congruence. Qed.
Lemma keep_others (s : sens) k : map fst (filter (fun p => negb (Nat.eqb (fst p) k)) s) = filter (fun v => negb (Nat.eqb v k)) (map fst s).
Proof. induction s as [|[v a] s IH]; [reflexivity|]. cbn [filter map fst]. destruct (Nat.eqb v k); cbn [negb map fst]; rewrite IH; reflexivity. Qed.
(** The parity of the sum of the others. *)
Lemma row_parity c z : shaped c -> (e_eval (fst c) z == 0)%Q -> Z.odd (zsum (nonkey c) z) = Z.odd (Qtrunc (ex_const (fst c))).
Proof.
  intros (ND & (a & Ia & Ha) & Ho & (k & Hk)) E. destruct c as [e u]. cbn [fst snd] in *. rewrite (Qtrunc_Z _ k Hk).
  rewrite eval_lin, (lin_erase (ex_sens e) u z ND) in E. replace (coef (ex_sens e) u) with a in E by (unfold coef; now rewrite (in_find _ u a ND Ia)).
  destruct (parity_lin (sens_erase (ex_sens e) u) z 0) as (w & W1 & W2).
  { intros v b I. rewrite erase_filter in I by exact ND. apply filter_In in I as [I N]. apply negb_true_iff, Nat.eqb_neq in N. exact (Ho v b I N). }
  rewrite !Z.add_0_r in W2. rewrite (erase_filter _ u ND), keep_others, zsum_total in W2.
  change (nonkey (e, u)) with (filter (fun v => negb (v =? u)) (map fst (ex_sens e))).
  rewrite <- !Z.negb_even, <- W2. f_equal.
  assert (G : exists t, (w + k = 2 * t)%Z).
  { rewrite W1, Hk in E. destruct Ha as [Ha|Ha]; rewrite Ha in E; [exists (- z u)%Z|exists (z u)]; apply inject_Z_injective; rewrite inject_Z_plus, inject_Z_mult, ?inject_Z_opp; change (inject_Z 2) with 2%Q; lra. }
  destruct G as [t G]. replace w with (2 * t - k)%Z by lia. rewrite Z.even_sub, Z.even_mul. cbn. destruct (Z.even k); reflexivity.
Qed.
Lemma lin_fold_right s z : lin s z = fold_right (fun p a => snd p * inject_Z (z (fst p)) + a)%Q 0%Q s.
Proof. induction s as [|[v b] s IH]; [reflexivity|]. cbn [lin fold_right fst snd]. now rewrite IH. Qed.
Lemma row_key c z : shaped c -> (forall v a, In (v, a) (ex_sens (fst c)) -> v <> snd c -> a == 1)%Q -> (e_eval (fst c) z == 0)%Q -> key_value z c = z (snd c).
Proof.
  intros (ND & (a & Ia & Ha) & _ & _) H1 E. unfold key_value.
  assert (Ca : coef (ex_sens (fst c)) (snd c) = a) by (unfold coef; now rewrite (in_find _ (snd c) a ND Ia)). rewrite Ca.
  assert (V : (ex_const (fst c) + inject_Z (zsum (nonkey c) z) == - (a * inject_Z (z (snd c))))%Q).
  { rewrite eval_lin in E. assert (L : (lin (ex_sens (fst c)) z == a * inject_Z (z (snd c)) + inject_Z (zsum (nonkey c) z))%Q).
    { rewrite <- Ca, lin_fold_right. exact (value_split (snd c) z _ ND H1). }
    rewrite L in E. lra. }
  apply Qtrunc_Z. rewrite V. destruct Ha as [Ha|Ha]; rewrite Ha; field.
Qed.

Lemma forced cs bs x y z : Permutation bs (binary_variables cs) -> (forall c, In c cs -> shaped c) ->
  (forall c c', In c cs -> In c' cs -> ~ In (snd c) (nonkey c')) -> gf2_solve cs bs x = Some y ->
  (forall c, In c cs -> (e_eval (fst c) z == 0)%Q) -> (forall v, In v bs -> z v = 0 \/ z v = 1)%Z ->
  (forall v, In v bs -> y v = z v) /\
  (forall c, In c cs -> (forall v a, In (v, a) (ex_sens (fst c)) -> v <> snd c -> a == 1)%Q -> y (snd c) = z (snd c)) /\
  (forall v, ~ In v bs -> ~ In v (map snd cs) -> y v = x v).
Proof.
  intros PB PE Dj E Sz Bz. unfold gf2_solve in E.
  destruct (Nat.eqb_spec (length bs) (length cs)) as [L1|]; [|discriminate]. cbn [negb] in E.
  destruct (Nat.eqb_spec (length (key_variables cs)) (length cs)) as [L2|]; [|discriminate]. cbn [negb] in E.
  pose proof (inverse_correct (length cs) (gf2_matrix cs bs)) as INV.
  destruct (inverse_and_rank (length cs) (gf2_matrix cs bs)) as [inv rank]. cbn [fst snd] in INV.
  destruct (Nat.eqb_spec rank (length cs)) as [Er|]; [|discriminate]. cbn [negb] in E.
  destruct (INV Er) as [IM _]. clear INV. injection E as <-.
  set (n := length cs) in *. set (sol := dotv n inv (gf2_constants cs)).
  assert (NDb : NoDup bs) by (eapply Permutation_NoDup; [apply Permutation_sym; exact PB|apply NoDup_nodup]).
  assert (NDk : NoDup (map snd cs)) by (apply nodup_full; rewrite map_length; exact L2).
  destruct (fix_binaries_spec bs sol x NDb) as [B1 B2].
  set (x1 := fix_binaries bs sol x) in *.
  destruct (fix_keys_spec cs x1 NDk Dj) as [K1 K2]. set (y := fold_left fix_key cs x1) in *.
  assert (Inb : forall c v, In c cs -> In v (nonkey c) -> In v bs).
  { intros c v Hc Hv. apply (Permutation_in v (Permutation_sym PB)). unfold binary_variables. apply nodup_In, in_flat_map. eauto. }
  assert (Nk : forall v, In v bs -> ~ In v (map snd cs)).
  { intros v Hv Hk. apply (Permutation_in v PB) in Hv. unfold binary_variables in Hv. apply nodup_In, in_flat_map in Hv.
    destruct Hv as (c' & Hc' & Hv). apply in_map_iff in Hk. destruct Hk as (c & <- & Hc). now apply (Dj c c'). }
  (* the parity system holds at z *)
  set (pz := fun i => match nth_error bs i with Some v => Z.odd (z v) | None => false end).
  assert (Par : forall r, r < n -> xsum n (fun col => gf2_matrix cs bs r col && pz col) = gf2_constants cs r).
  { intros r Hrn. destruct (nth_error cs r) as [c|] eqn:Hr; [|apply nth_error_None in Hr; unfold n in Hrn; lia]. assert (Hc : In c cs) by (eapply nth_error_In; eassumption).
    unfold gf2_constants. rewrite Hr, <- (row_parity c z (PE c Hc) (Sz c Hc)). unfold gf2_matrix. rewrite Hr. rewrite <- L1.
    rewrite (xsum_ext (length bs) _ (fun i => match nth_error bs i with Some v => existsb (Nat.eqb v) (nonkey c) && Z.odd (z v) | None => false end)).
    - rewrite zsum_odd.
      transitivity (xl bs (fun v => existsb (Nat.eqb v) (nonkey c) && Z.odd (z v))); [apply (xsum_nth bs (fun v => existsb (Nat.eqb v) (nonkey c) && Z.odd (z v)))|].
      rewrite xl_filter. apply xl_perm. apply NoDup_Permutation.
      + now apply NoDup_filter.
      + unfold nonkey. apply NoDup_filter. apply (PE c Hc).
      + intros v. rewrite filter_In. split.
        * intros [_ Hv]. apply existsb_exists in Hv. destruct Hv as (w & Hw & Ew). apply Nat.eqb_eq in Ew. now subst.
        * intros Hv. split; [now apply (Inb c)|]. apply existsb_exists. exists v. split; [exact Hv|apply Nat.eqb_refl].
    - intros i Hi. unfold pz. destruct (nth_error bs i) as [v|]; reflexivity. }
  assert (Sol : forall i, i < n -> sol i = pz i).
  { intros i Hi. unfold sol, dotv. rewrite (xsum_ext n _ (fun k => xsum n (fun col => inv i k && gf2_matrix cs bs k col && pz col))).
    - rewrite xsum_swap. rewrite (xsum_ext n _ (fun col => (i =? col) && pz col)); [now apply xsum_delta|].
      intros col Hc. rewrite xsum_and_r. f_equal. now apply IM.
    - intros k Hk. rewrite <- (Par k Hk), <- xsum_and_l. apply xsum_ext. intros. apply andb_assoc. }
  assert (Hb : forall v, In v bs -> x1 v = z v).
  { intros v Hv. destruct (In_nth_error bs v Hv) as (i & Hi). rewrite (B1 i v Hi). assert (i < n) as Li by (rewrite <- L1; apply nth_error_Some; congruence).
    rewrite (Sol i Li). unfold pz. rewrite Hi. destruct (Bz v Hv) as [->| ->]; reflexivity. }
  split; [|split].
  - intros v Hv. rewrite K1 by now apply Nk. now apply Hb.
  - intros c Hc H1. rewrite (K2 c Hc). rewrite <- (row_key c z (PE c Hc) H1 (Sz c Hc)). unfold key_value. do 5 f_equal. apply zsum_ext. intros v Hv. apply Hb, (Inb c); assumption.
  - intros v Hv Hk. rewrite K1 by assumption. now apply B2.
Qed.
