(** Proofs for C07, continued: the iteration order of the coefficient map does not matter. *)
From Coq Require Import List ZArith QArith Qabs Qround Bool Arith Lia Lqa Permutation.
From Verif Require Import ExprModel ExprSpec ExprProof ConstraintModel ConstraintSpec VariableModel TypeModel TypeSpec TypeProof TypeProof2.
Import ListNotations.
Local Open Scope Q_scope.

Section Order.
Variable x : tctx.
Variables c c' : constr.
Hypothesis reorder : reordered c c'.
Hypothesis ND : NoDup (variables c).
Hypothesis names : forall u v, In u (variables c) -> In v (variables c) -> tx_name x u = tx_name x v -> u = v.

Let s := ex_sens (ct_expr c).
Let s' := ex_sens (ct_expr c').
Lemma HP : Permutation s s'. Proof. apply reorder. Qed.
Lemma Hk : ex_const (ct_expr c') = ex_const (ct_expr c). Proof. apply reorder. Qed.
Lemma Hs : ct_sense c' = ct_sense c. Proof. apply reorder. Qed.
Lemma Hbc : ct_only_binary_coef c' = ct_only_binary_coef c. Proof. apply reorder. Qed.
Lemma Hbv : ct_only_binary_var c' = ct_only_binary_var c. Proof. apply reorder. Qed.
Lemma Hi : ct_is_integer c' = ct_is_integer c. Proof. apply reorder. Qed.

Lemma forallb_perm {A} (g : A -> bool) l l' : Permutation l l' -> forallb g l = forallb g l'.
Proof.
  intros P. apply eq_true_iff_eq. rewrite !forallb_forall. pose proof (Permutation_sym P) as P'.
  split; intros H q I; apply H; eapply Permutation_in; eassumption.
Qed.
Lemma existsb_perm {A} (g : A -> bool) l l' : Permutation l l' -> existsb g l = existsb g l'.
Proof.
  intros P. apply eq_true_iff_eq. rewrite !existsb_exists. pose proof (Permutation_sym P) as P'.
  split; intros (q & I & H); exists q; (split; [|exact H]); eapply Permutation_in; eassumption.
Qed.
Lemma filter_perm {A} (g : A -> bool) l l' : Permutation l l' -> Permutation (filter g l) (filter g l').
Proof.
  intros P. induction P; cbn [filter].
  - constructor.
  - destruct (g x0); [now constructor|assumption].
  - destruct (g x0), (g y); try apply perm_swap; apply Permutation_refl.
  - eapply perm_trans; eauto.
Qed.

(** Lists of the same elements have the same small shape. *)
Inductive shape {A} : list A -> list A -> Prop :=
| sh0 : shape [] []
| sh1 a : shape [a] [a]
| sh2 a b a' b' : shape [a; b] [a'; b']
| sh3 a b d l a' b' d' l' : shape (a :: b :: d :: l) (a' :: b' :: d' :: l').
Lemma perm_shape {A} (l l' : list A) : Permutation l l' -> shape l l'.
Proof.
  intros P. pose proof (Permutation_length P) as L.
  destruct l as [|a [|b [|d l]]], l' as [|a' [|b' [|d' l']]]; try discriminate; try constructor.
  apply Permutation_length_1 in P. subst. constructor.
Qed.

Lemma o_singleton : b_singleton c = b_singleton c'.
Proof. unfold b_singleton. fold s s'. now rewrite (Permutation_length HP). Qed.

Lemma pair_perm u a v b : s = [(u, a); (v, b)] -> s' = [(u, a); (v, b)] \/ s' = [(v, b); (u, a)].
Proof.
  intros E. pose proof HP as P. rewrite E in P. apply Permutation_length_2_inv in P. exact P.
Qed.
Lemma key_swap u v : In u (variables c) -> In v (variables c) -> u <> v ->
  (if (tx_name x u <? tx_name x v)%nat then u else v) = (if (tx_name x v <? tx_name x u)%nat then v else u).
Proof.
  intros I J N. destruct (Nat.ltb_spec (tx_name x u) (tx_name x v)), (Nat.ltb_spec (tx_name x v) (tx_name x u)); auto; try lia.
  exfalso. apply N. apply names; auto. lia.
Qed.
Lemma o_pair_equal : b_pair_equal x c = b_pair_equal x c'.
Proof.
  pose proof HP as P. unfold b_pair_equal. rewrite Hs, Hk, Hi. fold s s'.
  destruct s as [|[u a] [|[v b] [|q tl]]] eqn:E.
  - apply Permutation_nil in P. now rewrite P.
  - apply Permutation_length_1_inv in P. now rewrite P.
  - assert (V : variables c = [u; v]) by (unfold variables, keys; fold s; now rewrite E).
    assert (N : u <> v). { pose proof ND as D. rewrite V in D. inversion D as [|? ? D1 D2]; subst. intros ->. apply D1. now left. }
    apply Permutation_length_2_inv in P. destruct P as [-> | ->]; [reflexivity|].
    rewrite <- (andb_assoc _ (negb (vi_fixed (tx_vi x v)))), (andb_comm (negb (vi_fixed (tx_vi x v)))), andb_assoc.
    destruct (_ && negb (vi_fixed (tx_vi x u)) && _); [|reflexivity]. cbv zeta.
    rewrite (key_swap v u); [|rewrite V; cbn; auto|rewrite V; cbn; auto|auto].
    generalize (if (tx_name x u <? tx_name x v)%nat then u else v). intros kk.
    generalize (binaryish (tx_sense x u)), (binaryish (tx_sense x v)), (integerish (tx_sense x u)), (integerish (tx_sense x v)),
      (qe a 1), (qe b 1), (qe a (-1)), (qe b (-1)), (unit_abs a), (unit_abs b),
      (qe (ex_const (ct_expr c)) 1), (qe (ex_const (ct_expr c)) (-1)), (qe (ex_const (ct_expr c)) 0).
    intros bu bv iu iv a1 b1 am bm ua ub k1 km k0.
    destruct bu, bv; cbn [andb]; destruct iu, iv; cbn [andb]; try reflexivity;
    destruct a1, b1; cbn [andb]; destruct am, bm; cbn [andb]; try reflexivity;
    destruct k0; cbn [andb negb]; try reflexivity; destruct k1, km; cbn [andb]; try reflexivity;
    destruct ua, ub; cbn [andb negb]; try reflexivity; destruct (ct_is_integer c); reflexivity.
  - pose proof (Permutation_length P) as L. destruct s' as [|[u' a'] [|[v' b'] [|q' tl']]]; try discriminate. reflexivity.
Qed.

Lemma o_pair_inequality : b_pair_inequality x c = b_pair_inequality x c'.
Proof.
  pose proof HP as P. unfold b_pair_inequality. rewrite Hs. fold s s'.
  destruct s as [|[u a] [|[v b] [|q tl]]] eqn:E.
  - apply Permutation_nil in P. now rewrite P.
  - apply Permutation_length_1_inv in P. now rewrite P.
  - apply Permutation_length_2_inv in P. destruct P as [-> | ->]; [reflexivity|].
    rewrite <- (andb_assoc _ (negb (vi_fixed (tx_vi x v)))), (andb_comm (negb (vi_fixed (tx_vi x v)))), andb_assoc.
    destruct (_ && negb (vi_fixed (tx_vi x u)) && _); [|reflexivity].
    replace (sense_eqb (tx_sense x v) (tx_sense x u)) with (sense_eqb (tx_sense x u) (tx_sense x v)) by (now destruct (tx_sense x u), (tx_sense x v)).
    replace (qe b (- a)) with (qe a (- b)); [reflexivity|]. apply eq_true_iff_eq. rewrite !qe_iff. split; lra.
  - pose proof (Permutation_length P) as L. destruct s' as [|[u' a'] [|[v' b'] [|q' tl']]]; try discriminate. reflexivity.
Qed.

Lemma coef_shape a : shape (with_coef c a) (with_coef c' a).
Proof. apply perm_shape, Permutation_map, filter_perm, HP. Qed.
Lemma o_trinomial : b_trinomial x c = b_trinomial x c'.
Proof.
  unfold b_trinomial. fold s s'. rewrite Hs, <- (Permutation_length HP), <- !(forallb_perm _ _ _ HP).
  destruct (_ && _); [|reflexivity].
  assert (T : match with_coef c (- (1)), with_coef c 2 with [_; _], [key] => Some (TrinomialExclusiveNOR, Some key) | _, _ => None end =
              match with_coef c' (- (1)), with_coef c' 2 with [_; _], [key] => Some (TrinomialExclusiveNOR, Some key) | _, _ => None end).
  { destruct (coef_shape (-(1))); try reflexivity. destruct (coef_shape 2); reflexivity. }
  destruct (coef_shape 1); try exact T. destruct (coef_shape (-(2))); try exact T. reflexivity.
Qed.
Lemma o_set : b_set c = b_set c'.
Proof. unfold b_set. now rewrite Hs, Hk, Hbc, Hbv. Qed.
Lemma o_flow : b_flow x c = b_flow x c'.
Proof.
  unfold b_flow. fold s s'. rewrite Hs, Hk, <- !(forallb_perm _ _ _ HP).
  destruct (_ && _); [|reflexivity]. cbv zeta.
  assert (S : shape (map fst (filter (fun p : nat * Q => negb (qe (snd p) 1)) s)) (map fst (filter (fun p : nat * Q => negb (qe (snd p) 1)) s')))
    by apply perm_shape, Permutation_map, filter_perm, HP.
  destruct (coef_shape 1); destruct S; reflexivity.
Qed.
Lemma o_minmax : b_minmax x c = b_minmax x c'.
Proof.
  unfold b_minmax. fold s s'. rewrite Hs, Hi. destruct (ct_is_integer c); [|reflexivity]. cbv zeta.
  assert (S1 : shape (map fst (filter (fun p => free_integer x p && qe (snd p) 1) s)) (map fst (filter (fun p => free_integer x p && qe (snd p) 1) s')))
    by apply perm_shape, Permutation_map, filter_perm, HP.
  assert (S2 : shape (map fst (filter (fun p => free_integer x p && qe (snd p) (-1)) s)) (map fst (filter (fun p => free_integer x p && qe (snd p) (-1)) s')))
    by apply perm_shape, Permutation_map, filter_perm, HP.
  destruct S2; destruct S1; reflexivity.
Qed.
Lemma o_knapsack : b_knapsack x c = b_knapsack x c'.
Proof. unfold b_knapsack. fold s s'. now rewrite Hs, Hk, <- !(forallb_perm _ _ _ HP), <- !(existsb_perm _ _ _ HP). Qed.

Lemma erase_perm key : Permutation (sens_erase s key) (sens_erase s' key).
Proof.
  rewrite !erase_filter.
  - apply filter_perm, HP.
  - eapply Permutation_NoDup; [apply Permutation_map, HP|exact ND].
  - exact ND.
Qed.
Lemma fold_perm (g : nat * Q -> Q) (l l' : sens) : Permutation l l' ->
  fold_right (fun p acc => g p + acc) 0 l == fold_right (fun p acc => g p + acc) 0 l'.
Proof.
  intros P. induction P; cbn [fold_right]; [reflexivity|rewrite IHP; reflexivity|lra|now rewrite IHP1].
Qed.
Lemma lower_perm k l l' vi : Permutation l l' -> e_lower (mkExpr l k) vi == e_lower (mkExpr l' k) vi.
Proof. intros P. unfold e_lower. cbn [ex_sens ex_const]. rewrite !lower_fold. apply Qplus_comp; [reflexivity|]. now apply (fold_perm (fun p => snd p * _)). Qed.
Lemma upper_perm k l l' vi : Permutation l l' -> e_upper (mkExpr l k) vi == e_upper (mkExpr l' k) vi.
Proof. intros P. unfold e_upper. cbn [ex_sens ex_const]. rewrite !upper_fold. apply Qplus_comp; [reflexivity|]. now apply (fold_perm (fun p => snd p * _)). Qed.

Lemma o_gf2 : b_gf2 x c = b_gf2 x c'.
Proof.
  unfold b_gf2. fold s s'. rewrite Hs, Hk, <- !(forallb_perm _ _ _ HP).
  destruct (_ && _); [|reflexivity].
  destruct (perm_shape _ _ (filter_perm (two_key x) _ _ HP)) as [|[key a]|[] ? [] ?|[] ? ? ? [] ? ? ?]; try reflexivity.
  - cbv zeta.
    pose proof (lower_perm (ex_const (ct_expr c)) _ _ (tx_vi x) (erase_perm key)) as L.
    pose proof (upper_perm (ex_const (ct_expr c)) _ _ (tx_vi x) (erase_perm key)) as U.
    destruct (ltq 0 a).
    + rewrite (Qceiling_comp _ (- e_upper {| ex_sens := sens_erase s' key; ex_const := ex_const (ct_expr c) |} (tx_vi x) * (1 # 2))) by (rewrite U; reflexivity).
      rewrite (Qfloor_comp _ (- e_lower {| ex_sens := sens_erase s' key; ex_const := ex_const (ct_expr c) |} (tx_vi x) * (1 # 2))) by (rewrite L; reflexivity).
      reflexivity.
    + rewrite (Qceiling_comp _ (e_lower {| ex_sens := sens_erase s' key; ex_const := ex_const (ct_expr c) |} (tx_vi x) * (1 # 2))) by (rewrite L; reflexivity).
      rewrite (Qfloor_comp _ (e_upper {| ex_sens := sens_erase s' key; ex_const := ex_const (ct_expr c) |} (tx_vi x) * (1 # 2))) by (rewrite U; reflexivity).
      reflexivity.
Qed.

Lemma classify_order : classify x c = classify x c'.
Proof.
  unfold classify. now rewrite o_singleton, o_pair_equal, o_pair_inequality, o_trinomial, o_set, o_flow, o_minmax, o_knapsack, o_gf2.
Qed.
End Order.

Lemma setup_order x c c' st st' : reordered c c' -> NoDup (variables c) ->
  (forall u v, In u (variables c) -> In v (variables c) -> tx_name x u = tx_name x v -> u = v) ->
  type_name (setup_type x c st) = type_name (setup_type x c' st') /\ ty_key (setup_type x c st) = ty_key (setup_type x c' st').
Proof.
  intros R ND N. pose proof (classify_order x c c' R ND N) as E. split.
  - destruct (exactly_one x c st) as (t & T1 & ->). destruct (exactly_one x c' st') as (t' & T1' & ->).
    f_equal. assert (A := proj2 (T1 t) eq_refl). assert (B := proj2 (T1' t') eq_refl). rewrite setup_one in A, B. subst. now rewrite E.
  - unfold setup_type. rewrite E. destruct (classify x c') as [t key]. cbv zeta. cbn [ty_key]. reflexivity.
Qed.

Lemma setup_key x c st : ty_key (setup_type x c st) = snd (classify x c).
Proof. unfold setup_type. destruct (classify x c) as [t key]. cbv zeta. cbn [ty_key snd]. reflexivity. Qed.
Lemma setup_name x c st : type_name (setup_type x c st) = Some (fst (classify x c)).
Proof.
  destruct (exactly_one x c st) as (t & T & ->). assert (A := proj2 (T t) eq_refl). rewrite setup_one in A. now subst t.
Qed.
Lemma named_meaning x c st t : proper_senses x -> truthful_flags x c -> NoDup (variables c) ->
  type_name (setup_type x c st) = Some t -> type_meaning x c t (ty_key (setup_type x c st)).
Proof.
  intros PS TF ND. rewrite setup_name, setup_key. intros E. injection E as <-. now apply classify_meaning.
Qed.

(** With two variables of the same name the key variable does depend on the order. *)
Lemma key_order_refuted : exists x c c', reordered c c' /\ NoDup (variables c) /\ classify x c <> classify x c'.
Proof.
  exists (mkTctx (fun _ => mkVinfo 0 1 false 0) (fun _ => VBinary) (fun _ => 7%nat)).
  exists (c_setup (mkExpr [(0%nat, 1); (1%nat, 1)] (-(1))) Equal (fun _ => true)).
  exists (c_setup (mkExpr [(1%nat, 1); (0%nat, 1)] (-(1))) Equal (fun _ => true)).
  split; [repeat split; apply perm_swap|]. split; [repeat constructor; cbn; intuition congruence|]. vm_compute. discriminate.
Qed.

Lemma trinomial_refuted : exists x c u v w, proper_senses x /\ truthful_flags x c /\ NoDup (variables c) /\
  variables c = [u; v; w] /\
  (forall st, type_name (setup_type x c st) = Some TrinomialExclusiveNOR /\ ty_key (setup_type x c st) = Some w) /\
  exists y, admissible (tx_vi x) y /\ satisfies c y /\ ~ (y u = y w /\ y v = y w).
Proof.
  exists (mkTctx (fun _ => mkVinfo 0 1 false 0) (fun _ => VBinary) (fun v => v)).
  exists (c_setup (mkExpr [(0%nat, 1); (1%nat, 1); (2%nat, -(2))] (-(1))) Equal (fun _ => true)), 0%nat, 1%nat, 2%nat.
  split; [intros v _; cbn; split; [split; discriminate|discriminate]|].
  split; [split; [discriminate|intros _ v _; left; reflexivity]|].
  split; [repeat constructor; cbn; intuition congruence|]. split; [reflexivity|].
  split; [intros st; rewrite setup_name, setup_key; split; reflexivity|].
  exists (fun v => if Nat.eqb v 0 then 1%Z else 0%Z). split; [|split].
  - intros v. cbn. split; [discriminate|]. intros _. destruct (Nat.eqb v 0); split; discriminate.
  - reflexivity.
  - cbn. intros [H _]. discriminate.
Qed.
