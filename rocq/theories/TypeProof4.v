(** Proofs for C08: senses required by the types; recognition of sums. *)
From Coq Require Import List ZArith QArith Qabs Qround Bool Permutation Lia Lqa.
From Verif Require Import ExprModel ExprSpec ConstraintModel ConstraintSpec VariableModel TypeModel TypeSpec TypeSpec2 TypeProof.
Import ListNotations.
Local Open Scope Q_scope.

Ltac split_ands := repeat match goal with
  | H : _ && _ = true |- _ => apply andb_true_iff in H; destruct H
  | H : negb _ = true |- _ => apply negb_true_iff in H
  end.
Lemma binaryish_two x v : binaryish (tx_sense x v) = true -> is_01_or_dependent x v.
Proof. unfold is_01_or_dependent. destruct (tx_sense x v); cbn; auto; discriminate. Qed.
Lemma integerish_two x v : integerish (tx_sense x v) = true -> is_whole x v.
Proof. unfold is_whole. destruct (tx_sense x v); cbn; auto; discriminate. Qed.
Lemma zero_one_two x v : zero_one_sense (tx_sense x v) = true -> is_01 x v.
Proof. unfold is_01. destruct (tx_sense x v); cbn; auto; discriminate. Qed.
Lemma in_variables c v : In v (variables c) -> exists a, In (v, a) (ex_sens (ct_expr c)).
Proof. unfold variables, keys. intros H. apply in_map_iff in H. destruct H as ([w a] & <- & H). eauto. Qed.
Lemma two_variables c u a v b (p : nat -> Prop) : ex_sens (ct_expr c) = [(u, a); (v, b)] -> p u -> p v -> forall w, In w (variables c) -> p w.
Proof. intros E Pu Pv w H. unfold variables, keys in H. rewrite E in H. destruct H as [<-|[<-|[]]]; assumption. Qed.
Lemma forall_variables c (g : nat -> bool) (p : nat -> Prop) : forallb (fun q => g (fst q)) (ex_sens (ct_expr c)) = true -> (forall v, g v = true -> p v) -> forall w, In w (variables c) -> p w.
Proof. intros F H w I. apply in_variables in I. destruct I as [a I]. rewrite forallb_forall in F. exact (H w (F _ I)). Qed.

Lemma pair_equal_req x c t key : b_pair_equal x c = Some (t, key) -> type_requires x c t key.
Proof.
  unfold b_pair_equal. destruct (ex_sens (ct_expr c)) as [|[v0 c0] [|[v1 c1] [|]]] eqn:E; try discriminate.
  destruct (csense_eqb _ _ && negb _ && negb _) eqn:F; [|discriminate]. split_ands. cbv zeta.
  assert (Fr : forall w, In w (variables c) -> is_free x w) by (apply (two_variables c v0 c0 v1 c1 _ E); assumption).
  repeat (match goal with |- (if ?b then _ else _) = _ -> _ => destruct b eqn:?; [intros I; injection I as <- <-; split_ands; cbn [type_requires];
    try (split; [exact Fr|apply (two_variables c v0 c0 v1 c1 _ E); apply binaryish_two; assumption])|] end).
  destruct (integerish (tx_sense x v0) && integerish (tx_sense x v1)) eqn:G; [|intros I; injection I as <- <-; exact Fr]. split_ands.
  assert (W : forall w, In w (variables c) -> is_whole x w) by (apply (two_variables c v0 c0 v1 c1 _ E); apply integerish_two; assumption).
  repeat (match goal with |- (if ?b then _ else _) = _ -> _ => destruct b eqn:?; [intros I; injection I as <- <-; split_ands; cbn [type_requires]; try (split; [exact Fr|exact W])|] end).
  all: try (intros I; injection I as <- <-; exact Fr).
  all: split; [|assumption]; eexists; split; [reflexivity|]; (split; [apply Fr|apply W]); unfold variables, keys; rewrite E; cbn; auto.
Qed.
Lemma pair_inequality_req x c t key : b_pair_inequality x c = Some (t, key) -> type_requires x c t key.
Proof.
  unfold b_pair_inequality. destruct (ex_sens (ct_expr c)) as [|[v0 c0] [|[v1 c1] [|]]] eqn:E; try discriminate.
  destruct (negb _ && negb _ && negb _) eqn:F; [|discriminate]. split_ands.
  assert (Fr : forall w, In w (variables c) -> is_free x w) by (apply (two_variables c v0 c0 v1 c1 _ E); assumption).
  destruct (_ && _); intros I; injection I as <- <-; exact Fr.
Qed.
Lemma trinomial_req x c t key : b_trinomial x c = Some (t, key) -> type_requires x c t key.
Proof.
  unfold b_trinomial. destruct (_ && _ && _ && _) eqn:F; [|discriminate]. split_ands.
  assert (R : type_requires x c TrinomialExclusiveNOR key).
  { split; [apply (forall_variables c (fun v => negb (vi_fixed (tx_vi x v)))); [assumption|intros v V; now apply negb_true_iff in V]|apply (forall_variables c (fun v => binaryish (tx_sense x v))); [assumption|apply binaryish_two]]. }
  intros I. assert (T : t = TrinomialExclusiveNOR).
  { destruct (with_coef c 1) as [|? [|? [|]]], (with_coef c (-(2))) as [|? [|]], (with_coef c (-(1))) as [|? [|? [|]]], (with_coef c 2) as [|? [|]]; try discriminate I; injection I; congruence. }
  subst t. exact R.
Qed.
Lemma flow_req x c t key : b_flow x c = Some (t, key) -> type_requires x c t key.
Proof.
  unfold b_flow. destruct (_ && forallb _ _); [|discriminate]. cbv zeta.
  destruct (forallb (fun p => zero_one_sense _) _) eqn:F.
  - assert (Z1 : forall w, In w (variables c) -> is_01 x w) by (apply (forall_variables c (fun v => zero_one_sense (tx_sense x v))); [exact F|apply zero_one_two]).
    destruct (with_coef c 1) as [|p1 [|p2 pl]]; [intros I; injection I as <- <-; exact Z1|..]; destruct (map fst (filter _ _)) as [|m1 [|m2 ml]];
    repeat (match goal with |- (if ?b then _ else _) = _ -> _ => destruct b eqn:?; [intros I; injection I as <- <-; split_ands; split; [exact Z1|eauto]|] end);
    intros I; injection I as <- <-; exact Z1.
  - destruct (_ && _ && _) eqn:G; [|discriminate]. split_ands. intros I. injection I as <- <-. cbn [type_requires].
    apply (forall_variables c (fun v => is_integer_sense (tx_sense x v))); [assumption|]. intros v. destruct (tx_sense x v); cbn; auto; discriminate.
Qed.
Lemma free_integer_in x g (s : sens) v tl : map fst (filter (fun p => free_integer x p && g p) s) = v :: tl -> is_free x v /\ is_whole x v.
Proof.
  intros E. assert (H : In v (map fst (filter (fun p => free_integer x p && g p) s))) by (rewrite E; now left).
  apply in_map_iff in H. destruct H as ([w a] & <- & H). apply filter_In in H. destruct H as [_ H]. unfold free_integer in H. split_ands. cbn [fst] in *. split; [assumption|now apply integerish_two].
Qed.
Lemma minmax_req x c t key : b_minmax x c = Some (t, key) -> type_requires x c t key.
Proof.
  unfold b_minmax. destruct (ct_is_integer c) eqn:Ci; [|discriminate]. cbv zeta.
  destruct (map fst (filter (fun p => free_integer x p && qe (snd p) (-1)) _)) as [|m1 [|m2 ml]] eqn:M;
  destruct (map fst (filter (fun p => free_integer x p && qe (snd p) 1) _)) as [|p1 [|p2 pl]] eqn:P; try discriminate;
  repeat (match goal with |- (if ?b then _ else _) = _ -> _ => destruct b end); try discriminate;
  intros I; injection I as <- <-; (split; [|exact Ci]); eexists; (split; [reflexivity|]);
  first [exact (free_integer_in x _ _ _ _ M)|exact (free_integer_in x _ _ _ _ P)].
Qed.
Lemma knapsack_req x c t key : b_knapsack x c = Some (t, key) -> type_requires x c t key.
Proof.
  unfold b_knapsack. cbv zeta. destruct (forallb (fun p => zero_one_sense _) _) eqn:F.
  - assert (Z1 : forall w, In w (variables c) -> is_01 x w) by (apply (forall_variables c (fun v => zero_one_sense (tx_sense x v))); [exact F|apply zero_one_two]).
    repeat (match goal with |- (if ?b then _ else _) = _ -> _ => destruct b; [intros I; injection I as <- <-; exact Z1|] end). discriminate.
  - match goal with |- (if ?b then _ else _) = _ -> _ => destruct b end; [|discriminate]. intros I. injection I as <- <-. exact Logic.I.
Qed.
Lemma gf2_req x c t key : b_gf2 x c = Some (t, key) -> type_requires x c t key.
Proof.
  unfold b_gf2. destruct (_ && forallb _ _) eqn:F; [|discriminate]. split_ands.
  destruct (filter (two_key x) (ex_sens (ct_expr c))) as [|[k a] [|]] eqn:K; try discriminate.
  match goal with |- context [let '(lo, hi) := ?b in _] => destruct b as [lo hi] end.
  match goal with |- (if ?b then _ else _) = _ -> _ => destruct b end; [discriminate|]. intros I. injection I as <- <-.
  match goal with H : forallb _ _ = true |- _ => rename H into Fb end. rewrite forallb_forall in Fb.
  split; intros v V; apply in_variables in V; destruct V as [b V]; pose proof (Fb _ V) as G; cbn [fst snd] in G; apply andb_true_iff in G; destruct G as [G1 G2].
  - now apply negb_true_iff in G1.
  - apply orb_true_iff in G2. destruct G2 as [G2|G2].
    + assert (In (v, b) [(k, a)]) as [X|[]] by (rewrite <- K; apply filter_In; auto). injection X as -> ->. unfold two_key in G2. cbn [fst snd] in G2. apply andb_true_iff in G2. destruct G2 as [G2 _].
      apply orb_true_iff in G2. destruct G2 as [G2|G2]; destruct (tx_sense x v); try discriminate G2; auto.
    + apply andb_true_iff in G2. destruct G2 as [G2 _]. left. destruct (tx_sense x v); try discriminate G2. reflexivity.
Qed.
Lemma set_req x c t key : b_set c = Some (t, key) -> type_requires x c t key.
Proof.
  unfold b_set. destruct (_ && _); [|discriminate].
  repeat (match goal with |- (if ?b then _ else _) = _ -> _ => destruct b; [intros I; injection I as <- <-; exact Logic.I|] end). discriminate.
Qed.
Lemma classify_req x c t key : classify x c = (t, key) -> type_requires x c t key.
Proof.
  unfold classify. cbn [first_verdict].
  destruct (b_singleton c) as [[? ?]|] eqn:E.
  { intros I; injection I as -> ->. unfold b_singleton in E. destruct (_ =? _)%nat; [injection E as <- <-; exact Logic.I|discriminate]. }
  destruct (b_pair_equal x c) as [[? ?]|] eqn:E1; [intros I; injection I as -> ->; now apply pair_equal_req|].
  destruct (b_pair_inequality x c) as [[? ?]|] eqn:E2; [intros I; injection I as -> ->; now apply pair_inequality_req|].
  destruct (b_trinomial x c) as [[? ?]|] eqn:E3; [intros I; injection I as -> ->; now apply trinomial_req|].
  destruct (b_set c) as [[? ?]|] eqn:E4; [intros I; injection I as -> ->; now apply set_req|].
  destruct (b_flow x c) as [[? ?]|] eqn:E5; [intros I; injection I as -> ->; now apply flow_req|].
  destruct (b_minmax x c) as [[? ?]|] eqn:E6; [intros I; injection I as -> ->; now apply minmax_req|].
  destruct (b_knapsack x c) as [[? ?]|] eqn:E7; [intros I; injection I as -> ->; now apply knapsack_req|].
  destruct (b_gf2 x c) as [[? ?]|] eqn:E8; [intros I; injection I as -> ->; now apply gf2_req|].
  intros I; injection I as <- <-. exact Logic.I.
Qed.
Lemma setup_named x c st t : type_name (setup_type x c st) = Some t -> classify x c = (t, ty_key (setup_type x c st)).
Proof.
  intros H. destruct (exactly_one x c st) as (u & U & N). rewrite N in H. injection H as ->.
  assert (A := proj2 (U t) eq_refl). rewrite setup_one in A. unfold setup_type. cbv zeta. destruct (classify x c) as [t' k']. cbn in A. subst t'. reflexivity.
Qed.
Lemma named_req x c st t : type_name (setup_type x c st) = Some t -> type_requires x c t (ty_key (setup_type x c st)).
Proof. intros H. apply classify_req, setup_named. exact H. Qed.

Lemma near_iff q : near_integer q = true <-> nearly_whole q.
Proof.
  unfold near_integer, nearly_whole. pose proof (Qfloor_le q) as L. assert (P : Qabs (q - inject_Z (Qfloor q)) == q - inject_Z (Qfloor q)) by (apply Qabs_pos; lra).
  destruct (Qlt_le_dec _ _) as [H|H].
  - split; [intros _; exists (Qfloor q); split; lra|reflexivity].
  - split; [discriminate|]. intros (z & A & B). exfalso.
    assert (Z : (z <= Qfloor q)%Z) by (rewrite <- (Qfloor_Z z); apply Qfloor_resp_le; exact A). rewrite Zle_Qle in Z. lra.
Qed.
Lemma setup_whole e s is01 : ct_is_integer (c_setup e s is01) = true <-> nearly_whole (ex_const e) /\ forall v a, In (v, a) (ex_sens e) -> nearly_whole a.
Proof.
  cbn [c_setup ct_is_integer]. rewrite andb_true_iff, near_iff, forallb_forall. split.
  - intros [A B]. split; [exact A|]. intros v a H. apply near_iff. exact (B _ H).
  - intros [A B]. split; [exact A|]. intros [v a] H. apply near_iff. exact (B _ _ H).
Qed.

Lemma sum_recognized x vs s k is01 : (3 <= length vs)%nat -> (forall v, In v vs -> is01 v = true) -> (k == 1 \/ 2 <= k) ->
  classify x (sum_constraint vs s k is01) =
  (if Qeq_bool k 1 then match s with Equal => SetPartitioning | Less => SetPacking | Greater => SetCovering end
   else match s with Equal => Cardinality | Less => InvariantKnapsack | Greater => MultipleCovering end, None).
Proof.
  intros L B K. unfold classify, sum_constraint. set (c := c_setup _ s is01).
  assert (Ln : length (ex_sens (ct_expr c)) = length vs) by (cbn; apply map_length).
  assert (E0 : b_singleton c = None).
  { unfold b_singleton. rewrite Ln. destruct (Nat.eqb_spec (length vs) 1); [lia|reflexivity]. }
  assert (E1 : b_pair_equal x c = None).
  { unfold b_pair_equal. destruct (ex_sens (ct_expr c)) as [|[] [|[] [|]]]; try reflexivity. cbn in Ln. lia. }
  assert (E2 : b_pair_inequality x c = None).
  { unfold b_pair_inequality. destruct (ex_sens (ct_expr c)) as [|[] [|[] [|]]]; try reflexivity. cbn in Ln. lia. }
  assert (None2 : forall a, ~ a == 1 -> with_coef c a = []).
  { intros a A. unfold with_coef, c. cbn [c_setup ct_expr ex_sens]. clear -A. induction vs as [|v tl IH]; [reflexivity|]. cbn [map filter snd]. destruct (qe 1 a) eqn:Q; [|exact IH].
    exfalso. apply qe_iff in Q. lra. }
  assert (E3 : b_trinomial x c = None).
  { unfold b_trinomial. rewrite (None2 (-(2))), (None2 (-(1))) by lra. destruct (_ && _ && _ && _); [|reflexivity]. destruct (with_coef c 1) as [|? [|? [|]]]; reflexivity. }
  assert (OB : ct_only_binary_coef c && ct_only_binary_var c = true).
  { unfold c. cbn [c_setup ct_only_binary_coef ct_only_binary_var ex_sens]. apply andb_true_iff. split; apply forallb_forall; intros [v a] H; apply in_map_iff in H; destruct H as (w & E & H); injection E as <- <-; cbn [fst snd]; [reflexivity|auto]. }
  cbn [first_verdict]. rewrite E0, E1, E2, E3. unfold b_set. rewrite OB. change (ex_const (ct_expr c)) with (- k). change (ct_sense c) with s.
  destruct (Qeq_bool k 1) eqn:Q1.
  - apply Qeq_bool_eq in Q1. assert (Q : qe (- k) (-1) = true) by (apply qe_iff; rewrite Q1; reflexivity). rewrite Q. destruct s; reflexivity.
  - apply Qeq_bool_neq in Q1. assert (Q : qe (- k) (-1) = false) by (destruct (qe (- k) (-1)) eqn:Q; [apply qe_iff in Q; exfalso; apply Q1; lra|reflexivity]). rewrite Q.
    assert (G : Qle_bool (- k) (-(2)) = true) by (apply Qle_bool_iff; destruct K; [contradiction|lra]). rewrite G. destruct s; reflexivity.
Qed.
