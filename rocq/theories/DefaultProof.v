(** Proofs for C86: expressions, and set constraints. *)
From Coq Require Import List NArith ZArith QArith Qabs Bool Arith Lia Lqa.
From Verif Require Import ExprModel ExprSpec ExprProof ConstraintModel ConstraintSpec VariableModel TypeModel TypeSpec PresolveModel PresolveSpec
  DuplicateModel DuplicateProof2 DependentModel DependentProof6 SelectionModel PrepareModel PrepareSpec InfeasibleSpec InfeasibleProof3 FileProof2.
From Verif Require Import DependentProof3.
From Verif Require ScreenProof2 WholeProof3 TypeProof4.
Import ListNotations.
Local Open Scope Q_scope.

(** ** The largest value of an expression *)
Fixpoint weighted_sum (w : nat -> Z) (l : sens) : Q := match l with [] => 0 | (v, a) :: tl => Qabs a * inject_Z (w v) + weighted_sum w tl end.
Lemma lin_agree l x y : (forall v, In v (map fst l) -> x v = y v) -> lin l x == lin l y.
Proof.
  induction l as [|[v a] l IH]; intros H; cbn [lin]; [reflexivity|]. rewrite (H v (or_introl eq_refl)). assert (IH' := IH (fun w I => H w (or_intror I))). lra.
Qed.
Definition sign (q : Q) : Z := if Qlt_le_dec q 0 then -1 else 1.
Lemma sign_abs q : Qabs q == inject_Z (sign q) * q.
Proof. unfold sign. destruct (Qlt_le_dec q 0); [rewrite Qabs_neg by lra|rewrite Qabs_pos by lra]; change (inject_Z (-1)) with (-(1)); change (inject_Z 1) with 1; ring. Qed.
Lemma sign_one q : sign q = 1%Z \/ sign q = (-1)%Z.
Proof. unfold sign. destruct (Qlt_le_dec q 0); auto. Qed.
Lemma sign_square q : inject_Z (sign q) * inject_Z (sign q) == 1.
Proof. destruct (sign_one q) as [-> | ->]; reflexivity. Qed.
Lemma lin_peak (w : nat -> Z) (t : Q) l : (forall v, 0 <= w v)%Z -> NoDup (map fst l) ->
  exists x, (forall v, Z.abs (x v) <= w v)%Z /\ lin l x == inject_Z (sign t) * weighted_sum w l.
Proof.
  intros Hw. induction l as [|[v a] l IH]; intros N.
  - exists (fun _ => 0%Z). split; [intros v; apply Hw|]. cbn. ring.
  - cbn [map fst] in N. inversion N as [|? ? N1 N2]; subst. destruct (IH N2) as (x & X1 & X2).
    exists (fun u => if Nat.eqb u v then (sign t * sign a * w v)%Z else x u). split.
    + intros u. destruct (Nat.eqb_spec u v) as [->|_]; [|apply X1]. specialize (Hw v). destruct (sign_one t) as [-> | ->], (sign_one a) as [-> | ->]; lia.
    + cbn [lin weighted_sum]. rewrite Nat.eqb_refl, !inject_Z_mult, sign_abs.
      rewrite (lin_agree l (fun u => if Nat.eqb u v then (sign t * sign a * w v)%Z else x u) x); [rewrite X2; ring|].
      intros u I. destruct (Nat.eqb_spec u v) as [->|_]; [contradiction|reflexivity].
Qed.
Lemma peak e (w : nat -> Z) : wf e -> (forall v, 0 <= w v)%Z -> exists x, (forall v, Z.abs (x v) <= w v)%Z /\ Qabs (ex_const e) + weighted_sum w (ex_sens e) <= Qabs (e_eval e x).
Proof.
  intros W Hw. destruct (lin_peak w (ex_const e) (ex_sens e) Hw W) as (x & X1 & X2). exists x. split; [exact X1|]. rewrite eval_lin, X2.
  set (c := ex_const e). set (q := weighted_sum w (ex_sens e)). rewrite (sign_abs c).
  assert (E : inject_Z (sign c) * c + q == inject_Z (sign c) * (c + inject_Z (sign c) * q)) by (assert (S2 := sign_square c); transitivity (inject_Z (sign c) * c + inject_Z (sign c) * inject_Z (sign c) * q); [rewrite S2; ring|ring]).
  rewrite E. set (z := c + inject_Z (sign c) * q). destruct (sign_one c) as [-> | ->]; change (inject_Z (-1)) with (-(1)); change (inject_Z 1) with 1.
  - rewrite Qmult_1_l. apply Qle_Qabs.
  - setoid_replace (-(1) * z) with (- z) by ring. rewrite <- Qabs_opp. apply Qle_Qabs.
Qed.
Lemma reach_sum vs l : reach vs l == weighted_sum (fun v => Z.max (Z.abs (va_lower (vs v))) (Z.abs (va_upper (vs v)))) l.
Proof. induction l as [|[v a] l IH]; cbn [reach weighted_sum]; [reflexivity|]. rewrite IH. reflexivity. Qed.
Lemma abs_weighted (b : Z) l : inject_Z b * abs_sum l == weighted_sum (fun _ => b) l.
Proof. induction l as [|[v a] l IH]; cbn [abs_sum weighted_sum snd]; [ring|]. rewrite <- IH. ring. Qed.

(** The coefficient of a variable, from values. *)
Lemma lin_zero l : lin l (fun _ => 0%Z) == 0.
Proof. induction l as [|[v a] l IH]; cbn [lin]; [reflexivity|]. rewrite IH. change (inject_Z 0) with 0. ring. Qed.
Lemma lin_unit l v : NoDup (map fst l) -> lin l (fun j => if Nat.eqb j v then 1%Z else 0%Z) == coef l v.
Proof.
  intros N. rewrite (lin_agree l _ (set_val (fun _ => 0%Z) v 1)).
  - rewrite (lin_set l (fun _ => 0%Z) v 1 N), lin_zero. change (inject_Z (1 - 0)) with 1. ring.
  - intros u _. unfold set_val. rewrite (Nat.eqb_sym u v). reflexivity.
Qed.

(** ** Set constraints have unit coefficients *)
Lemma set_units x c : fst (classify x c) = SetPartitioning \/ fst (classify x c) = SetCovering \/ fst (classify x c) = SetPacking -> ct_only_binary_coef c = true.
Proof.
  destruct (classify x c) as [t key] eqn:E. cbn [fst]. intros T. unfold classify in E. cbn [first_verdict] in E.
  assert (Sin : forall r, b_singleton c = Some r -> r = (Singleton, None)) by (unfold b_singleton; destruct (_ =? _)%nat; congruence).
  destruct (b_singleton c) as [r|]; [rewrite (Sin r eq_refl) in E; injection E as <- <-; destruct T as [T|[T|T]]; discriminate T|].
  destruct (b_pair_equal x c) as [r|] eqn:Ep.
  { exfalso. subst r. revert Ep. unfold b_pair_equal. destruct (ex_sens (ct_expr c)) as [|[v0 c0] [|[v1 c1] [|]]]; try (intros X; discriminate X).
    walk; intros F; try discriminate; injection F as <- <-; destruct T as [T|[T|T]]; discriminate T. }
  destruct (b_pair_inequality x c) as [r|] eqn:Ei.
  { exfalso. subst r. revert Ei. unfold b_pair_inequality. destruct (ex_sens (ct_expr c)) as [|[v0 c0] [|[v1 c1] [|]]]; try discriminate.
    walk; intros F; try discriminate; injection F as <- <-; destruct T as [T|[T|T]]; discriminate T. }
  destruct (b_trinomial x c) as [r|] eqn:Et.
  { exfalso. subst r. revert Et. unfold b_trinomial. destruct (_ && _); [|discriminate].
    destruct (with_coef c 1) as [|? [|? [|]]]; destruct (with_coef c (-(2))) as [|? [|]];
      destruct (with_coef c (-(1))) as [|? [|? [|]]]; destruct (with_coef c 2) as [|? [|]];
      intros F; try discriminate; injection F as <- <-; destruct T as [T|[T|T]]; discriminate T. }
  destruct (b_set c) as [r|] eqn:Es.
  { revert Es. unfold b_set. destruct (ct_only_binary_coef c); [reflexivity|]. cbn [andb]. discriminate. }
  destruct (b_flow x c) as [r|] eqn:Ef.
  { exfalso. subst r. revert Ef. unfold b_flow. cbv zeta. destruct (_ && _); [|discriminate]. destruct (forallb _ _).
    - lists; walk; lists; walk; intros F; try discriminate; injection F as <- <-; destruct T as [T|[T|T]]; discriminate T.
    - walk; intros F; try discriminate; injection F as <- <-; destruct T as [T|[T|T]]; discriminate T. }
  destruct (b_minmax x c) as [r|] eqn:Em.
  { exfalso. subst r. revert Em. unfold b_minmax. destruct (ct_is_integer c); [|discriminate]. cbv zeta.
    lists; walk; intros F; try discriminate; injection F as <- <-; destruct T as [T|[T|T]]; discriminate T. }
  destruct (b_knapsack x c) as [r|] eqn:Ek.
  { exfalso. subst r. revert Ek. unfold b_knapsack. cbv zeta. walk; intros F; try discriminate; injection F as <- <-; destruct T as [T|[T|T]]; discriminate T. }
  destruct (b_gf2 x c) as [r|] eqn:Eg; [|injection E as <- <-; destruct T as [T|[T|T]]; discriminate T].
  exfalso. subst r. revert Eg. unfold b_gf2. destruct ((qe _ _ || _) && _ && _); [|discriminate].
  destruct (filter _ _) as [|[k a] [|]]; try discriminate. cbv zeta.
  destruct (if ltq 0 a then _ else _) as [lo hi]. walk; intros F; try discriminate. injection F as <- <-. destruct T as [T|[T|T]]; discriminate T.
Qed.
Local Open Scope nat_scope.
Lemma not_all_sets x cs c : In c cs -> ct_only_binary_coef c = false ->
  length cs <> length (type_refs x cs SetPartitioning) + length (type_refs x cs SetCovering) + length (type_refs x cs SetPacking).
Proof.
  intros I B E. destruct (In_nth_error _ _ I) as [i Ei].
  set (l := type_refs x cs SetPartitioning ++ type_refs x cs SetCovering ++ type_refs x cs SetPacking).
  assert (Cl : forall j, In j l -> exists d, nth_error cs j = Some d /\ (fst (classify x d) = SetPartitioning \/ fst (classify x d) = SetCovering \/ fst (classify x d) = SetPacking)).
  { intros j J. unfold l in J. rewrite !in_app_iff in J. destruct J as [J|[J|J]]; apply in_type_refs in J as (d & D & T); exists d; auto. }
  assert (N : NoDup (i :: l)).
  { constructor.
    - intros J. destruct (Cl i J) as (d & D & T). assert (d = c) by congruence. subst d. apply set_units in T. congruence.
    - unfold l. apply nodup_app; [apply type_refs_nodup| |].
      + apply nodup_app; [apply type_refs_nodup|apply type_refs_nodup|]. intros j A C. apply in_type_refs in A as (d & D & T), C as (d' & D' & T'). congruence.
      + intros j A C. apply in_app_iff in C. apply in_type_refs in A as (d & D & T). destruct C as [C|C]; apply in_type_refs in C as (d' & D' & T'); congruence. }
  assert (In' : incl (i :: l) (seq 0 (length cs))).
  { intros j [<-|J]; apply in_seq; [assert (i < length cs) by (apply nth_error_Some; congruence); lia|]. destruct (Cl j J) as (d & D & _). assert (j < length cs) by (apply nth_error_Some; congruence). lia. }
  pose proof (NoDup_incl_length N In') as Le. cbn [length] in Le. unfold l in Le. rewrite !app_length, seq_length in Le. lia.
Qed.

(** ** No redundant set variables *)
Lemma lessened_flag cs cs' c : lessened cs cs' -> In c cs -> exists c', In c' cs' /\ ct_only_binary_coef c' = ct_only_binary_coef c.
Proof.
  induction 1 as [|a b l l' E H IH]; intros I; [destruct I|]. destruct I as [->|I]; [|destruct (IH I) as (d & A & B); exists d; split; [now right|exact B]].
  exists b. split; [now left|]. destruct E as [->| ->]; reflexivity.
Qed.
Lemma calm_weighted sw su m s c : proper_model s -> sw_presolve sw = true -> only_inequalities s -> sw_implicit sw = false \/ no_opposites s -> small_rows s ->
  In c (ds_cons s) -> ct_only_binary_coef c = false -> calm_sets sw su m s.
Proof.
  intros P On Ne Op Sm I B fuel s1 s2 E1 E2. destruct (reduce_inequalities fuel sw su m s P On Ne Op s1 E1) as (p & Ep & Es).
  destruct (after_ok fuel m s P Ne Sm p Ep) as (_ & Nq & _).
  assert (s2 = s1) by (apply (no_dependents fuel sw su m s1 s2); [rewrite Es; exact Nq|exact E2]). subst s2. rewrite Es. intros _ _. left. intros v.
  destruct (size_touched _ _ _ _ _ Ep) as [_ Le]. cbn [ps_cons] in Le. destruct (lessened_flag _ _ _ Le I) as (d & Id & Bd). rewrite B in Bd.
  unfold prepare_sets. cbv zeta. cbn [ds_vars after ds_cons ds_number ds_obj]. destruct (_ && _); [|reflexivity]. unfold remove_redundant_set_variables.
  destruct (Nat.eqb _ 0); [reflexivity|]. destruct (Nat.eqb_spec (length (ps_cons p)) (length (type_refs (vctx (su_name su) (ps_vars p)) (ps_cons p) SetPartitioning) +
    length (type_refs (vctx (su_name su) (ps_vars p)) (ps_cons p) SetCovering) + length (type_refs (vctx (su_name su) (ps_vars p)) (ps_cons p) SetPacking))) as [X|X]; [|reflexivity].
  exfalso. exact (not_all_sets _ _ d Id Bd X).
Qed.
