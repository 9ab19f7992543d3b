(** Proofs for C64: one round; definitions by name order are not circular;
    definitions with integer data have integer values. *)
From Coq Require Import List ZArith QArith Qabs Bool Arith Lia Lqa.
From Verif Require Import ExprModel ExprSpec ExprProof ConstraintModel ConstraintSpec VariableModel TypeModel TypeSpec PresolveModel
  DependentModel DependentSpec DependentProof DependentProof2 DependentProof3 DependentProof4.
Import ListNotations.
Local Open Scope Q_scope.

Lemma extract_es opt names s k s' : extract opt names s = Some (k, s') ->
  exists es, all_some (map (fun c => e_solve (ct_expr (ca_con c)) (ca_key c)) (picks opt names s)) = Some es.
Proof. unfold extract. destruct (all_some _) as [es|] eqn:E; [|discriminate]. intros _. exists es. reflexivity. Qed.

Lemma extract_keeps opt names s k s' : coherent s -> clean s -> extract opt names s = Some (k, s') ->
  coherent s' /\ ds_obj s' = ds_obj s /\ ds_number s' = ds_number s /\
  (forall x, solves s x -> solves s' x) /\
  (acyclic s' -> forall x, covered (ds_vars s) x -> solves s' x -> solves s x).
Proof.
  intros Co Cl Ex. destruct (extract_es _ _ _ _ _ Ex) as [es He].
  destruct (extract_shape opt names s k s' Ex) as (_ & _ & _ & Hn & _ & _ & _ & Ho & _).
  split; [eapply extract_coherent; eauto|]. split; [exact Ho|]. split; [exact Hn|].
  split; [intros x; eapply extract_forward; eauto|]. intros [rank R] x O S. eapply extract_backward; eauto.
Qed.

Lemma ordinary_covered vs x : ordinary x -> covered vs x.
Proof. intros O v _. split; intros _; apply O. Qed.
Lemma round_covered opt names s k s' fuel : coherent s -> clean s -> extract opt names s = Some (k, s') -> acyclic s' -> (3 <= fuel)%nat ->
  exists s'', eliminate_loop fuel s' = Some s'' /\ coherent s'' /\ clean s'' /\
  (forall v, ds_dep s'' v = ds_dep s' v) /\ (forall v, ds_vars s'' v = ds_vars s' v) /\
  forall x, covered (ds_vars s) x -> (solves s x <-> solves s'' x) /\ (solves s x -> e_eval (ds_obj s'') x == e_eval (ds_obj s) x).
Proof.
  intros Co Cl Ex Ac L. destruct (extract_keeps opt names s k s' Co Cl Ex) as (Co' & Ho & Hn & F & B).
  destruct (loop_ends s' fuel (coherent_tidy s' Co') L) as (s'' & E & Cl''). exists s''.
  destruct Ac as [rank R]. destruct (loop_kept rank fuel s' s'' Co' R E) as (Co'' & (_ & V & D & _) & _ & K).
  split; [exact E|]. split; [exact Co''|]. split; [exact Cl''|]. split; [intros v; rewrite D; reflexivity|].
  split; [intros v; rewrite V; reflexivity|]. intros x O. destruct (K x) as [K1 K2]. split.
  - split; [intros S; apply K1, F, S|intros S; apply (B (ex_intro _ rank R) x O), K1, S].
  - intros S. rewrite <- Ho. apply K2, F, S.
Qed.
Lemma round_keeps opt names s k s' fuel : coherent s -> clean s -> extract opt names s = Some (k, s') -> acyclic s' -> (3 <= fuel)%nat ->
  exists s'', eliminate_loop fuel s' = Some s'' /\ coherent s'' /\ clean s'' /\
  (forall v, ds_dep s'' v = ds_dep s' v) /\ (forall v, ds_vars s'' v = ds_vars s' v) /\
  forall x, ordinary x -> (solves s x <-> solves s'' x) /\ (solves s x -> e_eval (ds_obj s'') x == e_eval (ds_obj s) x).
Proof.
  intros Co Cl Ex Ac L. destruct (round_covered opt names s k s' fuel Co Cl Ex Ac L) as (s'' & A & B & C & D & E & F).
  exists s''. repeat (split; [assumption|]). intros x O. apply F, ordinary_covered, O.
Qed.

(** ** Pairs *)
Lemma pair_smaller x c t key : b_pair_equal x c = Some (t, Some key) ->
  In t [ExclusiveOR; ExclusiveNOR; InvertedIntegers; BalancedIntegers; ConstantSumIntegers; ConstantDifferenceIntegers] ->
  forall w, In w (keys (ct_expr c)) -> w <> key -> (tx_name x key <= tx_name x w)%nat.
Proof.
  unfold b_pair_equal, keys. destruct (ex_sens (ct_expr c)) as [|[v0 c0] [|[v1 c1] [|]]] eqn:Es; try discriminate.
  cbv zeta. set (small := if (tx_name x v0 <? tx_name x v1)%nat then v0 else v1).
  assert (Small : key = small -> forall w, In w (map fst [(v0, c0); (v1, c1)]) -> w <> key -> (tx_name x key <= tx_name x w)%nat).
  { intros -> w I N. unfold small in *. simpl in I. destruct (Nat.ltb_spec (tx_name x v0) (tx_name x v1)); destruct I as [<-|[<-|[]]]; try contradiction; lia. }
  walk; intros E T; try discriminate; try (apply Small; congruence).
  all: injection E as <- _; simpl in T; intuition discriminate.
Qed.
Lemma classify_smaller x c t key : classify x c = (t, Some key) ->
  In t [ExclusiveOR; ExclusiveNOR; InvertedIntegers; BalancedIntegers; ConstantSumIntegers; ConstantDifferenceIntegers] ->
  forall w, In w (keys (ct_expr c)) -> w <> key -> (tx_name x key <= tx_name x w)%nat.
Proof.
  intros E T. unfold classify in E. cbn [first_verdict] in E.
  assert (Sin : forall r, b_singleton c = Some r -> r = (Singleton, None)) by (unfold b_singleton; destruct (_ =? _)%nat; congruence).
  destruct (b_singleton c) as [r|]; [rewrite (Sin r eq_refl) in E; discriminate|].
  destruct (b_pair_equal x c) as [r|] eqn:Ep; [subst r; eapply pair_smaller; eassumption|]. exfalso.
  destruct (b_pair_inequality x c) as [r|] eqn:Ei.
  { subst r. revert Ei. unfold b_pair_inequality. destruct (ex_sens (ct_expr c)) as [|[v0 c0] [|[v1 c1] [|]]]; try discriminate.
    walk; intros F; congruence. }
  destruct (b_trinomial x c) as [r|] eqn:Et.
  { subst r. revert Et. unfold b_trinomial.
    destruct (_ && _); [|discriminate].
    destruct (with_coef c 1) as [|? [|? [|]]]; destruct (with_coef c (-(2))) as [|? [|]];
      destruct (with_coef c (-(1))) as [|? [|? [|]]]; destruct (with_coef c 2) as [|? [|]];
      intros F; try discriminate; injection F as <- <-; simpl in T; intuition discriminate. }
  destruct (b_set c) as [r|] eqn:Es.
  { subst r. revert Es. unfold b_set. walk; intros F; try discriminate. }
  destruct (b_flow x c) as [r|] eqn:Ef.
  { subst r. revert Ef. unfold b_flow. cbv zeta.
    destruct (_ && _); [|discriminate].
    destruct (forallb _ _).
    - lists; walk; lists; walk; intros F; try discriminate;
        injection F as <- <-; simpl in T; intuition discriminate.
    - walk; intros F; discriminate. }
  destruct (b_minmax x c) as [r|] eqn:Em.
  { subst r. revert Em. unfold b_minmax. destruct (ct_is_integer c); [|discriminate]. cbv zeta.
    lists; walk; intros F; try discriminate; injection F as <- <-; simpl in T; intuition discriminate. }
  destruct (b_knapsack x c) as [r|] eqn:Ek.
  { subst r. revert Ek. unfold b_knapsack. cbv zeta. walk; intros F; discriminate. }
  destruct (b_gf2 x c) as [r|] eqn:Eg; [|discriminate].
  subst r. revert Eg. unfold b_gf2.
  destruct ((qe _ _ || _) && _ && _); [|discriminate].
  destruct (filter _ _) as [|[k a] [|]]; try discriminate. cbv zeta.
  destruct (if ltq 0 a then _ else _) as [lo hi]. walk; intros F; try discriminate.
  injection F as <- <-. simpl in T. intuition discriminate.
Qed.

Lemma pairs_acyclic opt names s k s' : coherent s -> clean s -> pair_types opt ->
  (forall v w, (v < ds_number s)%nat -> (w < ds_number s)%nat -> names v = names w -> v = w) ->
  extract opt names s = Some (k, s') -> acyclic s'.
Proof.
  intros Co Cl Pt Inj Ex. destruct (extract_es _ _ _ _ _ Ex) as [es He].
  set (M := list_max (map names (seq 0 (ds_number s)))).
  assert (Max : forall v, (v < ds_number s)%nat -> (names v <= M)%nat).
  { intros v L. pose proof (proj1 (list_max_le (map names (seq 0 (ds_number s))) M) (Nat.le_refl _)) as A.
    rewrite Forall_forall in A. apply A. apply in_map, in_seq. lia. }
  exists (fun v => match ds_dep s v with Some _ => S M | None => M - names v end)%nat.
  intros v m w E K D.
  destruct (dep_cases opt names s Co k s' Ex es He v m E) as [(E' & _ & L & N)|(j & c & e & A & B & _ & _ & N & F)]; rewrite N in K.
  - rewrite E'. destruct (ds_dep s w) as [m'|] eqn:Ew; [|lia]. exfalso.
    assert (Dw : ds_dep s w <> None) by congruence. apply (co_dep s Co) in Dw. destruct Dw as [Lw Dw].
    exact (cl_exprs s Cl w _ Lw Dw (nth_In _ _ L) K).
  - pose proof (nth_error_In _ _ A) as Ip.
    destruct (pick_solves opt names s Co c Ip) as (f & F' & _ & Nk & Ic & Ik & _ & Ec & _).
    assert (e = f) by congruence. subst e.
    pose proof (solve_keys _ _ _ _ F' ltac:(subst f; exact K)) as Kw.
    rewrite (con_not_old s Co Cl w _ Ic Ec Kw). rewrite <- B, (con_not_old s Co Cl _ _ Ic Ec Ik).
    assert (Nw : w <> ca_key c) by (intros ->; subst f; contradiction).
    destruct (pick_facts opt names s c Ip) as (_ & _ & _ & t & Ot & _ & Cf).
    pose proof (classify_smaller _ _ _ _ Cf (Pt t Ot) w Kw Nw) as Le. cbn [context tx_name] in Le.
    pose proof (proj2 (co_cons s Co _ Ic) _ Kw) as Lw. pose proof (proj2 (co_cons s Co _ Ic) _ Ik) as Lk.
    assert (names w <> names (ca_key c)) by (intros Q; apply Nw, Inj; assumption).
    pose proof (Max w Lw). lia.
Qed.

(** ** Integer data *)
Definition integer (q : Q) : Prop := exists z, q == inject_Z z.
Lemma integer_eq a b : a == b -> integer a -> integer b.
Proof. intros E [z H]. exists z. rewrite <- E. exact H. Qed.
Lemma integer_add a b : integer a -> integer b -> integer (a + b).
Proof. intros [y H] [z G]. exists (y + z)%Z. rewrite inject_Z_plus, H, G. reflexivity. Qed.
Lemma integer_mul a b : integer a -> integer b -> integer (a * b).
Proof. intros [y H] [z G]. exists (y * z)%Z. rewrite inject_Z_mult, H, G. reflexivity. Qed.
Lemma whole_eval e x : whole e -> integer (e_eval e x).
Proof.
  intros [A B]. apply (integer_eq (ex_const e + lin (ex_sens e) x)); [symmetry; apply eval_lin|].
  apply integer_add; [exact A|]. revert B. generalize (ex_sens e) as l. clear. induction l as [|[v a] l IH]; intros B; [exists 0%Z; reflexivity|].
  cbn [lin fst snd]. apply integer_add.
  - apply integer_mul; [|exists (x v); reflexivity] || (apply integer_mul; [exists (x v); reflexivity|]). apply (B v a). left. reflexivity.
  - apply IH. intros w b I. apply (B w b). right. exact I.
Qed.
Lemma solve_whole e v a f : sens_find (ex_sens e) v = Some a -> (a == 1 \/ a == -(1)) -> whole e -> e_solve e v = Some f -> whole f.
Proof.
  intros Hf U [A B]. unfold e_solve. rewrite Hf. destruct (Qeq_bool a 0); [discriminate|]. intros E. injection E as <-.
  assert (I : integer (- (1 / a))).
  { destruct U as [U|U].
    - exists (-1)%Z. rewrite U. reflexivity.
    - exists 1%Z. rewrite U. reflexivity. }
  split; cbn [ex_const ex_sens].
  - apply integer_mul; assumption.
  - intros w b J. unfold sens_map in J. apply in_map_iff in J. destruct J as ([u d] & E & J). cbn [fst snd] in E. injection E as <- <-.
    apply integer_mul; [|exact I]. apply (B u d). revert J. clear. generalize (ex_sens e) as l. induction l as [|[p q] l IH]; simpl; [auto|].
    destruct (Nat.eqb p v); simpl; intuition.
Qed.
Lemma definition_whole opt names s k s' v m : coherent s -> clean s -> extract opt names s = Some (k, s') ->
  (forall c, In c (ds_cons s) -> ct_enabled c = true -> whole (ct_expr c)) ->
  ds_dep s v = None -> ds_dep s' v = Some m -> whole (nth m (ds_exprs s') no_expr).
Proof.
  intros Co Cl Ex Wh D E. destruct (extract_es _ _ _ _ _ Ex) as [es He].
  destruct (dep_cases opt names s Co k s' Ex es He v m E) as [(E' & _)|(j & c & e & A & B & _ & _ & N & F)]; [congruence|]. rewrite N.
  pose proof (nth_error_In _ _ A) as Ip. destruct (pick_facts opt names s c Ip) as (Np & En & (_ & _ & a & Ia & U) & _).
  pose proof (nth_error_In _ _ Np) as Ic.
  apply (solve_whole (ct_expr (ca_con c)) (ca_key c) a e); [|exact U|exact (Wh _ Ic En)|exact F].
  apply in_find; [apply Co, Ic|exact Ia].
Qed.
Lemma definition_truncates opt names s k s' v m x : coherent s -> clean s -> extract opt names s = Some (k, s') ->
  (forall c, In c (ds_cons s) -> ct_enabled c = true -> whole (ct_expr c)) ->
  ds_dep s v = None -> ds_dep s' v = Some m ->
  inject_Z (Qtrunc (e_eval (nth m (ds_exprs s') no_expr) x)) == e_eval (nth m (ds_exprs s') no_expr) x.
Proof.
  intros Co Cl Ex Wh D E. pose proof (definition_whole opt names s k s' v m Co Cl Ex Wh D E) as W.
  destruct (whole_eval _ x W) as [z H]. rewrite (Qtrunc_Z _ z H). symmetry. exact H.
Qed.
