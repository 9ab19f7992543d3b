(** Proofs for C08, continued: the remaining blocks. *)
From Coq Require Import List ZArith QArith Qabs Qround Bool Arith Lia Lqa Permutation.
From Verif Require Import ExprModel ExprSpec ExprProof ConstraintModel ConstraintSpec VariableModel TypeModel TypeSpec TypeProof.
Import ListNotations.
Local Open Scope Q_scope.

Lemma singleton_meaning x c t key : b_singleton c = Some (t, key) -> type_meaning x c t key.
Proof.
  unfold b_singleton. destruct (length _ =? 1)%nat eqn:E; [|discriminate]. intros H. injection H as <- <-.
  apply Nat.eqb_eq in E. cbn [type_meaning]. unfold variables, keys.
  destruct (ex_sens (ct_expr c)) as [|[v a] [|]]; try discriminate. now exists v.
Qed.

(** ** Trinomial *)
Lemma lin_perm y (s s' : sens) : Permutation s s' -> lin s y == lin s' y.
Proof.
  intros P. induction P as [|[v a] l l' P IH|[v a] [w b] l|l1 l2 l3 P1 IH1 P2 IH2]; cbn [lin fold_right fst snd] in *.
  - reflexivity.
  - unfold lin in *. rewrite IH. reflexivity.
  - lra.
  - now rewrite IH1.
Qed.
Lemma lin3 u a v b w d y : lin [(u, a); (v, b); (w, d)] y == a * inject_Z (y u) + b * inject_Z (y v) + d * inject_Z (y w).
Proof. cbn. lra. Qed.

Lemma trinomial_bool (p q r : Z) : (p = 0 \/ p = 1)%Z -> (q = 0 \/ q = 1)%Z -> (r = 0 \/ r = 1)%Z ->
  (inject_Z (p + q) == inject_Z (2 * r) <-> p = r /\ q = r).
Proof.
  intros [-> | ->] [-> | ->] [-> | ->]; (split; [intros Q; try (vm_compute in Q; discriminate Q); auto|intros [? ?]; try discriminate; reflexivity]).
Qed.

Lemma trinomial_finish x c u v w (a b d : Q) sg : proper_senses x -> ct_sense c = Equal ->
  (forall p, In p (ex_sens (ct_expr c)) -> binaryish (tx_sense x (fst p)) = true) ->
  Permutation (ex_sens (ct_expr c)) [(u, a); (v, b); (w, d)] -> (sg == 1 \/ sg == -(1)) ->
  a == sg -> b == sg -> d == -(2) * sg -> type_meaning x c TrinomialExclusiveNOR (Some w).
Proof.
  intros PS He HB HP Hs Ha Hb Hd. cbn [type_meaning].
  assert (L : forall y, lin (ex_sens (ct_expr c)) y == sg * (inject_Z (y u) + inject_Z (y v) - inject_Z 2 * inject_Z (y w))).
  { intros y. rewrite (lin_perm y _ _ HP), lin3, Ha, Hb, Hd. change (inject_Z 2) with 2. lra. }
  exists u, v, w, (- (ex_const (ct_expr c) * sg)).
  assert (S : forall y, satisfies c y <-> inject_Z (y u + y v) == inject_Z (2 * y w) + - (ex_const (ct_expr c) * sg)).
  { intros y. rewrite sat_val, He. cbn [holds]. rewrite L, inject_Z_plus, inject_Z_mult.
    destruct Hs as [Hs|Hs]; rewrite Hs; split; lra. }
  split; [apply (Permutation_map fst) in HP; exact HP|]. split; [reflexivity|]. split; [exact S|].
  intros Hk y A. rewrite S, Hk.
  assert (B : forall q, In q [(u, a); (v, b); (w, d)] -> (y (fst q) = 0 \/ y (fst q) = 1)%Z).
  { intros q I. apply (legal01 x); [exact PS|exact A|]. apply binaryish_cases, HB. now apply (Permutation_in _ (Permutation_sym HP)). }
  rewrite <- (trinomial_bool (y u) (y v) (y w)); [|apply (B (u, a)); cbn; auto|apply (B (v, b)); cbn; auto|apply (B (w, d)); cbn; auto].
  destruct Hs as [Hs|Hs]; rewrite Hs; split; lra.
Qed.

Lemma filter_pair3 (g : nat * Q -> bool) (h : nat * Q -> bool) (l : list (nat * Q)) u v w : length l = 3%nat ->
  (forall p, g p = true -> h p = true -> False) ->
  map fst (filter g l) = [u; v] -> map fst (filter h l) = [w] ->
  exists a b d, Permutation l [(u, a); (v, b); (w, d)] /\ g (u, a) = true /\ g (v, b) = true /\ h (w, d) = true.
Proof.
  intros Hl D. destruct l as [|p1 [|p2 [|p3 [|]]]]; try discriminate.
  cbn [filter].
  destruct (g p1) eqn:G1, (g p2) eqn:G2, (g p3) eqn:G3; cbn [map]; try discriminate;
  destruct (h p1) eqn:H1, (h p2) eqn:H2, (h p3) eqn:H3; cbn [map]; try discriminate;
  try match goal with A : g ?p = true, B : h ?p = true |- _ => exfalso; exact (D p A B) end; intros E E'; injection E as <- <-; injection E' as <-;
  destruct p1 as [q1 r1], p2 as [q2 r2], p3 as [q3 r3]; cbn [fst] in *.
  - exists r1, r2, r3. split; [apply Permutation_refl|auto].
  - exists r1, r3, r2. split; [|auto]. constructor. apply perm_swap.
  - exists r2, r3, r1. split; [|auto]. eapply perm_trans; [apply perm_swap|]. constructor. apply perm_swap.
Qed.

Lemma trinomial_meaning x c t key : proper_senses x -> b_trinomial x c = Some (t, key) -> type_meaning x c t key.
Proof.
  intros PS. unfold b_trinomial. destruct (_ && _ && _ && _) eqn:E; [|discriminate]. bools.
  match goal with H : csense_eqb _ _ = true |- _ => apply csense_eqb_true in H; rename H into He end.
  match goal with H : (_ =? 3)%nat = true |- _ => apply Nat.eqb_eq in H; rename H into Hl end.
  match goal with H : forallb (fun p => binaryish _) _ = true |- _ => rewrite forallb_forall in H; rename H into Hb end.
  assert (K : forall sg u v w, (sg == 1 \/ sg == -(1)) -> with_coef c sg = [u; v] -> with_coef c (-(2) * sg) = [w] ->
     type_meaning x c TrinomialExclusiveNOR (Some w)).
  { intros sg u v w Hs W1 W2.
    assert (Dj : forall p : nat * Q, qe (snd p) sg = true -> qe (snd p) (-(2) * sg) = true -> False).
    { intros p G G'. apply qe_iff in G, G'. rewrite G in G'. destruct Hs as [Hs|Hs]; rewrite Hs in G'; vm_compute in G'; discriminate G'. }
    destruct (filter_pair3 _ _ _ _ _ _ Hl Dj W1 W2) as (a & b & d & P & A & B & D).
    cbn [snd] in *. apply qe_iff in A, B, D. eapply trinomial_finish; eauto. }
  assert (K1 := K 1). assert (K2 := K (-(1))).
  change (-(2) * 1) with (-(2)) in K1. change (-(2) * -(1)) with 2 in K2.
  assert (G2 : match with_coef c (-(1)), with_coef c 2 with [_; _], [k] => Some (TrinomialExclusiveNOR, Some k) | _, _ => None end = Some (t, key) ->
     type_meaning x c t key).
  { destruct (with_coef c (-(1))) as [|u [|v [|]]]; try discriminate. destruct (with_coef c 2) as [|w [|]]; try discriminate.
    intros I; injection I as <- <-. eapply K2; eauto. right; reflexivity. }
  destruct (with_coef c 1) as [|u [|v [|]]]; try exact G2. destruct (with_coef c (-(2))) as [|w [|]]; try exact G2.
  intros I; injection I as <- <-. eapply K1; eauto. left; reflexivity.
Qed.

(** ** Set types *)
Lemma lin_ones (s : sens) y : (forall v a, In (v, a) s -> a == 1) -> (forall v, In v (map fst s) -> y v = 0 \/ y v = 1)%Z ->
  lin s y == inject_Z (ones (map fst s) y).
Proof.
  induction s as [|[v a] s IH]; intros H1 H2; [reflexivity|]. cbn [lin map fst snd fold_right].
  unfold ones in *. cbn [filter].
  fold (lin s y). 
  assert (E := IH (fun w b I => H1 w b (or_intror I)) (fun w I => H2 w (or_intror I))).
  specialize (H1 v a (or_introl eq_refl)). specialize (H2 v (or_introl eq_refl)).
  rewrite H1, E. destruct H2 as [-> | ->].
  - cbn [Z.eqb]. change (inject_Z 0) with 0. lra.
  - cbn [Z.eqb Pos.eqb length]. rewrite Nat2Z.inj_succ. unfold Z.succ. rewrite inject_Z_plus. change (inject_Z 1) with 1. lra.
Qed.

Lemma set_meaning x c t key : proper_senses x -> truthful_flags x c -> b_set c = Some (t, key) -> type_meaning x c t key.
Proof.
  intros PS [T1 T2]. unfold b_set. destruct (_ && _) eqn:E; [|discriminate]. bools.
  assert (L : forall y, admissible (tx_vi x) y ->
    ex_const (ct_expr c) + lin (ex_sens (ct_expr c)) y == ex_const (ct_expr c) + inject_Z (ones (variables c) y)).
  { intros y A. rewrite lin_ones; [reflexivity|exact (T1 H)|]. intros v I. apply (legal01 x); auto.
    destruct (T2 H0 v I); auto. }
  assert (SV : forall y, admissible (tx_vi x) y ->
    (satisfies c y <-> holds (ex_const (ct_expr c) + inject_Z (ones (variables c) y)) (ct_sense c) 0)).
  { intros y A. rewrite sat_val. unfold holds. destruct (ct_sense c); rewrite (L y A); reflexivity. }
  set (k := ex_const (ct_expr c)) in *.
  repeat match goal with |- (if ?q then _ else _) = _ -> _ => destruct q eqn:? end; try discriminate;
  intros I; injection I as <- <-; bools; cbn [type_meaning];
  match goal with H : csense_eqb _ _ = true |- _ => apply csense_eqb_true in H; rename H into He end;
  rewrite He in SV; cbn [holds] in SV;
  try match goal with H : Qle_bool _ _ = true |- _ => apply Qle_bool_iff in H end.
  - intros y A. rewrite (SV y A), inj_eq. change (inject_Z 1) with 1. rewrite H1. split; lra.
  - intros y A. rewrite (SV y A), inj_le. change (inject_Z 1) with 1. rewrite H1. split; lra.
  - intros y A. rewrite (SV y A), inj_le. change (inject_Z 1) with 1. rewrite H1. split; lra.
  - exists (- k). split; [lra|]. intros y A. rewrite (SV y A). split; lra.
  - exists (- k). split; [lra|]. intros y A. rewrite (SV y A). split; lra.
  - exists (- k). split; [lra|]. intros y A. rewrite (SV y A). split; lra.
Qed.

(** ** Flows *)
Lemma filter_split {A} (g : A -> bool) l : Permutation l (filter g l ++ filter (fun p => negb (g p)) l).
Proof.
  induction l as [|p l IH]; [constructor|]. cbn [filter]. destruct (g p); cbn [negb app].
  - now constructor.
  - apply Permutation_cons_app. exact IH.
Qed.
Lemma total_app l l' y : total (l ++ l') y = (total l y + total l' y)%Z.
Proof. induction l; cbn; lia. Qed.
Lemma lin_const (s : sens) q y : (forall v a, In (v, a) s -> a == q) -> lin s y == q * inject_Z (total (map fst s) y).
Proof.
  induction s as [|[v a] s IH]; intros H; [cbn; change (inject_Z 0) with 0; lra|].
  cbn [lin map fst snd fold_right total]. fold (lin s y). rewrite IH by (intros; eapply H; right; eauto).
  rewrite (H v a (or_introl eq_refl)), inject_Z_plus. lra.
Qed.
Lemma flow_sum (s : sens) y : forallb (fun p => unit_abs (snd p)) s = true ->
  lin s y == inject_Z (total (map fst (filter (fun p => qe (snd p) 1) s)) y - total (map fst (filter (fun p => negb (qe (snd p) 1)) s)) y).
Proof.
  intros H. rewrite forallb_forall in H.
  rewrite (lin_perm y _ _ (filter_split (fun p => qe (snd p) 1) s)), lin_app, inject_sub.
  rewrite (lin_const (filter (fun p => qe (snd p) 1) s) 1), (lin_const (filter (fun p => negb (qe (snd p) 1)) s) (-(1))).
  - lra.
  - intros v a I. apply filter_In in I. destruct I as [I1 I2]. cbn [snd] in I2. bools.
    destruct (unit_cases a (H _ I1)); [contradiction|assumption].
  - intros v a I. apply filter_In in I. destruct I as [I1 I2]. cbn [snd] in I2. now bools.
Qed.
Lemma total_ones l y : (forall v, In v l -> y v = 0 \/ y v = 1)%Z -> total l y = ones l y.
Proof.
  unfold ones. induction l as [|v l IH]; intros H; [reflexivity|]. cbn [total filter].
  rewrite IH by (intros; apply H; now right). destruct (H v (or_introl eq_refl)) as [-> | ->]; cbn [Z.eqb Pos.eqb length]; lia.
Qed.

Lemma flow_meaning x c t key : proper_senses x -> b_flow x c = Some (t, key) -> type_meaning x c t key.
Proof.
  intros PS. unfold b_flow. destruct (_ && _) eqn:E; [|discriminate]. bools.
  match goal with H : csense_eqb _ _ = true |- _ => apply csense_eqb_true in H; rename H into He end.
  match goal with H : forallb _ _ = true |- _ => rename H into Hu end.
  assert (FS := fun y => flow_sum (ex_sens (ct_expr c)) y Hu).
  assert (PM : Permutation (variables c) (with_coef c 1 ++ map fst (filter (fun p => negb (qe (snd p) 1)) (ex_sens (ct_expr c))))).
  { unfold variables, keys, with_coef. rewrite <- map_app. apply Permutation_map, filter_split. }
  unfold with_coef in *. 
  set (plus := map fst (filter (fun p => qe (snd p) 1) (ex_sens (ct_expr c)))) in *.
  set (minus := map fst (filter (fun p => negb (qe (snd p) 1)) (ex_sens (ct_expr c)))) in *.
  assert (SV : forall y, satisfies c y <-> ex_const (ct_expr c) + inject_Z (total plus y - total minus y) == 0).
  { intros y. rewrite sat_val, He. cbn [holds]. rewrite FS. reflexivity. }
  assert (Flow : type_meaning x c BinaryFlow None).
  { exists plus, minus, (- ex_const (ct_expr c)). split; [exact PM|]. intros y. rewrite SV. split; lra. }
  clearbody plus minus. cbv zeta.
  destruct (forallb (fun p => zero_one_sense _) _) eqn:Ez.
  - rewrite forallb_forall in Ez.
    assert (B : forall v, In v (plus ++ minus) -> forall y, admissible (tx_vi x) y -> (y v = 0 \/ y v = 1)%Z).
    { intros v I y A. apply (Permutation_in _ (Permutation_sym PM)) in I. unfold variables, keys in I. apply in_map_iff in I.
      destruct I as [p [<- I]]. apply (legal01 x); auto. destruct (zero_one_cases _ (Ez p I)); auto. }
    assert (Soft1 : forall w others, plus = [w] -> minus = others -> others <> [] -> qe (ex_const (ct_expr c)) 0 = true -> type_meaning x c SoftSelection (Some w)).
    { intros w others E1 E2 NE Q. bools. exists w, others. split; [reflexivity|]. split; [now subst plus minus|]. split; [exact NE|].
      intros y A. rewrite SV, Q, E1, E2. rewrite E1, E2 in B. cbn [total app] in *.
      rewrite (total_ones others) by (intros v I; apply (B v); [now right|exact A]).
      assert (Hw := B w (or_introl eq_refl) y A).
      transitivity (y w = ones others y); [|lia]. rewrite inj_eq, inject_sub, inject_Z_plus. change (inject_Z 0) with 0. split; lra. }
    assert (Soft2 : forall w others, plus = others -> minus = [w] -> others <> [] -> qe (ex_const (ct_expr c)) 0 = true -> type_meaning x c SoftSelection (Some w)).
    { intros w others E1 E2 NE Q. bools. exists w, others. split; [reflexivity|].
      split; [subst plus minus; eapply perm_trans; [exact PM|]; apply Permutation_sym, Permutation_cons_append|]. split; [exact NE|].
      intros y A. rewrite SV, Q, E1, E2. rewrite E1, E2 in B. cbn [total app] in *.
      rewrite (total_ones others) by (intros v I; apply (B v); [apply in_or_app; now left|exact A]).
      assert (Hw : (y w = 0 \/ y w = 1)%Z) by (apply (B w); [apply in_or_app; right; now left|exact A]).
      transitivity (y w = ones others y); [|lia]. rewrite inj_eq, inject_sub, inject_Z_plus. change (inject_Z 0) with 0. split; lra. }
    destruct plus as [|p1 [|p2 plus]].
    + intros I; injection I as <- <-. exact Flow.
    + destruct minus as [|m1 minus].
      * intros I; injection I as <- <-. exact Flow.
      * destruct (_ && _) eqn:E1.
        { intros I; injection I as <- <-. bools. eapply Soft1; eauto; [discriminate|now apply qe_iff]. }
        destruct minus as [|m2 minus].
        { match goal with |- (if ?q then _ else _) = _ -> _ => destruct q eqn:E2 end; intros I; injection I as <- <-; [|exact Flow]. bools. eapply Soft2; eauto; [discriminate|now apply qe_iff]. }
        intros I; injection I as <- <-. exact Flow.
    + destruct minus as [|m1 [|m2 minus]].
      * intros I; injection I as <- <-. exact Flow.
      * match goal with |- (if ?q then _ else _) = _ -> _ => destruct q eqn:E2 end; intros I; injection I as <- <-; [|exact Flow]. bools. eapply Soft2; eauto; [discriminate|now apply qe_iff].
      * intros I; injection I as <- <-. exact Flow.
  - destruct (_ && _) eqn:E1; [|discriminate]. intros I; injection I as <- <-. exact Flow.
Qed.

(** ** MinMax, MaxMin, Intermediate *)
Lemma keyed x c u a t : NoDup (variables c) -> In (u, a) (ex_sens (ct_expr c)) ->
  (a == -(1) /\ (t = MinMax /\ ct_sense c = Less \/ t = MaxMin /\ ct_sense c = Greater \/ t = Intermediate /\ ct_sense c = Equal) \/
   a == 1 /\ (t = MinMax /\ ct_sense c = Greater \/ t = MaxMin /\ ct_sense c = Less \/ t = Intermediate /\ ct_sense c = Equal)) ->
  type_meaning x c t (Some u).
Proof.
  intros ND I H. destruct (keyed_rest c u a ND I) as [K1 K2].
  assert (Iu : In u (variables c)) by (unfold variables, keys; change u with (fst (u, a)); now apply in_map).
  destruct H as [[Ha H]|[Ha H]].
  - destruct (K2 Ha) as (r & R1 & R2 & R3).
    destruct H as [[-> He]|[[-> He]|[-> He]]]; cbn [type_meaning]; exists u, r;
    (split; [reflexivity|split; [exact Iu|split; [exact R1|split; [exact R2|]]]]);
    intros y; rewrite sat_val, He; cbn [holds]; rewrite R3; split; lra.
  - destruct (K1 Ha) as (r & R1 & R2 & R3).
    destruct H as [[-> He]|[[-> He]|[-> He]]]; cbn [type_meaning]; exists u, r;
    (split; [reflexivity|split; [exact Iu|split; [exact R1|split; [exact R2|]]]]);
    intros y; rewrite sat_val, He; cbn [holds]; rewrite R3; split; lra.
Qed.
Lemma in_filter_map (g : nat * Q -> bool) (s : sens) u : In u (map fst (filter g s)) -> exists a, In (u, a) s /\ g (u, a) = true.
Proof. intros I. apply in_map_iff in I. destruct I as [[v a] [E I]]. cbn in E. subst v. apply filter_In in I. now exists a. Qed.

Lemma minmax_meaning x c t key : NoDup (variables c) -> b_minmax x c = Some (t, key) -> type_meaning x c t key.
Proof.
  intros ND. unfold b_minmax. destruct (ct_is_integer c); [|discriminate].
  assert (Hm : forall u, In u (map fst (filter (fun p => free_integer x p && qe (snd p) (-1)) (ex_sens (ct_expr c)))) ->
     exists a, In (u, a) (ex_sens (ct_expr c)) /\ a == -(1)).
  { intros u I. apply in_filter_map in I. destruct I as (a & I & G). bools. exists a. split; [exact I|]. cbn [snd] in *. lra. }
  assert (Hp : forall u, In u (map fst (filter (fun p => free_integer x p && qe (snd p) 1) (ex_sens (ct_expr c)))) ->
     exists a, In (u, a) (ex_sens (ct_expr c)) /\ a == 1).
  { intros u I. apply in_filter_map in I. destruct I as (a & I & G). bools. exists a. split; [exact I|]. cbn [snd] in *. lra. }
  cbv zeta.
  set (plus := map fst (filter (fun p => free_integer x p && qe (snd p) 1) (ex_sens (ct_expr c)))) in *.
  set (minus := map fst (filter (fun p => free_integer x p && qe (snd p) (-1)) (ex_sens (ct_expr c)))) in *.
  clearbody plus minus.
  destruct minus as [|u [|u' minus]].
  - destruct plus as [|u [|]]; try discriminate. destruct (Hp u (or_introl eq_refl)) as (a & I & Ha).
    intros H. destruct (ct_sense c) eqn:Ec; cbn [csense_eqb] in H; injection H as <- <-; eapply keyed; eauto 10.
  - destruct (Hm u (or_introl eq_refl)) as (a & I & Ha).
    destruct plus as [|v [|v' plus]]; try discriminate; intros H;
    destruct (ct_sense c) eqn:Ec; cbn [csense_eqb] in H; try discriminate; injection H as <- <-; eapply keyed; eauto 10.
  - destruct plus as [|v [|v' plus]]; try discriminate. destruct (Hp v (or_introl eq_refl)) as (a & I & Ha). intros H.
    destruct (ct_sense c) eqn:Ec; cbn [csense_eqb] in H; try discriminate; injection H as <- <-; eapply keyed; eauto 10.
Qed.

(** ** Knapsacks *)
Lemma weight_lin q (s : sens) y (w : nat -> Q) : (forall v a, In (v, a) s -> w v == q * a) ->
  weight (map fst s) w y == q * lin s y.
Proof.
  induction s as [|[v a] s IH]; intros H; [cbn; lra|]. cbn [map fst weight lin fold_right snd]. fold (lin s y).
  rewrite IH by (intros; apply H; now right). rewrite (H v a (or_introl eq_refl)). lra.
Qed.
Lemma ltq_false a b : negb (ltq a b) = true -> b <= a.
Proof. unfold ltq. destruct (Qlt_le_dec a b); [discriminate|auto]. Qed.

Lemma knapsack_meaning x c t key : NoDup (variables c) -> b_knapsack x c = Some (t, key) -> type_meaning x c t key.
Proof.
  intros ND. unfold b_knapsack. unfold variables, keys in ND.
  set (positive := forallb (fun p => negb (ltq (snd p) 0)) (ex_sens (ct_expr c))).
  set (negative := forallb (fun p => negb (ltq 0 (snd p))) (ex_sens (ct_expr c))).
  set (item := existsb (fun p => qe (snd p) (- ex_const (ct_expr c))) (ex_sens (ct_expr c))).
  set (k := ex_const (ct_expr c)) in *. set (s := ex_sens (ct_expr c)) in *.
  assert (Cf : forall v a, In (v, a) s -> coef s v = a) by (intros v a I; unfold coef; now rewrite (in_find s v a ND I)).
  assert (In1 : forall v, In v (variables c) -> exists a, In (v, a) s).
  { intros v I. apply in_map_iff in I. destruct I as [[w a] [<- I]]. now exists a. }
  assert (W1 : forall y, weight (variables c) (fun v => 1 * coef s v) y == lin s y).
  { intros y. unfold variables, keys. fold s. rewrite (weight_lin 1); [lra|]. intros v a I. now rewrite (Cf v a I). }
  assert (W2 : forall y, weight (variables c) (fun v => -(1) * coef s v) y == - lin s y).
  { intros y. unfold variables, keys. fold s. rewrite (weight_lin (-(1))); [lra|]. intros v a I. now rewrite (Cf v a I). }
  assert (P1 : positive = true -> forall v, In v (variables c) -> 0 <= 1 * coef s v).
  { intros H v I. destruct (In1 v I) as [a J]. rewrite (Cf v a J). unfold positive in H. rewrite forallb_forall in H.
    apply H, ltq_false in J. cbn [snd] in J. lra. }
  assert (P2 : negative = true -> forall v, In v (variables c) -> 0 <= -(1) * coef s v).
  { intros H v I. destruct (In1 v I) as [a J]. rewrite (Cf v a J). unfold negative in H. rewrite forallb_forall in H.
    apply H, ltq_false in J. cbn [snd] in J. lra. }
  assert (IT : item = true -> exists v, In v (variables c) /\ coef s v == - k).
  { intros H. unfold item in H. apply existsb_exists in H. destruct H as [[v a] [I Q]]. bools. exists v.
    split; [unfold variables, keys; fold s; change v with (fst (v, a)); now apply in_map|]. now rewrite (Cf v a I). }
  assert (SV := sat_val c). fold k s in SV.
  clearbody positive negative item. cbv zeta.
  assert (One : (positive && csense_eqb (ct_sense c) Less) || (negative && csense_eqb (ct_sense c) Greater) = true ->
    exists q, (q == 1 \/ q == -(1)) /\ (forall v, In v (variables c) -> 0 <= q * coef s v) /\
      forall y, satisfies c y <-> weight (variables c) (fun v => q * coef s v) y <= q * (- k)).
  { intros H. apply orb_true_iff in H. destruct H as [H|H]; bools;
    match goal with H : csense_eqb _ _ = true |- _ => apply csense_eqb_true in H; rename H into He end.
    - exists 1. split; [left; reflexivity|]. split; [auto|]. intros y. rewrite SV, He, W1. cbn [holds]. split; lra.
    - exists (-(1)). split; [right; reflexivity|]. split; [auto|]. intros y. rewrite SV, He, W2. cbn [holds]. split; lra. }
  assert (KN : (positive && csense_eqb (ct_sense c) Less) || (negative && csense_eqb (ct_sense c) Greater) = true -> type_meaning x c Knapsack None).
  { intros H. destruct (One H) as (q & _ & Q1 & Q2). cbn [type_meaning]. exists (fun v => q * coef s v), (q * - k). auto. }
  destruct (forallb (fun p => zero_one_sense _) s).
  - destruct (_ && (positive || negative)) eqn:E1.
    { intros I; injection I as <- <-. bools. match goal with H : csense_eqb _ _ = true |- _ => apply csense_eqb_true in H; rename H into He end.
      match goal with H : _ || _ = true |- _ => apply orb_true_iff in H; destruct H as [H|H] end; cbn [type_meaning].
      - exists (fun v => 1 * coef s v), (- k). split; [auto|]. intros y. rewrite SV, He, W1. cbn [holds]. split; lra.
      - exists (fun v => -(1) * coef s v), k. split; [auto|]. intros y. rewrite SV, He, W2. cbn [holds]. split; lra. }
    destruct (item && _) eqn:E2.
    { intros I; injection I as <- <-. apply andb_true_iff in E2. destruct E2 as [E2 E3]. destruct (One E3) as (q & _ & Q1 & Q2).
      destruct (IT E2) as (v & V1 & V2). cbn [type_meaning]. exists (fun v => q * coef s v), (q * - k), v.
      split; [exact Q1|]. split; [exact V1|]. split; [rewrite V2; reflexivity|exact Q2]. }
    destruct (_ || _) eqn:E3 in |- *; [|discriminate]. intros I; injection I as <- <-. now apply KN.
  - destruct (_ || _) eqn:E3 in |- *; [|discriminate]. intros I; injection I as <- <-. now apply KN.
Qed.

(** ** GF(2) *)
Lemma erase_filter (s : sens) key : NoDup (map fst s) -> sens_erase s key = filter (fun p => negb (Nat.eqb (fst p) key)) s.
Proof.
  induction s as [|[v a] s IH]; intros ND; [reflexivity|]. cbn [sens_erase filter fst]. inversion ND as [|? ? H1 H2]; subst.
  destruct (Nat.eqb_spec v key) as [->|N]; cbn [negb]; [|now rewrite IH].
  symmetry. rewrite <- (IH H2). clear IH ND H2.
  induction s as [|[w b] s IH]; [reflexivity|]. cbn [sens_erase]. cbn [map fst In] in H1.
  destruct (Nat.eqb_spec w key) as [->|N]; [exfalso; auto|]. f_equal. apply IH. auto.
Qed.

Lemma even_add_unit p a n m : (a == 1 \/ a == -(1)) -> exists z, inject_Z z == a * inject_Z n + inject_Z m /\
  Z.even (z + p) = Z.even (n + m + p).
Proof.
  intros [H|H].
  - exists (n + m)%Z. rewrite inject_Z_plus, H. split; [lra|reflexivity].
  - exists (- n + m)%Z. rewrite inject_Z_plus, inject_Z_opp, H. split; [lra|].
    replace (n + m + p)%Z with ((- n + m + p) + 2 * n)%Z by ring. rewrite (Z.even_add (- n + m + p) (2 * n)), Z.even_mul. cbn. now destruct (Z.even _).
Qed.
Lemma parity_lin (s : sens) y p : (forall v a, In (v, a) s -> a == 1 \/ a == -(1)) -> exists z, lin s y == inject_Z z /\
  Z.even (z + p) = Z.even (total (map fst s) y + p).
Proof.
  induction s as [|[v a] s IH]; intros H; [exists 0%Z; split; reflexivity|].
  destruct IH as (z & Z1 & Z2); [intros; apply (H v0 a0); now right|].
  destruct (even_add_unit p a (y v) z (H v a (or_introl eq_refl))) as (z' & Y1 & Y2).
  exists z'. cbn [lin map fst snd fold_right total]. fold (lin s y). split; [rewrite Z1, Y1; lra|].
  rewrite Y2. rewrite <- !Z.add_assoc. rewrite (Z.even_add (y v)), Z2, <- Z.even_add. f_equal. 
Qed.

Lemma set_eval (r : expr) u z (y : nat -> Z) : ~ In u (keys r) -> e_eval r (fun v => if Nat.eqb v u then z else y v) == e_eval r y.
Proof.
  intros H. rewrite !eval_lin. unfold keys in H. apply Qplus_comp; [reflexivity|].
  induction (ex_sens r) as [|[v a] s IH]; [reflexivity|]. cbn [lin fold_right fst snd map In] in *.
  fold (lin s y) (lin s (fun v => if Nat.eqb v u then z else y v)). rewrite IH by tauto.
  destruct (Nat.eqb_spec v u); [tauto|reflexivity].
Qed.

Lemma gf2_meaning x c t key : proper_senses x -> NoDup (variables c) -> b_gf2 x c = Some (t, key) -> type_meaning x c t key.
Proof.
  intros PS ND. unfold b_gf2. destruct (_ && _ && _) eqn:E; [|discriminate]. bools.
  match goal with H : csense_eqb _ _ = true |- _ => apply csense_eqb_true in H; rename H into He end.
  match goal with H : forallb _ _ = true |- _ => rewrite forallb_forall in H; rename H into Hf end.
  destruct (filter _ _) as [|[u a] [|]] eqn:Ef; try discriminate.
  unfold variables, keys in ND. 
  assert (Iu : In (u, a) (ex_sens (ct_expr c)) /\ two_key x (u, a) = true) by (apply filter_In; rewrite Ef; now left).
  destruct Iu as [Iu Tu].
  assert (Ha : a == 2 \/ a == -(2)).
  { unfold two_key in Tu. bools. cbn [snd] in *. match goal with H : Qabs a == 2 |- _ => revert H; apply Qabs_case; intros; [left|right]; lra end. }
  assert (Hk : exists k, ex_const (ct_expr c) == inject_Z k).
  { match goal with H : _ || _ = true |- _ => apply orb_true_iff in H; destruct H as [H|H] end.
    - apply qe_iff in H. exists 0%Z. exact H.
    - destruct (unit_cases _ H) as [Q|Q]; [exists 1%Z|exists (-1)%Z]; exact Q. }
  destruct Hk as [k Hk].
  set (s := ex_sens (ct_expr c)) in *. set (rest := mkExpr (sens_erase s u) (ex_const (ct_expr c))).
  assert (NI : ~ In u (keys rest)) by now apply notin_erase.
  assert (HU : forall v b, In (v, b) (sens_erase s u) -> b == 1 \/ b == -(1)).
  { intros v b I. rewrite erase_filter in I by assumption. apply filter_In in I. destruct I as [I N]. cbn [fst] in N. bools.
    apply Nat.eqb_neq in N. specialize (Hf _ I). bools. match goal with H : _ || _ = true |- _ => apply orb_true_iff in H; destruct H as [H|H] end.
    - exfalso. assert (J : In (v, b) (filter (two_key x) s)) by now apply filter_In. rewrite Ef in J. destruct J as [J|[]]. injection J as -> _. contradiction.
    - bools. now apply unit_cases. }
  assert (HE : forall y, ex_const (ct_expr c) + lin s y == e_eval rest y + a * inject_Z (y u)).
  { intros y. rewrite (lin_erase s u y ND), eval_lin. cbn [rest ex_sens ex_const].
    replace (coef s u) with a by (unfold coef; now rewrite (in_find s u a ND Iu)). lra. }
  assert (HP : forall y, exists z, e_eval rest y == inject_Z z /\ Z.even z = Z.even (total (keys rest) y + k)).
  { intros y. destruct (parity_lin (sens_erase s u) y k HU) as (z & Z1 & Z2). exists (z + k)%Z. split; [|exact Z2].
    rewrite eval_lin. cbn [rest ex_const ex_sens]. rewrite Z1, Hk, inject_Z_plus. lra. }
  assert (SV : forall y, satisfies c y <-> e_eval rest y + a * inject_Z (y u) == 0).
  { intros y. rewrite sat_val, He. cbn [holds]. fold s. rewrite HE. reflexivity. }
  assert (HV : Permutation (variables c) (u :: keys rest)).
  { unfold variables, keys. fold s. cbn [rest ex_sens]. clear - ND Iu. induction s as [|[v b] s IH]; [contradiction|].
    cbn [map fst sens_erase]. inversion ND as [|? ? N1 N2]; subst. destruct (Nat.eqb_spec v u) as [->|N]; [apply Permutation_refl|].
    destruct Iu as [I|I]; [now injection I|]. cbn [map fst]. eapply perm_trans; [apply perm_skip, IH; auto|apply perm_swap]. }
  assert (Main : forall lo hi, (forall y z, admissible (tx_vi x) y -> e_eval rest y + a * inject_Z z == 0 -> lo <= inject_Z (2 * z) <= hi) ->
    (if negb (vi_lower (tx_vi x u) =? INT_HALF_MIN)%Z && (Qceiling (lo * (1 # 2)) <? vi_lower (tx_vi x u))%Z
        || negb (vi_upper (tx_vi x u) =? INT_HALF_MAX)%Z && (vi_upper (tx_vi x u) <? Qfloor (hi * (1 # 2)))%Z
     then None else Some (GF2, Some u)) = Some (t, key) -> type_meaning x c t key).
  { intros lo hi HB. match goal with |- (if ?q then _ else _) = _ -> _ => destruct q eqn:Eb end; [discriminate|]. intros I; injection I as <- <-. cbn [type_meaning].
    apply orb_false_iff in Eb. destruct Eb as [B1 B2].
    exists u, (keys rest), k. split; [reflexivity|]. split; [exact HV|]. split.
    - intros y S. rewrite SV in S. destruct (HP y) as (z & Z1 & <-). rewrite Z1 in S.
      destruct Ha as [Ha|Ha]; rewrite Ha in S.
      + assert (Q : (z = 2 * (- y u))%Z). { rewrite inj_eq, inject_Z_mult, inject_Z_opp. change (inject_Z 2) with 2. lra. }
        rewrite Q, Z.even_mul. reflexivity.
      + assert (Q : (z = 2 * y u)%Z). { rewrite inj_eq, inject_Z_mult. change (inject_Z 2) with 2. lra. }
        rewrite Q, Z.even_mul. reflexivity.
    - intros y A Ev. destruct (HP y) as (z & Z1 & Z2). rewrite <- Z2 in Ev. apply Z.even_spec in Ev. destruct Ev as [w ->].
      rewrite inject_Z_mult in Z1. change (inject_Z 2) with 2 in Z1.
      assert (S : exists w', e_eval rest y + a * inject_Z w' == 0).
      { destruct Ha as [Ha|Ha]; [exists (- w)%Z|exists w]; rewrite Z1, Ha, ?inject_Z_opp; lra. }
      destruct S as [w' S]. exists w'. split.
      { rewrite SV, (set_eval rest u w' y NI), Nat.eqb_refl. exact S. }
      destruct (HB y w' A S) as [L U]. rewrite inject_Z_mult in L, U. change (inject_Z 2) with 2 in L, U. split.
      + intros N. apply andb_false_iff in B1. destruct B1 as [B1|B1].
        { apply negb_false_iff in B1. apply Z.eqb_eq in B1. contradiction. }
        apply Z.ltb_ge in B1. eapply Z.le_trans; [exact B1|]. rewrite <- (Qceiling_Z w'). apply Qceiling_resp_le. lra.
      + intros N. apply andb_false_iff in B2. destruct B2 as [B2|B2].
        { apply negb_false_iff in B2. apply Z.eqb_eq in B2. contradiction. }
        apply Z.ltb_ge in B2. eapply Z.le_trans; [|exact B2]. rewrite <- (Qfloor_Z w') at 1. apply Qfloor_resp_le. lra. }
  fold rest. cbv zeta.
  assert (LB := fun y (A : admissible (tx_vi x) y) => lower_bound_valid rest (tx_vi x) y A).
  assert (UB := fun y (A : admissible (tx_vi x) y) => upper_bound_valid rest (tx_vi x) y A).
  unfold ltq. destruct (Qlt_le_dec 0 a) as [Pa|Pa]; apply Main; intros y z A S; specialize (LB y A); specialize (UB y A);
  rewrite inject_Z_mult; change (inject_Z 2) with 2; destruct Ha as [Ha|Ha]; try (exfalso; lra); rewrite Ha in S; split; lra.
Qed.

(** ** The chain *)
Lemma classify_meaning x c : proper_senses x -> truthful_flags x c -> NoDup (variables c) ->
  type_meaning x c (fst (classify x c)) (snd (classify x c)).
Proof.
  intros PS TF ND. unfold classify, first_verdict.
  destruct (b_singleton c) as [[t key]|] eqn:E1; [now apply singleton_meaning|].
  destruct (b_pair_equal x c) as [[t key]|] eqn:E2; [now apply pair_equal_meaning|].
  destruct (b_pair_inequality x c) as [[t key]|] eqn:E3; [now apply pair_inequality_meaning|].
  destruct (b_trinomial x c) as [[t key]|] eqn:E4; [now apply trinomial_meaning|].
  destruct (b_set c) as [[t key]|] eqn:E5; [now apply set_meaning|].
  destruct (b_flow x c) as [[t key]|] eqn:E6; [now apply flow_meaning|].
  destruct (b_minmax x c) as [[t key]|] eqn:E7; [now apply minmax_meaning|].
  destruct (b_knapsack x c) as [[t key]|] eqn:E8; [now apply knapsack_meaning|].
  destruct (b_gf2 x c) as [[t key]|] eqn:E9; [now apply gf2_meaning|].
  exact I.
Qed.
