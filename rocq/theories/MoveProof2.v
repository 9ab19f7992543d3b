(** Proofs for C35. *)
From Coq Require Import List ZArith NArith QArith Qabs Qround Bool Lia Lqa Permutation Arith.
From Verif Require Import ExprModel ExprSpec ExprProof ConstraintModel ConstraintSpec VariableModel TypeModel TypeSpec TypeProof
  PresolveModel MoveModel MoveSpec MoveProof.
Import ListNotations.
Local Open Scope Q_scope.

Lemma after2 x u v p q : u <> v -> after x [(u, p); (v, q)] u = p /\ after x [(u, p); (v, q)] v = q.
Proof.
  intros N. unfold after, apply_move, set_val. cbn [fold_left fst snd]. rewrite Nat.eqb_refl.
  destruct (Nat.eqb_spec u v); [contradiction|]. rewrite Nat.eqb_refl. auto.
Qed.
Lemma eval_pair c u v a b y : ex_sens (ct_expr c) = [(u, a); (v, b)] ->
  e_eval (ct_expr c) y == a * inject_Z (y u) + b * inject_Z (y v) + ex_const (ct_expr c).
Proof. intros E. rewrite eval_lin. now apply pair_value. Qed.

(** The two orders of the pair. *)
Lemma binomial_cases addr c u v a b : ex_sens (ct_expr c) = [(u, a); (v, b)] -> u <> v ->
  exists bn, to_binomial addr c = Some bn /\ bn_const bn = ex_const (ct_expr c) /\ bn_sense bn = ct_sense c /\
    bn_first bn <> bn_second bn /\
    ((bn_first bn = u /\ bn_second bn = v /\ bn_a1 bn = a /\ bn_a2 bn = b /\ ~ (addr v < addr u)%N) \/
     (bn_first bn = v /\ bn_second bn = u /\ bn_a1 bn = b /\ bn_a2 bn = a /\ (addr v < addr u)%N)) /\
    forall y, e_eval (ct_expr c) y == bn_a1 bn * inject_Z (y (bn_first bn)) + bn_a2 bn * inject_Z (y (bn_second bn)) + bn_const bn.
Proof.
  intros E N. unfold to_binomial. rewrite E. destruct (N.ltb_spec (addr v) (addr u)) as [L|L]; eexists; (split; [reflexivity|]); cbn [bn_const bn_sense bn_first bn_second bn_a1 bn_a2].
  - repeat (split; [auto; fail|]). split; [right; auto 8|]. intros y. rewrite (eval_pair c u v a b y E). lra.
  - repeat (split; [auto; fail|]). split; [left; repeat (split; [reflexivity|]); lia|]. intros y. rewrite (eval_pair c u v a b y E). lra.
Qed.
Lemma pair_neq c u v a b : wf (ct_expr c) -> ex_sens (ct_expr c) = [(u, a); (v, b)] -> u <> v.
Proof. unfold wf, keys. intros W E. rewrite E in W. cbn in W. inversion W as [|? ? H]; subst. intros ->. apply H. now left. Qed.

(** Value after a two-variable move. *)
Lemma eval_after c u v a b k x p q : u <> v ->
  (forall y, e_eval (ct_expr c) y == a * inject_Z (y u) + b * inject_Z (y v) + k) ->
  e_eval (ct_expr c) (after x [(u, p); (v, q)]) == a * inject_Z p + b * inject_Z q + k.
Proof. intros N H. rewrite H. destruct (after2 x u v p q N) as [-> ->]. lra. Qed.
Lemma eval_after' c u v a b k x p q : u <> v ->
  (forall y, e_eval (ct_expr c) y == a * inject_Z (y u) + b * inject_Z (y v) + k) ->
  e_eval (ct_expr c) (after x [(v, q); (u, p)]) == a * inject_Z p + b * inject_Z q + k.
Proof. intros N H. rewrite H. destruct (after2 x v u q p (not_eq_sym N)) as [-> ->]. lra. Qed.

Ltac pair_start Hc x c key addr :=
  let u := fresh "u" in let v := fresh "v" in let a := fresh "a" in let b := fresh "b" in
  unfold b_pair_equal in Hc; cbv zeta in Hc;
  destruct (ex_sens (ct_expr c)) as [|[u a] [|[v b] [|]]] eqn:Es; try discriminate Hc;
  destruct (_ && negb (vi_fixed (tx_vi x u)) && _) eqn:E0 in Hc; [|discriminate Hc].

(** Coefficients of the pair for each two-variable equality type. *)
Definition pair_coefs (t : ctype) (a b k : Q) : Prop :=
  match t with
  | ExclusiveOR => (a == 1 /\ b == 1 /\ k == -(1)) \/ (a == -(1) /\ b == -(1) /\ k == 1)
  | ExclusiveNOR | BalancedIntegers => ((a == 1 /\ b == -(1)) \/ (a == -(1) /\ b == 1)) /\ k == 0
  | InvertedIntegers => ((a == 1 /\ b == 1) \/ (a == -(1) /\ b == -(1))) /\ k == 0
  | ConstantSumIntegers => ((a == 1 /\ b == 1) \/ (a == -(1) /\ b == -(1))) /\ ~ k == 0
  | ConstantDifferenceIntegers => ((a == 1 /\ b == -(1)) \/ (a == -(1) /\ b == 1)) /\ ~ k == 0
  | ConstantRatioIntegers => k == 0
  | _ => True
  end.
Lemma pair_shape x c t key : wf (ct_expr c) -> classify x c = (t, key) ->
  In t [ExclusiveOR; ExclusiveNOR; InvertedIntegers; BalancedIntegers; ConstantSumIntegers; ConstantDifferenceIntegers;
        ConstantRatioIntegers; Aggregation] ->
  ct_sense c = Equal /\ exists u a v b, ex_sens (ct_expr c) = [(u, a); (v, b)] /\ u <> v /\ pair_coefs t a b (ex_const (ct_expr c)) /\
    (t = ConstantRatioIntegers -> (key = Some u /\ Qabs a == 1) \/ (key = Some v /\ Qabs b == 1)).
Proof.
  intros W Hc T. apply classify_pair in Hc; [|exact T]. clear T. revert Hc. unfold b_pair_equal.
  destruct (ex_sens (ct_expr c)) as [|[u a] [|[v b] [|]]] eqn:Es; try discriminate.
  destruct (_ && negb (vi_fixed (tx_vi x u)) && _) eqn:E0; [|discriminate].
  apply andb_true_iff in E0. destruct E0 as [E0 _]. apply andb_true_iff in E0. destruct E0 as [E0 _]. apply csense_eqb_true in E0.
  cbv zeta. intros Hc. split; [exact E0|]. exists u, a, v, b. split; [reflexivity|]. split; [exact (pair_neq c u v a b W Es)|].
  revert Hc. set (k := ex_const (ct_expr c)).
  repeat match goal with |- (if ?q then _ else _) = _ -> _ => destruct q eqn:? end;
  intros E; injection E as <- <-; bools; cbn [pair_coefs]; (split; [|intros; try discriminate]);
  try (left; repeat split; assumption); try (right; repeat split; assumption);
  try (split; [left; split; assumption|assumption]); try (split; [right; split; assumption|assumption]); try assumption; try exact Logic.I.
  - left. split; [reflexivity|]. now apply Qeq_bool_iff.
  - right. split; [reflexivity|]. now apply Qeq_bool_iff.
Qed.
Lemma pair_coefs_sym t a b k : t <> Aggregation -> pair_coefs t a b k -> pair_coefs t b a k.
Proof. destruct t; cbn [pair_coefs]; try tauto. Qed.

Lemma binomial_shape addr x c t key : wf (ct_expr c) -> classify x c = (t, key) ->
  In t [ExclusiveOR; ExclusiveNOR; InvertedIntegers; BalancedIntegers; ConstantSumIntegers; ConstantDifferenceIntegers;
        ConstantRatioIntegers; Aggregation] ->
  exists bn, to_binomial addr c = Some bn /\ bn_const bn = ex_const (ct_expr c) /\ bn_first bn <> bn_second bn /\
    (forall y, e_eval (ct_expr c) y == bn_a1 bn * inject_Z (y (bn_first bn)) + bn_a2 bn * inject_Z (y (bn_second bn)) + bn_const bn) /\
    pair_coefs t (bn_a1 bn) (bn_a2 bn) (bn_const bn) /\ ct_sense c = Equal /\
    Permutation (ex_sens (ct_expr c)) [(bn_first bn, bn_a1 bn); (bn_second bn, bn_a2 bn)] /\
    ~ (addr (bn_second bn) < addr (bn_first bn))%N /\
    (t = ConstantRatioIntegers -> (key = Some (bn_first bn) /\ Qabs (bn_a1 bn) == 1) \/ (key = Some (bn_second bn) /\ Qabs (bn_a2 bn) == 1)).
Proof.
  intros W Hc T. destruct (pair_shape x c t key W Hc T) as [Se [u [a [v [b [Es [N [P K]]]]]]]].
  destruct (binomial_cases addr c u v a b Es N) as [bn [E1 [E2 [E3 [E4 [E5 E6]]]]]].
  exists bn. split; [exact E1|]. split; [exact E2|]. split; [exact E4|]. split; [exact E6|].
  destruct E5 as [[-> [-> [-> [-> A]]]]|[-> [-> [-> [-> A]]]]]; rewrite E2.
  - split; [exact P|]. split; [exact Se|]. split; [rewrite Es; reflexivity|]. split; [exact A|exact K].
  - split; [|split; [exact Se|split; [rewrite Es; apply perm_swap|split; [lia|]]]].
    + destruct (ctype_eq_dec t Aggregation) as [->|Q]; [exact Logic.I|now apply pair_coefs_sym].
    + intros Q. destruct (K Q); auto.
Qed.

Ltac in_two I := destruct I as [I|[I|[]]]; subst.

Lemma four_types addr x c t key val l m : wf (ct_expr c) -> classify x c = (t, key) ->
  In t [ExclusiveOR; ExclusiveNOR; InvertedIntegers; BalancedIntegers] ->
  special_moves addr t key c val = Some l -> In m l -> satisfies c (after val m).
Proof.
  intros W Hc T E I. assert (T' : In t [ExclusiveOR; ExclusiveNOR; InvertedIntegers; BalancedIntegers; ConstantSumIntegers; ConstantDifferenceIntegers; ConstantRatioIntegers; Aggregation])
    by (cbn [In] in *; intuition).
  destruct (binomial_shape addr x c t key W Hc T') as [bn [B1 [B2 [B3 [B4 [B5 [B6 _]]]]]]].
  unfold satisfies, holds. rewrite B6.
  destruct T as [<-|[<-|[<-|[<-|[]]]]]; cbn [special_moves] in E; rewrite B1 in E; cbv zeta in E; injection E as <-; in_two I;
    rewrite (eval_after c _ _ _ _ _ val _ _ B3 B4); cbn [pair_coefs] in B5; rewrite ?inject_Z_opp;
    try change (inject_Z 0) with 0; try change (inject_Z 1) with 1;
    repeat match goal with
    | H : _ \/ _ |- _ => destruct H
    | H : _ /\ _ |- _ => destruct H
    end;
    repeat match goal with H : bn_a1 bn == _ |- _ => rewrite H; clear H | H : bn_a2 bn == _ |- _ => rewrite H; clear H | H : bn_const bn == _ |- _ => rewrite H; clear H end; lra.
Qed.

Lemma qtrunc_integral q z : q == inject_Z z -> Qtrunc q = z.
Proof.
  unfold Qeq, Qtrunc. cbn [Qnum Qden inject_Z]. intros H. replace (Qnum q) with (z * Zpos (Qden q))%Z by lia. apply Z.quot_mul. lia.
Qed.

(** x + y + k = 0 when the coefficients are 1; never when they are -1. *)
Lemma sum_moves addr x c key val l m : wf (ct_expr c) -> classify x c = (ConstantSumIntegers, key) -> integral (ex_const (ct_expr c)) ->
  special_moves addr ConstantSumIntegers key c val = Some l -> In m l ->
  ((forall v a, In (v, a) (ex_sens (ct_expr c)) -> a == 1) -> satisfies c (after val m)) /\
  ((forall v a, In (v, a) (ex_sens (ct_expr c)) -> a == -(1)) -> ~ satisfies c (after val m)).
Proof.
  intros W Hc [kz Kz] E I.
  destruct (binomial_shape addr x c _ key W Hc ltac:(cbn; auto 8)) as [bn [B1 [B2 [B3 [B4 [B5 [B6 [B7 _]]]]]]]].
  cbn [special_moves] in E. rewrite B1 in E. cbv zeta in E. injection E as <-.
  assert (A : forall z, Qtrunc (- bn_const bn - inject_Z z) = (- kz - z)%Z).
  { intros z. apply qtrunc_integral. rewrite B2, Kz, inject_sub, inject_Z_opp. lra. }
  assert (I1 : In (bn_first bn, bn_a1 bn) (ex_sens (ct_expr c))) by (eapply Permutation_in; [symmetry; exact B7|now left]).
  assert (I2 : In (bn_second bn, bn_a2 bn) (ex_sens (ct_expr c))) by (eapply Permutation_in; [symmetry; exact B7|right; now left]).
  cbn [pair_coefs] in B5. destruct B5 as [_ K0]. unfold satisfies, holds. rewrite B6.
  in_two I; rewrite (eval_after c _ _ _ _ _ val _ _ B3 B4), A, ?inject_sub, ?inject_Z_opp; rewrite B2 in *;
    (split; intros H; pose proof (H _ _ I1) as H1; pose proof (H _ _ I2) as H2; rewrite H1, H2; [rewrite Kz; lra|intros Q; apply K0; lra]).
Qed.
(** y - x = k when the first coefficient is 1; never when it is -1. *)
Lemma diff_moves addr x c key val l m : wf (ct_expr c) -> classify x c = (ConstantDifferenceIntegers, key) -> integral (ex_const (ct_expr c)) ->
  special_moves addr ConstantDifferenceIntegers key c val = Some l -> In m l ->
  (first_coef addr c 1 -> satisfies c (after val m)) /\ (first_coef addr c (-(1)) -> ~ satisfies c (after val m)).
Proof.
  intros W Hc [kz Kz] E I.
  destruct (binomial_shape addr x c _ key W Hc ltac:(cbn; auto 8)) as [bn [B1 [B2 [B3 [B4 [B5 [B6 [B7 [B8 _]]]]]]]]].
  cbn [special_moves] in E. rewrite B1 in E. cbv zeta in E. injection E as <-.
  assert (A : forall z, Qtrunc (bn_const bn + inject_Z z) = (kz + z)%Z).
  { intros z. apply qtrunc_integral. rewrite B2, Kz, inject_Z_plus. lra. }
  assert (F : forall a, first_coef addr c a -> bn_a1 bn = a).
  { intros a [u [v [b [[Es L]|[Es L]]]]]; unfold to_binomial in B1; rewrite Es in B1.
    - destruct (N.ltb_spec (addr v) (addr u)); [lia|]. injection B1 as <-. reflexivity.
    - destruct (N.ltb_spec (addr u) (addr v)); [|lia]. injection B1 as <-. reflexivity. }
  cbn [pair_coefs] in B5. destruct B5 as [B5 K0]. unfold satisfies, holds. rewrite B6.
  in_two I; rewrite (eval_after c _ _ _ _ _ val _ _ B3 B4), A, ?inject_Z_plus; rewrite B2 in *;
    (split; intros H; apply F in H; rewrite H in *; destruct B5 as [[Q1 Q2]|[Q1 Q2]]; try (exfalso; lra); rewrite Q2; [rewrite Kz; lra|intros Q; apply K0; lra]).
Qed.
Lemma abs1_nonzero a : Qabs a == 1 -> ~ a == 0. Proof. intros H Q. rewrite Q in H. vm_compute in H. discriminate H. Qed.
Lemma qdiv_some a b r : qdiv a b = Some r -> ~ b == 0 /\ r = a / b.
Proof. unfold qdiv. destruct (Qeq_bool b 0) eqn:E; [discriminate|]. intros H. injection H as <-. split; [now apply Qeq_bool_neq|reflexivity]. Qed.

Lemma ratio_moves addr x c key val l m w a : wf (ct_expr c) -> classify x c = (ConstantRatioIntegers, key) ->
  (forall v b, In (v, b) (ex_sens (ct_expr c)) -> integral b) -> key = Some w -> In (w, a) (ex_sens (ct_expr c)) ->
  special_moves addr ConstantRatioIntegers key c val = Some l -> In m l -> satisfies c (after val m).
Proof.
  intros W Hc Ib Hk _ E I.
  destruct (binomial_shape addr x c _ key W Hc ltac:(cbn; auto 10)) as [bn [B1 [B2 [B3 [B4 [B5 [B6 [B7 [_ B9]]]]]]]]].
  assert (I1 : In (bn_first bn, bn_a1 bn) (ex_sens (ct_expr c))) by (eapply Permutation_in; [symmetry; exact B7|now left]).
  assert (I2 : In (bn_second bn, bn_a2 bn) (ex_sens (ct_expr c))) by (eapply Permutation_in; [symmetry; exact B7|right; now left]).
  specialize (B9 eq_refl). cbn [pair_coefs] in B5. unfold satisfies, holds. rewrite B6.
  assert (D : forall a b, Qabs b == 1 -> integral a -> exists z, - a / b == inject_Z z).
  { intros p q Hq [z Hz]. destruct (unit_cases q (proj2 (Qeq_bool_iff _ _) Hq)) as [Q|Q]; setoid_rewrite Q; setoid_rewrite Hz.
    - exists (- z)%Z. rewrite inject_Z_opp. field.
    - exists z. field. }
  cbn [special_moves] in E. rewrite B1 in E. cbv zeta in E.
  destruct B9 as [[Ek H1]|[Ek H1]]; rewrite Ek in E.
  - rewrite Nat.eqb_refl in E. destruct (qdiv _ _) as [r|] eqn:Er; [|discriminate]. injection E as <-. apply qdiv_some in Er. destruct Er as [N0 ->].
    destruct (D (bn_a2 bn) (bn_a1 bn) H1 (Ib _ _ I2)) as [z Hz].
    assert (M : - bn_a2 bn == inject_Z z * bn_a1 bn) by (rewrite <- Hz; field; exact N0).
    assert (A : forall t, Qtrunc (inject_Z t * (- bn_a2 bn / bn_a1 bn)) = (t * z)%Z) by (intros t; apply qtrunc_integral; rewrite Hz, inject_Z_mult; lra).
    in_two I; rewrite (eval_after' c _ _ _ _ _ val _ _ B3 B4), A, inject_Z_mult, B5;
      (assert (bn_a2 bn == - (inject_Z z * bn_a1 bn)) as -> by lra); ring.
  - destruct (Nat.eqb_spec (bn_second bn) (bn_first bn)) as [Q|_]; [exfalso; now apply B3|].
    destruct (qdiv _ _) as [r|] eqn:Er; [|discriminate]. injection E as <-. apply qdiv_some in Er. destruct Er as [N0 ->].
    destruct (D (bn_a1 bn) (bn_a2 bn) H1 (Ib _ _ I1)) as [z Hz].
    assert (M : - bn_a1 bn == inject_Z z * bn_a2 bn) by (rewrite <- Hz; field; exact N0).
    assert (A : forall t, Qtrunc (inject_Z t * (- bn_a1 bn / bn_a2 bn)) = (t * z)%Z) by (intros t; apply qtrunc_integral; rewrite Hz, inject_Z_mult; lra).
    in_two I; rewrite (eval_after c _ _ _ _ _ val _ _ B3 B4), A, inject_Z_mult, B5;
      (assert (bn_a1 bn == - (inject_Z z * bn_a2 bn)) as -> by lra); ring.
Qed.

(** Aggregation: the completing integer is found whenever there is one. *)
Lemma floor_half z : Qfloor (inject_Z z + (1 # 2)) = z.
Proof.
  assert (H1 : (z <= Qfloor (inject_Z z + (1 # 2)))%Z) by (rewrite <- (Qfloor_Z z) at 1; apply Qfloor_resp_le; lra).
  assert (H2 : inject_Z (Qfloor (inject_Z z + (1 # 2))) <= inject_Z z + (1 # 2)) by apply Qfloor_le.
  assert (H3 : inject_Z (Qfloor (inject_Z z + (1 # 2))) < inject_Z (z + 1)) by (rewrite inject_Z_plus; change (inject_Z 1) with 1; lra).
  rewrite <- Zlt_Qlt in H3. lia.
Qed.
Lemma aggregate_complete k a b t r z : aggregate k a b t = Some r -> a * inject_Z t + b * inject_Z z + k == 0 -> r = z.
Proof.
  unfold aggregate. destruct (qdiv _ b) as [q|] eqn:E; [|discriminate]. intros H Q. assert (R : r = Qfloor (q + (1 # 2))) by congruence. subst r. clear H. apply qdiv_some in E. destruct E as [N ->].
  assert (V : (- k - a * inject_Z t) / b == inject_Z z).
  { assert (M : - k - a * inject_Z t == b * inject_Z z) by lra. rewrite M. field. exact N. }
  rewrite (Qfloor_comp _ (inject_Z z + (1 # 2))) by (rewrite V; reflexivity). apply floor_half.
Qed.

(** The value of variable [w] stepped to a and the other variable at z. *)
Lemma aggregation_moves addr x c key val l w s : wf (ct_expr c) -> classify x c = (Aggregation, key) ->
  special_moves addr Aggregation key c val = Some l -> In w (variables c) -> s = 1%Z \/ s = (-1)%Z ->
  exists m, In m l /\ In (w, val w + s)%Z m /\
    forall y, y w = (val w + s)%Z -> satisfies c y -> satisfies c (after val m).
Proof.
  intros W Hc E Iw Hs.
  destruct (binomial_shape addr x c _ key W Hc ltac:(cbn; auto 12)) as [bn [B1 [B2 [B3 [B4 [B5 [B6 [B7 _]]]]]]]].
  assert (V : w = bn_first bn \/ w = bn_second bn).
  { unfold variables, keys in Iw. apply in_map_iff in Iw. destruct Iw as [[w' a] [<- Iw]].
    apply (Permutation_in _ B7) in Iw. cbn [fst]. destruct Iw as [Q|[Q|[]]]; injection Q as Q1 Q2; auto. }
  cbn [special_moves] in E. rewrite B1 in E. cbv zeta in E.
  destruct (both _ _) as [[[p q] [r t]]|] eqn:Eb; [|discriminate]. injection E as <-.
  unfold both in Eb.
  destruct (aggregate _ _ _ (val (bn_first bn) + 1)) as [p'|] eqn:E1; [|discriminate].
  destruct (aggregate _ _ _ (val (bn_first bn) - 1)) as [q'|] eqn:E2; [|discriminate].
  destruct (aggregate _ _ _ (val (bn_second bn) + 1)) as [r'|] eqn:E3; [|discriminate].
  destruct (aggregate _ _ _ (val (bn_second bn) - 1)) as [t'|] eqn:E4; [|discriminate].
  injection Eb as -> -> -> ->.
  unfold satisfies, holds. rewrite B6.
  destruct V as [-> | ->]; destruct Hs as [-> | ->].
  - eexists. split; [left; reflexivity|]. split; [left; reflexivity|]. intros y Hy Sy. rewrite B4, Hy in Sy.
    rewrite (eval_after c _ _ _ _ _ val _ _ B3 B4). now rewrite (aggregate_complete _ _ _ _ _ _ E1 Sy).
  - eexists. split; [right; left; reflexivity|]. split; [left; reflexivity|]. intros y Hy Sy. rewrite B4, Hy in Sy.
    rewrite (eval_after c _ _ _ _ _ val _ _ B3 B4). change (val (bn_first bn) + -1)%Z with (val (bn_first bn) - 1)%Z in Sy.
    now rewrite (aggregate_complete _ _ _ _ _ _ E2 Sy).
  - eexists. split; [right; right; left; reflexivity|]. split; [right; left; reflexivity|]. intros y Hy Sy. rewrite B4, Hy in Sy.
    rewrite (eval_after c _ _ _ _ _ val _ _ B3 B4). rewrite (aggregate_complete (bn_const bn) (bn_a2 bn) (bn_a1 bn) _ _ (y (bn_first bn)) E3); [exact Sy|lra].
  - eexists. split; [right; right; right; left; reflexivity|]. split; [right; left; reflexivity|]. intros y Hy Sy. rewrite B4, Hy in Sy.
    rewrite (eval_after c _ _ _ _ _ val _ _ B3 B4). change (val (bn_second bn) + -1)%Z with (val (bn_second bn) - 1)%Z in Sy.
    rewrite (aggregate_complete (bn_const bn) (bn_a2 bn) (bn_a1 bn) _ _ (y (bn_first bn)) E4); [exact Sy|lra].
Qed.

(** Inequalities. *)
Lemma inequality_shape addr x c t key : wf (ct_expr c) -> classify x c = (t, key) -> In t [Precedence; VariableBound] ->
  exists bn, to_binomial addr c = Some bn /\ bn_first bn <> bn_second bn /\ bn_sense bn = ct_sense c /\ ct_sense c <> Equal /\
    (forall y, e_eval (ct_expr c) y == bn_a1 bn * inject_Z (y (bn_first bn)) + bn_a2 bn * inject_Z (y (bn_second bn)) + bn_const bn) /\
    Permutation (ex_sens (ct_expr c)) [(bn_first bn, bn_a1 bn); (bn_second bn, bn_a2 bn)] /\
    (t = Precedence -> bn_a1 bn == - bn_a2 bn).
Proof.
  intros W Hc T. apply classify_inequality in Hc; [|exact T]. clear T. revert Hc. unfold b_pair_inequality.
  destruct (ex_sens (ct_expr c)) as [|[u a] [|[v b] [|]]] eqn:Es; try discriminate.
  destruct (_ && negb (vi_fixed (tx_vi x u)) && _) eqn:E0; [|discriminate].
  apply andb_true_iff in E0. destruct E0 as [E0 _]. apply andb_true_iff in E0. destruct E0 as [E0 _]. apply negb_true_iff in E0.
  intros Hc. destruct (binomial_cases addr c u v a b Es (pair_neq c u v a b W Es)) as [bn [E1 [E2 [E3 [E4 [E5 E6]]]]]].
  exists bn. split; [exact E1|]. split; [exact E4|]. split; [exact E3|].
  split; [intros Q; rewrite Q in E0; discriminate|]. split; [exact E6|].
  split; [destruct E5 as [[-> [-> [-> [-> A]]]]|[-> [-> [-> [-> A]]]]]; [reflexivity|apply perm_swap]|].
  intros ->. destruct (sense_eqb _ _ && qe a (- b)) eqn:Eq; [|discriminate]. apply andb_true_iff in Eq. destruct Eq as [_ Eq]. apply qe_iff in Eq.
  destruct E5 as [[_ [_ [-> [-> _]]]]|[_ [_ [-> [-> _]]]]]; [exact Eq|lra].
Qed.
Lemma precedence_moves addr x c key val l m : wf (ct_expr c) -> classify x c = (Precedence, key) ->
  special_moves addr Precedence key c val = Some l -> In m l -> value_kept c val m.
Proof.
  intros W Hc E I. destruct (inequality_shape addr x c _ key W Hc ltac:(cbn; auto)) as [bn [B1 [B2 [B3 [B4 [B5 [_ B6]]]]]]]. specialize (B6 eq_refl).
  cbn [special_moves] in E. rewrite B1 in E. cbv zeta in E. injection E as <-. unfold value_kept.
  in_two I; rewrite (eval_after c _ _ _ _ _ val _ _ B2 B5), B5, B6, ?inject_sub, ?inject_Z_plus; ring.
Qed.
Lemma Some_inj {A} (a b : A) : Some a = Some b -> a = b. Proof. congruence. Qed.
Lemma div_le_pos q b : 0 < b -> forall z, inject_Z z <= q / b -> b * inject_Z z <= q.
Proof. intros H z L. apply (Qmult_le_l _ _ b) in L; [|exact H]. setoid_replace (b * (q / b)) with q in L by (field; lra). exact L. Qed.
Lemma div_ge_pos q b : 0 < b -> forall z, q / b <= inject_Z z -> q <= b * inject_Z z.
Proof. intros H z L. apply (Qmult_le_l _ _ b) in L; [|exact H]. setoid_replace (b * (q / b)) with q in L by (field; lra). exact L. Qed.
Lemma div_le_neg q b : b < 0 -> forall z, inject_Z z <= q / b -> q <= b * inject_Z z.
Proof. intros H z L. assert (M : q / b == (- q) / (- b)) by (field; lra). rewrite M in L. apply (div_le_pos (- q) (- b) ltac:(lra)) in L. lra. Qed.
Lemma div_ge_neg q b : b < 0 -> forall z, q / b <= inject_Z z -> b * inject_Z z <= q.
Proof. intros H z L. assert (M : q / b == (- q) / (- b)) by (field; lra). rewrite M in L. apply (div_ge_pos (- q) (- b) ltac:(lra)) in L. lra. Qed.

Lemma bound_complete s k a b t r : s <> Equal -> complete_bound s k a b t = Some r -> holds (a * inject_Z t + b * inject_Z r + k) s 0.
Proof.
  intros S. unfold complete_bound. destruct (qdiv _ b) as [q|] eqn:E; [|discriminate]. intros H. apply Some_inj in H. subst r. apply qdiv_some in E. destruct E as [N ->].
  set (n := - k - a * inject_Z t).
  pose proof (Qfloor_le (n / b)) as Fl. pose proof (Qle_ceiling (n / b)) as Ce.
  unfold ltq. destruct (Qlt_le_dec 0 b) as [P|P]; [|destruct (Qlt_le_dec b 0) as [P'|P']; [|exfalso; apply N; lra]].
  - destruct (Qlt_le_dec b 0); [lra|]. destruct s; [| |]; cbn [csense_eqb andb orb holds]; try contradiction.
    + apply (div_le_pos _ _ P) in Fl. unfold n in *. lra.
    + apply (div_ge_pos _ _ P) in Ce. unfold n in *. lra.
  - destruct s; cbn [csense_eqb andb orb holds]; try contradiction.
    + apply (div_ge_neg _ _ P') in Ce. unfold n in *. lra.
    + apply (div_le_neg _ _ P') in Fl. unfold n in *. lra.
Qed.
Lemma holds_comp p q s : p == q -> holds p s 0 -> holds q s 0.
Proof. intros E. destruct s; cbn [holds]; rewrite E; auto. Qed.
Lemma bound_moves addr x c key val l m : wf (ct_expr c) -> classify x c = (VariableBound, key) ->
  special_moves addr VariableBound key c val = Some l -> In m l -> satisfies c (after val m).
Proof.
  intros W Hc E I. destruct (inequality_shape addr x c _ key W Hc ltac:(cbn; auto)) as [bn [B1 [B2 [B3 [B4 [B5 [B6 _]]]]]]].
  cbn [special_moves] in E. rewrite B1 in E. cbv zeta in E. rewrite B3 in E.
  destruct (both _ _) as [[[p q] [r t]]|] eqn:Eb; [|discriminate]. injection E as <-.
  unfold both in Eb.
  destruct (complete_bound _ _ _ _ (val (bn_first bn) + 1)) as [p'|] eqn:E1; [|discriminate].
  destruct (complete_bound _ _ _ _ (val (bn_first bn) - 1)) as [q'|] eqn:E2; [|discriminate].
  destruct (complete_bound _ _ _ _ (val (bn_second bn) + 1)) as [r'|] eqn:E3; [|discriminate].
  destruct (complete_bound _ _ _ _ (val (bn_second bn) - 1)) as [t'|] eqn:E4; [|discriminate].
  injection Eb as -> -> -> ->. unfold satisfies.
  destruct I as [<-|[<-|[<-|[<-|[]]]]]; (eapply holds_comp; [symmetry; apply (eval_after c _ _ _ _ _ val _ _ B2 B5)|]).
  - exact (bound_complete _ _ _ _ _ _ B4 E1).
  - exact (bound_complete _ _ _ _ _ _ B4 E2).
  - eapply holds_comp; [|exact (bound_complete _ _ _ _ _ _ B4 E3)]. lra.
  - eapply holds_comp; [|exact (bound_complete _ _ _ _ _ _ B4 E4)]. lra.
Qed.
Lemma step_offered addr x c key val l w s : wf (ct_expr c) -> classify x c = (VariableBound, key) ->
  special_moves addr VariableBound key c val = Some l -> In w (variables c) -> s = 1%Z \/ s = (-1)%Z ->
  exists m, In m l /\ In (w, val w + s)%Z m.
Proof.
  intros W Hc E Iw Hs. destruct (inequality_shape addr x c _ key W Hc ltac:(cbn; auto)) as [bn [B1 [B2 [B3 [B4 [B5 [B6 _]]]]]]].
  assert (V : w = bn_first bn \/ w = bn_second bn).
  { unfold variables, keys in Iw. apply in_map_iff in Iw. destruct Iw as [[w' a] [<- Iw]].
    apply (Permutation_in _ B6) in Iw. cbn [fst]. destruct Iw as [Q|[Q|[]]]; injection Q as Q1 Q2; auto. }
  cbn [special_moves] in E. rewrite B1 in E. cbv zeta in E.
  destruct (both _ _) as [[[p q] [r t]]|] eqn:Eb; [|discriminate]. injection E as <-.
  destruct V as [-> | ->]; destruct Hs as [-> | ->]; eexists.
  - split; [left; reflexivity|left; reflexivity].
  - split; [right; left; reflexivity|left; reflexivity].
  - split; [right; right; left; reflexivity|right; left; reflexivity].
  - split; [right; right; right; left; reflexivity|right; left; reflexivity].
Qed.

(** Soft selections and trinomial exclusive-nor. *)
Lemma classify_from x c t key : classify x c = (t, key) ->
  b_singleton c = Some (t, key) \/ b_pair_equal x c = Some (t, key) \/ b_pair_inequality x c = Some (t, key) \/
  b_trinomial x c = Some (t, key) \/ b_set c = Some (t, key) \/ b_flow x c = Some (t, key) \/ b_minmax x c = Some (t, key) \/
  b_knapsack x c = Some (t, key) \/ b_gf2 x c = Some (t, key) \/ t = GeneralLinear.
Proof.
  unfold classify. cbn [first_verdict]. intros E.
  destruct (b_singleton c) as [p|]; [left; congruence|right]. destruct (b_pair_equal x c) as [p|]; [left; congruence|right].
  destruct (b_pair_inequality x c) as [p|]; [left; congruence|right]. destruct (b_trinomial x c) as [p|]; [left; congruence|right].
  destruct (b_set c) as [p|]; [left; congruence|right]. destruct (b_flow x c) as [p|]; [left; congruence|right].
  destruct (b_minmax x c) as [p|]; [left; congruence|right]. destruct (b_knapsack x c) as [p|]; [left; congruence|right].
  destruct (b_gf2 x c) as [p|]; [left; congruence|right]. congruence.
Qed.
Ltac crush E := cbv zeta in E; repeat match type of E with (match ?q with _ => _ end) = _ => destruct q end; discriminate E.
Lemma classify_soft x c key : classify x c = (SoftSelection, key) -> b_flow x c = Some (SoftSelection, key).
Proof.
  intros H. apply classify_from in H. destruct H as [E|[E|[E|[E|[E|[E|[E|[E|[E|E]]]]]]]]]; [ | | | | |exact E| | | |discriminate E]; exfalso.
  - unfold b_singleton in E. crush E.
  - unfold b_pair_equal in E. crush E.
  - unfold b_pair_inequality in E. crush E.
  - unfold b_trinomial in E. crush E.
  - unfold b_set in E. crush E.
  - unfold b_minmax in E. crush E.
  - unfold b_knapsack in E. crush E.
  - unfold b_gf2 in E. crush E.
Qed.
Lemma classify_trinomial x c key : classify x c = (TrinomialExclusiveNOR, key) -> b_trinomial x c = Some (TrinomialExclusiveNOR, key).
Proof.
  intros H. apply classify_from in H. destruct H as [E|[E|[E|[E|[E|[E|[E|[E|[E|E]]]]]]]]]; [ | | |exact E| | | | | |discriminate E]; exfalso.
  - unfold b_singleton in E. crush E.
  - unfold b_pair_equal in E. crush E.
  - unfold b_pair_inequality in E. crush E.
  - unfold b_set in E. crush E.
  - unfold b_flow in E. crush E.
  - unfold b_minmax in E. crush E.
  - unfold b_knapsack in E. crush E.
  - unfold b_gf2 in E. crush E.
Qed.
Lemma in_with_coef (c : constr) a u q : In (u, q) (ex_sens (ct_expr c)) -> q == a -> In u (with_coef c a).
Proof. intros I E. unfold with_coef. apply in_map_iff. exists (u, q). split; [reflexivity|]. apply filter_In. split; [exact I|]. cbn [snd]. now apply qe_iff. Qed.
Lemma in_minus (c : constr) u q : In (u, q) (ex_sens (ct_expr c)) -> ~ q == 1 ->
  In u (map fst (filter (fun p => negb (qe (snd p) 1)) (ex_sens (ct_expr c)))).
Proof.
  intros I E. apply in_map_iff. exists (u, q). split; [reflexivity|]. apply filter_In. split; [exact I|]. cbn [snd].
  apply negb_true_iff. destruct (qe q 1) eqn:Q; [apply qe_iff in Q; contradiction|reflexivity].
Qed.
Lemma soft_coefs x c key : wf (ct_expr c) -> classify x c = (SoftSelection, key) -> exists k b, key = Some k /\ In (k, b) (ex_sens (ct_expr c)) /\ ct_sense c = Equal /\
  forall u a, In (u, a) (ex_sens (ct_expr c)) -> u <> k -> a + b == 0.
Proof.
  intros W H. apply classify_soft in H. unfold b_flow in H. cbv zeta in H.
  destruct (_ && forallb _ _) eqn:E0 in H; [|discriminate H]. apply andb_true_iff in E0. destruct E0 as [Eq U].
  apply csense_eqb_true in Eq. rewrite forallb_forall in U.
  destruct (forallb _ _) in H; [|destruct (_ && _) in H; discriminate H].
  set (minus := map fst (filter (fun p => negb (qe (snd p) 1)) (ex_sens (ct_expr c)))) in *.
  set (plus := with_coef c 1) in *.
  assert (Cs : forall u a, In (u, a) (ex_sens (ct_expr c)) -> (a == 1 /\ In u plus) \/ (a == -(1) /\ In u minus)).
  { intros u a I. destruct (unit_cases a (U _ I)) as [Q|Q].
    - left. split; [exact Q|]. eapply in_with_coef; eauto.
    - right. split; [exact Q|]. eapply in_minus; [exact I|]. rewrite Q. discriminate. }
  assert (InP : forall u, In u plus -> exists a, In (u, a) (ex_sens (ct_expr c)) /\ a == 1).
  { intros u I. unfold plus, with_coef in I. apply in_map_iff in I. destruct I as [[u' a] [<- I]]. apply filter_In in I. destruct I as [I Q]. apply qe_iff in Q. eauto. }
  assert (InM : forall u, In u minus -> exists a, In (u, a) (ex_sens (ct_expr c)) /\ a == -(1)).
  { intros u I. unfold minus in I. apply in_map_iff in I. destruct I as [[u' a] [<- I]]. apply filter_In in I. destruct I as [I Q].
    apply negb_true_iff, qe_false in Q. cbn [snd] in Q. destruct (unit_cases a (U _ I)) as [Q'|Q']; [contradiction|eauto]. }
  assert (P1 : forall k, plus = [k] -> exists b, In (k, b) (ex_sens (ct_expr c)) /\ forall u a, In (u, a) (ex_sens (ct_expr c)) -> u <> k -> a + b == 0).
  { intros k Ek. destruct (InP k) as [b [Ib Hb]]; [rewrite Ek; now left|]. exists b. split; [exact Ib|]. intros u a I N.
    destruct (Cs u a I) as [[Q J]|[Q J]]; [rewrite Ek in J; destruct J as [J|[]]; congruence|]. rewrite Q, Hb. reflexivity. }
  assert (P2 : forall k, minus = [k] -> exists b, In (k, b) (ex_sens (ct_expr c)) /\ forall u a, In (u, a) (ex_sens (ct_expr c)) -> u <> k -> a + b == 0).
  { intros k Ek. destruct (InM k) as [b [Ib Hb]]; [rewrite Ek; now left|]. exists b. split; [exact Ib|]. intros u a I N.
    destruct (Cs u a I) as [[Q J]|[Q J]]; [|rewrite Ek in J; destruct J as [J|[]]; congruence]. rewrite Q, Hb. reflexivity. }
  assert (G : exists k, key = Some k /\ (plus = [k] \/ minus = [k])).
  { clear - H. clearbody plus minus. destruct plus as [|p1 [|p2 ps]]; [discriminate| |]; destruct minus as [|m1 [|m2 ms]]; try discriminate;
      repeat match type of H with (if ?q then _ else _) = _ => destruct q end; try discriminate; injection H as <-; eauto. }
  destruct G as [k [-> [G|G]]].
  - destruct (P1 k G) as [b [B1 B2]]. exists k, b. auto.
  - destruct (P2 k G) as [b [B1 B2]]. exists k, b. auto.
Qed.
(** Soft selection: a usable move changes both variables, in opposite directions of the sum. *)
Lemma soft_moves addr x c key vs ac b l m : wf (ct_expr c) -> classify x c = (SoftSelection, key) ->
  (forall v, In v (variables c) -> (0 <= va_value (vs v) <= 1)%Z) ->
  special_moves addr SoftSelection key c (fun v => va_value (vs v)) = Some l -> In m l ->
  move_flag (rule_of SoftSelection) vs ac b m <> 0%Z -> value_kept c (fun v => va_value (vs v)) m.
Proof.
  intros W Hc B E I F. destruct (soft_coefs x c key W Hc) as [k [b' [-> [Ik [_ Co]]]]].
  destruct (special_soft _ _ _ _ _ _ E I) as [u [k' [Ek [Iu [Nu M]]]]]. injection Ek as <-.
  unfold variables, keys in Iu. apply in_map_iff in Iu. destruct Iu as [[u' a] [<- Iu]]. cbn [fst] in *.
  specialize (Co u' a Iu Nu).
  assert (Ck : coef (ex_sens (ct_expr c)) k = b') by (unfold coef; now rewrite (in_find _ _ _ W Ik)).
  assert (Cu : coef (ex_sens (ct_expr c)) u' = a) by (unfold coef; now rewrite (in_find _ _ _ W Iu)).
  assert (Bk := B k ltac:(apply in_map_iff; exists (k, b'); auto)).
  assert (Bu := B u' ltac:(apply in_map_iff; exists (u', a); auto)).
  apply flag_nonzero in F. destruct F as [_ [_ [F _]]]. specialize (F eq_refl).
  assert (P : proper m) by (unfold proper; destruct M as [-> | ->]; cbn [map fst]; (apply NoDup_cons; [intros [Q|[]]; congruence|apply NoDup_cons; [intros []|apply NoDup_nil]])).
  unfold value_kept, after. rewrite !eval_lin, (lin_apply _ m W _ P).
  unfold has_same in F. destruct M as [-> | ->]; cbn [existsb fst snd] in F; apply orb_false_iff in F; destruct F as [F1 F2];
    apply orb_false_iff in F2; destruct F2 as [F2 _]; apply Z.eqb_neq in F1; apply Z.eqb_neq in F2; cbn [delta]; rewrite Ck, Cu.
  - replace (va_value (vs u')) with 1%Z by lia. replace (va_value (vs k)) with 1%Z by lia. change (inject_Z (0 - 1)) with (-(1)). lra.
  - replace (va_value (vs u')) with 0%Z by lia. replace (va_value (vs k)) with 0%Z by lia. change (inject_Z (1 - 0)) with 1. lra.
Qed.

Fixpoint coef_sum (l : sens) : Q := match l with [] => 0 | p :: tl => snd p + coef_sum tl end.
Lemma two_valued (p q : Q) (l : sens) : ~ p == q ->
  let n (a : Q) := length (filter (fun e => qe (snd e) a) l) in
  (n p + n q <= length l)%nat /\ ((n p + n q = length l)%nat -> coef_sum l == inject_Z (Z.of_nat (n p)) * p + inject_Z (Z.of_nat (n q)) * q).
Proof.
  intros N. induction l as [|[v a] tl IH]; cbv zeta in *; cbn [filter snd length coef_sum]; [split; [lia|intros _; change (inject_Z (Z.of_nat 0)) with 0; ring]|].
  destruct IH as [L IH]. destruct (qe a p) eqn:Ep.
  - apply qe_iff in Ep. destruct (qe a q) eqn:Eq; [apply qe_iff in Eq; exfalso; apply N; rewrite <- Ep; exact Eq|]. cbn [length].
    split; [lia|]. intros H. rewrite IH by lia. rewrite Nat2Z.inj_succ, <- Z.add_1_l, inject_Z_plus, Ep. change (inject_Z 1) with 1. lra.
  - destruct (qe a q) eqn:Eq; cbn [length]; [apply qe_iff in Eq|split; [lia|intros H; lia]].
    split; [lia|]. intros H. rewrite IH by lia. rewrite (Nat2Z.inj_succ (length (filter (fun e => qe (snd e) q) tl))), <- Z.add_1_l, inject_Z_plus, Eq. change (inject_Z 1) with 1. lra.
Qed.
Lemma trinomial_sum x c key : classify x c = (TrinomialExclusiveNOR, key) ->
  ct_sense c = Equal /\ exists u a v b w d, ex_sens (ct_expr c) = [(u, a); (v, b); (w, d)] /\ a + b + d == 0.
Proof.
  intros H. apply classify_trinomial in H. unfold b_trinomial in H.
  destruct (_ && forallb _ _) eqn:E0 in H; [|discriminate H].
  apply andb_true_iff in E0. destruct E0 as [E0 _]. apply andb_true_iff in E0. destruct E0 as [E0 _]. apply andb_true_iff in E0. destruct E0 as [L Eq].
  apply csense_eqb_true in Eq. split; [exact Eq|]. apply Nat.eqb_eq in L.
  assert (G : coef_sum (ex_sens (ct_expr c)) == 0).
  { assert (F : forall p q a b k, ~ p == q -> with_coef c p = [a; b] -> with_coef c q = [k] -> coef_sum (ex_sens (ct_expr c)) == 2 * p + q).
    { intros p q a b k N E1 E2. destruct (two_valued p q (ex_sens (ct_expr c)) N) as [_ T].
      apply (f_equal (@length nat)) in E1. apply (f_equal (@length nat)) in E2. unfold with_coef in E1, E2. rewrite map_length in E1, E2.
      rewrite E1, E2 in T. rewrite T by (cbn; lia). change (inject_Z (Z.of_nat (length [a; b]))) with 2. change (inject_Z (Z.of_nat (length [k]))) with 1. lra. }
    assert (G : (exists a b k, with_coef c 1 = [a; b] /\ with_coef c (-(2)) = [k]) \/ (exists a b k, with_coef c (-(1)) = [a; b] /\ with_coef c 2 = [k])).
    { clear - H. destruct (with_coef c 1) as [|a1 [|b1 [|]]]; destruct (with_coef c (-(2))) as [|k1 [|]];
        destruct (with_coef c (-(1))) as [|a2 [|b2 [|]]]; destruct (with_coef c 2) as [|k2 [|]]; try discriminate H; eauto 10. }
    destruct G as [[a [b [k [E1 E2]]]]|[a [b [k [E1 E2]]]]].
    - rewrite (F 1 (-(2)) a b k ltac:(discriminate) E1 E2). reflexivity.
    - rewrite (F (-(1)) 2 a b k ltac:(discriminate) E1 E2). reflexivity. }
  destruct (ex_sens (ct_expr c)) as [|[u a] [|[v b] [|[w d] [|]]]]; try discriminate L.
  exists u, a, v, b, w, d. split; [reflexivity|]. cbn [coef_sum snd] in G. lra.
Qed.
Lemma trinomial_moves addr x c key val l m : wf (ct_expr c) -> classify x c = (TrinomialExclusiveNOR, key) ->
  special_moves addr TrinomialExclusiveNOR key c val = Some l -> In m l ->
  (satisfies c (after val m) <-> ex_const (ct_expr c) == 0).
Proof.
  intros W Hc E I. destruct (trinomial_sum x c key Hc) as [Se [u [a [v [b [w [d [Es Sm]]]]]]]].
  cbn [special_moves] in E. rewrite Es in E. injection E as <-.
  unfold wf, keys in W. rewrite Es in W. cbn [map fst] in W. inversion W as [|? ? H1 H2]; subst. inversion H2 as [|? ? H3 H4]; subst.
  assert (N1 : u <> v) by (intros ->; apply H1; now left). assert (N2 : u <> w) by (intros ->; apply H1; right; now left).
  assert (N3 : v <> w) by (intros ->; apply H3; now left).
  assert (V : forall z, e_eval (ct_expr c) (after val [(u, z); (v, z); (w, z)]) == (a + b + d) * inject_Z z + ex_const (ct_expr c)).
  { intros z. rewrite eval_lin, Es. cbn [lin]. unfold after, apply_move, set_val. cbn [fold_left fst snd]. rewrite !Nat.eqb_refl.
    destruct (Nat.eqb_spec u v); [contradiction|]. destruct (Nat.eqb_spec u w); [contradiction|]. destruct (Nat.eqb_spec v w); [contradiction|]. ring. }
  unfold satisfies, holds. rewrite Se. in_two I; rewrite V, Sm; split; intros Q; lra.
Qed.

(** No division by zero. *)
Lemma qdiv_ok a b : ~ b == 0 -> exists r, qdiv a b = Some r.
Proof. intros N. unfold qdiv. destruct (Qeq_bool b 0) eqn:E; [apply Qeq_bool_iff in E; contradiction|eauto]. Qed.
Lemma moves_defined addr x c t key val : wf (ct_expr c) -> classify x c = (t, key) -> special t ->
  (forall v a, In (v, a) (ex_sens (ct_expr c)) -> ~ a == 0) -> exists l, special_moves addr t key c val = Some l.
Proof.
  intros W Hc T NZ.
  assert (Ag : forall k a b z, ~ b == 0 -> exists r, aggregate k a b z = Some r).
  { intros k a b z N. unfold aggregate. destruct (qdiv_ok (- k - a * inject_Z z) b N) as [r ->]. eauto. }
  assert (Cb : forall s k a b z, ~ b == 0 -> exists r, complete_bound s k a b z = Some r).
  { intros s k a b z N. unfold complete_bound. destruct (qdiv_ok (- k - a * inject_Z z) b N) as [r ->]. eauto. }
  assert (Pair : In t [ExclusiveOR; ExclusiveNOR; InvertedIntegers; BalancedIntegers; ConstantSumIntegers; ConstantDifferenceIntegers; ConstantRatioIntegers; Aggregation] ->
            exists l, special_moves addr t key c val = Some l).
  { intros T'. destruct (binomial_shape addr x c t key W Hc T') as [bn [B1 [B2 [B3 [B4 [B5 [B6 [B7 [_ B9]]]]]]]]].
    assert (N1 : ~ bn_a1 bn == 0) by (eapply NZ, Permutation_in; [symmetry; exact B7|now left]).
    assert (N2 : ~ bn_a2 bn == 0) by (eapply NZ, Permutation_in; [symmetry; exact B7|right; now left]).
    destruct T' as [<-|[<-|[<-|[<-|[<-|[<-|[<-|[<-|[]]]]]]]]]; cbn [special_moves]; rewrite B1; cbv zeta; eauto.
    - destruct (match key with Some w => _ | None => _ end).
      + destruct (qdiv_ok (- bn_a2 bn) (bn_a1 bn) N1) as [r ->]. eauto.
      + destruct (qdiv_ok (- bn_a1 bn) (bn_a2 bn) N2) as [r ->]. eauto.
    - destruct (Ag (bn_const bn) (bn_a1 bn) (bn_a2 bn) (val (bn_first bn) + 1)%Z N2) as [r1 ->].
      destruct (Ag (bn_const bn) (bn_a1 bn) (bn_a2 bn) (val (bn_first bn) - 1)%Z N2) as [r2 ->].
      destruct (Ag (bn_const bn) (bn_a2 bn) (bn_a1 bn) (val (bn_second bn) + 1)%Z N1) as [r3 ->].
      destruct (Ag (bn_const bn) (bn_a2 bn) (bn_a1 bn) (val (bn_second bn) - 1)%Z N1) as [r4 ->]. cbn [both]. eauto. }
  unfold special in T. cbn [In] in T. decompose [or] T; clear T; try match goal with H : False |- _ => destruct H end; subst t;
    try (apply Pair; cbn [In]; auto 12; fail).
  - destruct (inequality_shape addr x c _ key W Hc ltac:(cbn; auto)) as [bn [B1 _]]. cbn [special_moves]. rewrite B1. cbv zeta. eauto.
  - destruct (inequality_shape addr x c _ key W Hc ltac:(cbn; auto)) as [bn [B1 [B2 [B3 [B4 [B5 [B6 _]]]]]]].
    assert (N1 : ~ bn_a1 bn == 0) by (eapply NZ, Permutation_in; [symmetry; exact B6|now left]).
    assert (N2 : ~ bn_a2 bn == 0) by (eapply NZ, Permutation_in; [symmetry; exact B6|right; now left]).
    cbn [special_moves]. rewrite B1. cbv zeta.
    destruct (Cb (bn_sense bn) (bn_const bn) (bn_a1 bn) (bn_a2 bn) (val (bn_first bn) + 1)%Z N2) as [r1 ->].
    destruct (Cb (bn_sense bn) (bn_const bn) (bn_a1 bn) (bn_a2 bn) (val (bn_first bn) - 1)%Z N2) as [r2 ->].
    destruct (Cb (bn_sense bn) (bn_const bn) (bn_a2 bn) (bn_a1 bn) (val (bn_second bn) + 1)%Z N1) as [r3 ->].
    destruct (Cb (bn_sense bn) (bn_const bn) (bn_a2 bn) (bn_a1 bn) (val (bn_second bn) - 1)%Z N1) as [r4 ->]. cbn [both]. eauto.
  - cbn [special_moves]. destruct (soft_coefs x c key W Hc) as [k [b [-> _]]]. eauto.
  - cbn [special_moves]. destruct (trinomial_sum x c key Hc) as [_ [u [a [v [b [w [d [-> _]]]]]]]]. eauto.
Qed.
