From Coq Require Import List ZArith QArith Bool Lia Arith Lqa Permutation Sorted.
From Verif Require Import UnionFindModel UnionFindSpec.
Import ListNotations.

(** * Connectivity facts *)
Lemma conn_mono ps qs x y : incl ps qs -> conn ps x y -> conn qs x y.
Proof.
  intros Hi H. induction H; eauto using conn.
Qed.

Lemma conn_add ps u v x y :
  conn (ps ++ [(u, v)]) x y <->
  conn ps x y \/ (conn ps x u /\ conn ps v y) \/ (conn ps x v /\ conn ps u y).
Proof.
  split.
  - intros H. induction H.
    + left. constructor.
    + apply in_app_or in H as [H|[[= -> ->]|[]]].
      * left. now constructor.
      * right. left. split; constructor 1.
    + destruct IHconn as [H1|[[H1 H2]|[H1 H2]]].
      * left. now constructor 3.
      * right. right. split; now constructor 3.
      * right. left. split; now constructor 3.
    + destruct IHconn1 as [H1|[[H1 H2]|[H1 H2]]];
      destruct IHconn2 as [G1|[[G1 G2]|[G1 G2]]]; eauto 8 using conn.
  - assert (Hi : incl ps (ps ++ [(u, v)])) by (intros p Hp; apply in_or_app; now left).
    assert (Hu : conn (ps ++ [(u, v)]) u v).
    { apply conn_pair. apply in_or_app. right. now left. }
    intros [H|[[H1 H2]|[H1 H2]]].
    + eapply conn_mono; eauto.
    + eapply conn_trans; [eapply conn_mono; eauto|].
      eapply conn_trans; [exact Hu|]. eapply conn_mono; eauto.
    + eapply conn_trans; [eapply conn_mono; eauto|].
      eapply conn_trans; [apply conn_sym; exact Hu|]. eapply conn_mono; eauto.
Qed.

Lemma conn_incl_conn ps qs x y :
  (forall a b, In (a, b) ps -> conn qs a b) -> conn ps x y -> conn qs x y.
Proof. intros H C. induction C; eauto using conn. Qed.

(** * Roots *)
Inductive Root (u : uf) : nat -> nat -> Prop :=
| Root_here x : uf_has u x = false -> Root u x x
| Root_up x r : uf_has u x = true -> Root u (uf_parent u x) r -> Root u x r.

Lemma Root_fun u x r : Root u x r -> forall r', Root u x r' -> r = r'.
Proof.
  induction 1 as [x H|x r H HR IH]; intros r' H'; inversion H'; subst; try congruence. auto.
Qed.

Lemma Root_is_root u x r : Root u x r -> uf_has u r = false.
Proof. induction 1; auto. Qed.

(** Invariant: rank function decreasing along parents, roots have rank 0, ranks
    bounded by [b]; two elements have the same root iff connected. *)
Record Inv (u : uf) (rk : nat -> nat) (b : nat) (ps : list (nat * nat)) : Prop := {
  inv_dec : forall x, uf_has u x = true -> (rk (uf_parent u x) < rk x)%nat;
  inv_root : forall x, uf_has u x = false -> rk x = 0%nat;
  inv_bnd : forall x, (rk x <= b)%nat;
  inv_conn : forall x y rx ry, Root u x rx -> Root u y ry -> (rx = ry <-> conn ps x y)
}.

Lemma Root_total u rk b ps : Inv u rk b ps -> forall x, exists r, Root u x r.
Proof.
  intros HI x. remember (rk x) as n eqn:En. revert x En.
  induction n as [n IH] using (well_founded_induction lt_wf). intros x ->.
  destruct (uf_has u x) eqn:E.
  - destruct (IH (rk (uf_parent u x)) (inv_dec _ _ _ _ HI x E) _ eq_refl) as [r Hr].
    exists r. now constructor 2.
  - exists x. now constructor.
Qed.

Lemma Root_conn u rk b ps x r : Inv u rk b ps -> Root u x r -> conn ps x r.
Proof.
  intros HI HR. apply (inv_conn _ _ _ _ HI x r r r HR); [|reflexivity].
  constructor. eapply Root_is_root; eauto.
Qed.

(** Setting the parent of a non-root to its root changes no root. *)
Lemma Root_compress u x r :
  Root u x r -> uf_has u x = true ->
  forall y s, Root u y s ->
              Root (mkUf (upd (uf_parent u) x r) (uf_has u) (uf_size u)) y s.
Proof.
  intros HR Hx y s HS. induction HS as [y Hy|y s Hy HS IH].
  - constructor. exact Hy.
  - constructor 2; [exact Hy|]. cbn [uf_parent]. unfold upd.
    destruct (Nat.eqb_spec y x) as [->|N].
    + assert (r = s) by (eapply Root_fun; [exact HR|constructor 2; auto]). subst s.
      constructor. cbn. eapply Root_is_root; eauto.
    + exact IH.
Qed.

Lemma compress_inv u rk b ps x r :
  Inv u rk b ps -> Root u x r -> uf_has u x = true ->
  Inv (mkUf (upd (uf_parent u) x r) (uf_has u) (uf_size u)) rk b ps.
Proof.
  intros HI HR Hx. constructor.
  - intros y Hy. cbn in *. unfold upd. destruct (Nat.eqb_spec y x) as [->|N].
    + rewrite (inv_root _ _ _ _ HI r) by (eapply Root_is_root; eauto).
      pose proof (inv_dec _ _ _ _ HI x Hx). lia.
    + now apply (inv_dec _ _ _ _ HI).
  - apply (inv_root _ _ _ _ HI).
  - apply (inv_bnd _ _ _ _ HI).
  - intros y z ry rz Hy Hz.
    destruct (Root_total _ _ _ _ HI y) as [ry' Hy'].
    destruct (Root_total _ _ _ _ HI z) as [rz' Hz'].
    assert (ry' = ry) by (eapply Root_fun; [exact (Root_compress u x r HR Hx _ _ Hy')|exact Hy]).
    assert (rz' = rz) by (eapply Root_fun; [exact (Root_compress u x r HR Hx _ _ Hz')|exact Hz]).
    subst. eapply (inv_conn _ _ _ _ HI); eauto.
Qed.

(** root terminates within rank+1 calls, returns the root, keeps the invariant,
    the root function and the set of linked elements. *)
Lemma root_spec fuel : forall u rk b ps x,
  Inv u rk b ps -> (rk x < fuel)%nat ->
  exists r u', uf_root fuel u x = Some (r, u') /\ Root u x r /\ Inv u' rk b ps /\
    (forall y s, Root u y s -> Root u' y s) /\ (forall y, uf_has u' y = uf_has u y) /\
    (forall y, uf_size u' y = uf_size u y).
Proof.
  induction fuel as [|f IH]; intros u rk b ps x HI Hf; [lia|].
  cbn [uf_root]. destruct (uf_has u x) eqn:E.
  - destruct (IH u rk b ps (uf_parent u x) HI) as (r & u' & H1 & H2 & H3 & H4 & H5 & H6).
    { pose proof (inv_dec _ _ _ _ HI x E). lia. }
    rewrite H1. eexists _, _. split; [reflexivity|].
    assert (HR : Root u x r) by (constructor 2; auto).
    split; [exact HR|]. assert (E' : uf_has u' x = true) by (rewrite H5; exact E).
    split; [apply (compress_inv u' rk b ps x r H3 (H4 _ _ HR) E')|]. split; [|split; [exact H5|exact H6]].
    intros y s Hy. apply Root_compress; auto.
  - exists x, u. split; [reflexivity|]. split; [constructor; exact E|]. auto.
Qed.

Lemma unite_spec fuel u rk b ps x y :
  Inv u rk b ps -> (b < fuel)%nat ->
  exists res u', uf_unite fuel u x y = Some (res, u') /\
    (res = true <-> ~ conn ps x y) /\
    exists rk', Inv u' rk' (S b) (ps ++ [(x, y)]).
Proof.
  intros HI Hf. unfold uf_unite.
  destruct (root_spec fuel u rk b ps x HI) as (rx & u1 & -> & Rx & I1 & K1 & L1 & _).
  { pose proof (inv_bnd _ _ _ _ HI x). lia. }
  destruct (root_spec fuel u1 rk b ps y I1) as (ry & u2 & -> & Ry & I2 & K2 & L2 & _).
  { pose proof (inv_bnd _ _ _ _ HI y). lia. }
  apply K1, K2 in Rx. apply K2 in Ry. clear K1 K2 L1 L2 I1 HI u u1.
  destruct (Nat.eqb_spec rx ry) as [E|E].
  - exists false, u2. split; [reflexivity|].
    assert (C : conn ps x y) by (apply (inv_conn _ _ _ _ I2 x y rx ry); auto).
    split; [split; [discriminate|tauto]|].
    exists rk. destruct I2 as [A1 A2 A3 A4]. constructor; auto.
    intros z w rz rw Hz Hw. rewrite (A4 z w rz rw Hz Hw). rewrite conn_add.
    split; [tauto|]. intros [H|[[H1 H2]|[H1 H2]]]; eauto using conn.
  - assert (C : ~ conn ps x y).
    { intros C. apply E. apply (inv_conn _ _ _ _ I2 x y rx ry); auto. }
    eexists true, _. split; [reflexivity|]. split; [tauto|].
    (* abstract over the swap *)
    assert (Hsw : exists a c ra rc,
        (if (uf_size u2 x <? uf_size u2 y)%Z then ry else rx) = ra /\
        (if (uf_size u2 x <? uf_size u2 y)%Z then rx else ry) = rc /\
        Root u2 a ra /\ Root u2 c rc /\ ra <> rc /\
        (forall z w, conn (ps ++ [(x, y)]) z w <-> conn (ps ++ [(a, c)]) z w)).
    { destruct (uf_size u2 x <? uf_size u2 y)%Z.
      - exists y, x, ry, rx. repeat split; auto.
        + rewrite !conn_add. tauto.
        + rewrite !conn_add. tauto.
      - exists x, y, rx, ry. repeat split; auto. }
    destruct Hsw as (a & c & ra & rc & -> & -> & Ra & Rc & Hne & Hcc).
    set (sz := upd (uf_size u2) x (uf_size u2 x + uf_size u2 y)%Z). clearbody sz.
    set (u3 := mkUf (upd (uf_parent u2) rc ra) (upd (uf_has u2) rc true) sz).
    assert (Hra : uf_has u2 ra = false) by (eapply Root_is_root; eauto).
    assert (Hrc : uf_has u2 rc = false) by (eapply Root_is_root; eauto).
    (* new roots *)
    assert (HN : forall z r, Root u2 z r -> Root u3 z (if Nat.eqb r rc then ra else r)).
    { intros z r HR. induction HR as [z Hz|z r Hz HR IH].
      - destruct (Nat.eqb_spec z rc) as [->|N].
        + constructor 2; cbn; unfold upd; rewrite Nat.eqb_refl; [reflexivity|].
          constructor. cbn. unfold upd. destruct (Nat.eqb_spec ra rc); [contradiction|exact Hra].
        + constructor. cbn. unfold upd. destruct (Nat.eqb_spec z rc); [contradiction|exact Hz].
      - constructor 2; cbn; unfold upd.
        + destruct (Nat.eqb_spec z rc); [reflexivity|exact Hz].
        + destruct (Nat.eqb_spec z rc) as [->|N]; [congruence|exact IH]. }
    pose (rk' := fun z => if in_dec Nat.eq_dec rc (match uf_root fuel u2 z with Some (r, _) => [r] | None => [] end)
                     then S (rk z) else rk z).
    exists rk'.
    assert (Hrk : forall z r, Root u2 z r -> rk' z = if Nat.eqb r rc then S (rk z) else rk z).
    { intros z r HR. unfold rk'.
      destruct (root_spec fuel u2 rk b ps z I2) as (r' & u' & -> & Hr' & _).
      { pose proof (inv_bnd _ _ _ _ I2 z). lia. }
      assert (r' = r) by (eapply Root_fun; eauto). subst r'.
      destruct (in_dec Nat.eq_dec rc [r]) as [[->|[]]|Hn].
      - now rewrite Nat.eqb_refl.
      - destruct (Nat.eqb_spec r rc) as [->|]; [|reflexivity]. exfalso. apply Hn. now left. }
    clearbody rk'. constructor.
    + intros z Hz. cbn in Hz |- *. unfold upd in Hz |- *.
      destruct (Nat.eqb_spec z rc) as [E0|N].
      * rewrite E0. rewrite (Hrk ra ra) by (constructor; exact Hra).
        rewrite (Hrk rc rc) by (constructor; exact Hrc).
        rewrite Nat.eqb_refl. destruct (Nat.eqb_spec ra rc); [contradiction|].
        rewrite (inv_root _ _ _ _ I2 ra Hra). lia.
      * destruct (Root_total _ _ _ _ I2 (uf_parent u2 z)) as [r Hr].
        rewrite (Hrk _ _ Hr). rewrite (Hrk z r) by (constructor 2; auto).
        pose proof (inv_dec _ _ _ _ I2 z Hz). destruct (Nat.eqb r rc); lia.
    + intros z Hz. cbn in Hz. unfold upd in Hz.
      destruct (Nat.eqb_spec z rc) as [E0|N]; [discriminate|].
      rewrite (Hrk z z) by (constructor; exact Hz).
      destruct (Nat.eqb_spec z rc); [contradiction|]. now apply (inv_root _ _ _ _ I2).
    + intros z. destruct (Root_total _ _ _ _ I2 z) as [r Hr]. rewrite (Hrk _ _ Hr).
      pose proof (inv_bnd _ _ _ _ I2 z). destruct (Nat.eqb r rc); lia.
    + intros z w rz rw Hz Hw.
      destruct (Root_total _ _ _ _ I2 z) as [rz0 Hz0].
      destruct (Root_total _ _ _ _ I2 w) as [rw0 Hw0].
      assert (rz = if Nat.eqb rz0 rc then ra else rz0) by (eapply Root_fun; [exact Hz|apply HN; exact Hz0]).
      assert (rw = if Nat.eqb rw0 rc then ra else rw0) by (eapply Root_fun; [exact Hw|apply HN; exact Hw0]).
      rewrite Hcc, conn_add.
      pose proof (inv_conn _ _ _ _ I2 z w rz0 rw0 Hz0 Hw0) as Q1.
      pose proof (inv_conn _ _ _ _ I2 z a rz0 ra Hz0 Ra) as Q2.
      pose proof (inv_conn _ _ _ _ I2 z c rz0 rc Hz0 Rc) as Q3.
      pose proof (inv_conn _ _ _ _ I2 a w ra rw0 Ra Hw0) as Q4.
      pose proof (inv_conn _ _ _ _ I2 c w rc rw0 Rc Hw0) as Q5.
      rewrite <- Q1, <- Q2, <- Q3, <- Q4, <- Q5.
      destruct (Nat.eqb_spec rz0 rc); destruct (Nat.eqb_spec rw0 rc); subst; split;
        try tauto; try (intros [?|[[? ?]|[? ?]]]; congruence); intros ?; subst;
        try (right; left; split; congruence); try (right; right; split; congruence);
        try (left; congruence).
Qed.

Lemma setup_has els x : uf_has (uf_setup els) x = false.
Proof.
  unfold uf_setup. assert (H : uf_has uf_init x = false) by reflexivity.
  revert H. generalize uf_init. induction els as [|e tl IH]; intros u H; cbn [fold_left]; [exact H|].
  apply IH. cbn. unfold upd. destruct (Nat.eqb x e); auto.
Qed.

Lemma setup_inv els : Inv (uf_setup els) (fun _ => 0%nat) 0 [].
Proof.
  constructor.
  - intros x H. rewrite setup_has in H. discriminate.
  - reflexivity.
  - lia.
  - intros x y rx ry Hx Hy.
    inversion Hx; subst; [|rewrite setup_has in *; discriminate].
    inversion Hy; subst; [|rewrite setup_has in *; discriminate].
    split; [intros ->; constructor|].
    intros C. clear -C. induction C; auto; try tauto.
    + destruct H.
    + etransitivity; eauto.
Qed.

Lemma is_same_spec fuel u rk b ps x y :
  Inv u rk b ps -> (b < fuel)%nat ->
  exists res u', uf_is_same fuel u x y = Some (res, u') /\ (res = true <-> conn ps x y) /\ Inv u' rk b ps.
Proof.
  intros HI Hf. unfold uf_is_same.
  destruct (root_spec fuel u rk b ps x HI) as (rx & u1 & -> & Rx & I1 & K1 & L1 & _).
  { pose proof (inv_bnd _ _ _ _ HI x). lia. }
  destruct (root_spec fuel u1 rk b ps y I1) as (ry & u2 & -> & Ry & I2 & K2 & L2 & _).
  { pose proof (inv_bnd _ _ _ _ HI y). lia. }
  eexists _, _. split; [reflexivity|]. split; [|exact I2].
  rewrite Nat.eqb_eq. apply (inv_conn _ _ _ _ I1 x y); auto.
Qed.

(** Meaning of one result given the pairs united before the call. *)
Definition res_ok (ps : list (nat * nat)) (o : uf_op) (r : uf_res) : Prop :=
  match o, r with
  | OpRoot x, RRoot r => conn ps x r
  | OpIsSame x y, RBool b => b = true <-> conn ps x y
  | OpUnite x y, RBool b => b = true <-> ~ conn ps x y
  | _, _ => False
  end.

Fixpoint all_ok (ps : list (nat * nat)) (ops : list uf_op) (rs : list uf_res) : Prop :=
  match ops, rs with
  | [], [] => True
  | o :: ops', r :: rs' => res_ok ps o r /\ all_ok (ps ++ united [o]) ops' rs'
  | _, _ => False
  end.

Lemma run_spec fuel ops : forall u rk b ps,
  Inv u rk b ps -> (b + length ops < fuel)%nat ->
  exists rs u' rk', uf_run fuel u ops = Some (rs, u') /\ all_ok ps ops rs /\
                Inv u' rk' (b + length ops) (ps ++ united ops).
Proof.
  induction ops as [|o tl IH]; intros u rk b ps HI Hf; cbn [uf_run length] in *.
  - exists [], u, rk. split; [reflexivity|]. split; [exact I|].
    rewrite Nat.add_0_r. cbn [united flat_map]. rewrite app_nil_r. exact HI.
  - assert (Hstep : exists r u' rk', uf_step fuel u o = Some (r, u') /\ res_ok ps o r /\
                Inv u' rk' (S b) (ps ++ united [o])).
    { destruct o as [x|x y|x y]; cbn [uf_step].
      - destruct (root_spec fuel u rk b ps x HI) as (r & u' & -> & R & I1 & _).
        { pose proof (inv_bnd _ _ _ _ HI x). lia. }
        eexists _, _, rk. split; [reflexivity|]. split; [exact (Root_conn _ _ _ _ _ _ HI R)|].
        unfold united. cbn [flat_map]. rewrite ?app_nil_r. destruct I1; constructor; auto.
      - destruct (is_same_spec fuel u rk b ps x y HI) as (r & u' & -> & R & I1); [lia|].
        eexists _, _, rk. split; [reflexivity|]. split; [exact R|].
        unfold united. cbn [flat_map]. rewrite ?app_nil_r. destruct I1; constructor; auto.
      - destruct (unite_spec fuel u rk b ps x y HI) as (r & u' & -> & R & rk' & I1); [lia|].
        eexists _, _, rk'. split; [reflexivity|]. split; [exact R|]. exact I1. }
    destruct Hstep as (r & u' & rk' & -> & Hr & HI').
    destruct (IH u' rk' (S b) _ HI') as (rs & u'' & rk'' & -> & Hall & HI''); [lia|].
    eexists _, _, _. split; [reflexivity|]. split; [split; auto|].
    replace (b + S (length tl))%nat with (S b + length tl)%nat by lia.
    rewrite <- app_assoc in HI''. unfold united in *. cbn [flat_map] in *.
    rewrite app_nil_r in HI''. exact HI''.
Qed.

Lemma all_ok_nth ops : forall ps rs i o, all_ok ps ops rs -> nth_error ops i = Some o ->
  exists r, nth_error rs i = Some r /\ res_ok (ps ++ united (firstn i ops)) o r.
Proof.
  induction ops as [|o' tl IH]; intros ps rs i o Ha Hn.
  - destruct i; discriminate.
  - destruct rs as [|r rs]; [contradiction|]. destruct Ha as [Hr Ha]. destruct i as [|i]; cbn in *.
    + injection Hn as ->. exists r. split; [reflexivity|]. now rewrite app_nil_r.
    + destruct (IH _ _ _ _ Ha Hn) as (r' & H1 & H2). exists r'. split; [exact H1|].
      rewrite <- app_assoc in H2. unfold united in *. cbn [flat_map] in *.
      rewrite app_nil_r in H2. exact H2.
Qed.

Lemma uf_history els ops :
  exists rs u, uf_run (S (length ops)) (uf_setup els) ops = Some (rs, u) /\
    length rs = length ops /\
    (forall i x y, nth_error ops i = Some (OpIsSame x y) ->
       exists b, nth_error rs i = Some (RBool b) /\ (b = true <-> conn (united (firstn i ops)) x y)) /\
    (forall i x y, nth_error ops i = Some (OpUnite x y) ->
       exists b, nth_error rs i = Some (RBool b) /\ (b = true <-> ~ conn (united (firstn i ops)) x y)) /\
    (forall i x, nth_error ops i = Some (OpRoot x) ->
       exists r, nth_error rs i = Some (RRoot r) /\ conn (united (firstn i ops)) x r).
Proof.
  destruct (run_spec (S (length ops)) ops _ _ 0 [] (setup_inv els)) as (rs & u & rk & H1 & H2 & _); [lia|].
  exists rs, u. split; [exact H1|]. split.
  { clear H1. revert rs H2. generalize (@nil (nat * nat)).
    induction ops as [|o tl IH]; intros ps [|r rs] H; cbn in *; try tauto. f_equal. eapply IH. apply H. }
  repeat split.
  - intros i x y Hn. destruct (all_ok_nth _ _ _ _ _ H2 Hn) as ([r|b] & Hr & Hok); [contradiction|]. eauto.
  - intros i x y Hn. destruct (all_ok_nth _ _ _ _ _ H2 Hn) as ([r|b] & Hr & Hok); [contradiction|]. eauto.
  - intros i x Hn. destruct (all_ok_nth _ _ _ _ _ H2 Hn) as ([r|b] & Hr & Hok); [|contradiction]. eauto.
Qed.

(** Canonical representatives: two root queries with no unite in between agree iff connected. *)
Lemma uf_root_canonical els ops x y :
  exists rs u rx u1 ry u2,
    uf_run (S (length ops)) (uf_setup els) ops = Some (rs, u) /\
    uf_root (S (length ops)) u x = Some (rx, u1) /\
    uf_root (S (length ops)) u1 y = Some (ry, u2) /\
    (rx = ry <-> conn (united ops) x y).
Proof.
  destruct (run_spec (S (length ops)) ops _ _ 0 [] (setup_inv els)) as (rs & u & rk & H1 & _ & HI); [lia|].
  cbn [Nat.add app] in HI.
  destruct (root_spec (S (length ops)) u rk _ _ x HI) as (rx & u1 & E1 & Rx & I1 & K1 & _).
  { pose proof (inv_bnd _ _ _ _ HI x). lia. }
  destruct (root_spec (S (length ops)) u1 rk _ _ y I1) as (ry & u2 & E2 & Ry & I2 & K2 & _).
  { pose proof (inv_bnd _ _ _ _ HI y). lia. }
  exists rs, u, rx, u1, ry, u2. repeat split; auto.
  - intros ->. apply (inv_conn _ _ _ _ I1 x y ry ry); auto.
  - intros C. apply (inv_conn _ _ _ _ I1 x y rx ry); auto.
Qed.
