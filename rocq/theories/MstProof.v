From Coq Require Import List ZArith QArith Bool Lia Arith Lqa Permutation Sorted.
From Verif Require Import UnionFindModel UnionFindSpec UnionFindProof.
Import ListNotations.

(** * Component labels and counting *)
Definition lab_step (f : nat -> nat) (p : nat * nat) : nat -> nat :=
  fun x => if Nat.eqb (f x) (f (snd p)) then f (fst p) else f x.
Definition labs (ps : list (nat * nat)) : nat -> nat := fold_left lab_step ps (fun x => x).

Lemma labs_snoc ps p x : labs (ps ++ [p]) x = lab_step (labs ps) p x.
Proof. unfold labs. now rewrite fold_left_app. Qed.

Lemma labs_conn ps : forall x y, labs ps x = labs ps y <-> conn ps x y.
Proof.
  induction ps as [|[u v] ps IH] using rev_ind; intros x y.
  - unfold labs; cbn. split; [intros ->; constructor|].
    intros C. induction C; auto; try tauto. { destruct H. } etransitivity; eauto.
  - rewrite !labs_snoc. unfold lab_step; cbn [fst snd]. rewrite conn_add.
    rewrite <- !IH.
    destruct (Nat.eqb_spec (labs ps x) (labs ps v)); destruct (Nat.eqb_spec (labs ps y) (labs ps v));
      (split; [intros H|intros [H|[[H1 H2]|[H1 H2]]]]); try congruence;
      first [left; congruence|right; left; split; congruence|right; right; split; congruence].
Qed.

Lemma conn_dec ps x y : {conn ps x y} + {~ conn ps x y}.
Proof.
  destruct (Nat.eq_dec (labs ps x) (labs ps y)) as [E|E]; [left|right]; rewrite <- labs_conn; assumption.
Qed.

Definition ncomp (V : list nat) (ps : list (nat * nat)) : nat :=
  length (nodup Nat.eq_dec (map (labs ps) V)).

Lemma length_remove (x : nat) l : NoDup l -> In x l -> S (length (remove Nat.eq_dec x l)) = length l.
Proof.
  induction l as [|a l IH]; intros Hnd Hin; [destruct Hin|].
  inversion Hnd as [|? ? Hni Hnd']; subst. cbn [remove].
  destruct (Nat.eq_dec x a) as [->|N].
  - rewrite notin_remove by assumption. reflexivity.
  - cbn [length]. rewrite IH; auto. destruct Hin; [congruence|assumption].
Qed.

Lemma NoDup_remove_nat (x : nat) l : NoDup l -> NoDup (remove Nat.eq_dec x l).
Proof.
  induction l as [|a l IH]; intros Hnd; cbn [remove]; [constructor|].
  inversion Hnd as [|? ? Hni Hnd']; subst. destruct (Nat.eq_dec x a); [auto|].
  constructor; auto. intros Hin. apply in_remove in Hin. tauto.
Qed.

Lemma ncomp_step V ps u v : In u V -> In v V -> ~ conn ps u v ->
  S (ncomp V (ps ++ [(u, v)])) = ncomp V ps.
Proof.
  intros Hu Hv Hc. unfold ncomp.
  set (A := nodup Nat.eq_dec (map (labs ps) V)).
  assert (HA : NoDup A) by apply NoDup_nodup.
  assert (HinA : forall l, In l A <-> exists z, In z V /\ labs ps z = l).
  { intros l. unfold A. rewrite nodup_In, in_map_iff. firstorder. }
  assert (Hne : labs ps u <> labs ps v) by (rewrite labs_conn; exact Hc).
  rewrite <- (length_remove (labs ps v) A HA) by (apply HinA; eauto).
  f_equal. apply Permutation_length, NoDup_Permutation.
  - apply NoDup_nodup.
  - now apply NoDup_remove_nat.
  - intros l. rewrite nodup_In, in_map_iff. split.
    + intros (z & Hz & Hin). rewrite labs_snoc in Hz. unfold lab_step in Hz; cbn [fst snd] in Hz.
      destruct (Nat.eqb_spec (labs ps z) (labs ps v)) as [E|E].
      * subst l. apply in_in_remove; [congruence|]. apply HinA. eauto.
      * subst l. apply in_in_remove; [congruence|]. apply HinA. eauto.
    + intros Hin. apply in_remove in Hin as [Hin Hn]. apply HinA in Hin as (z & Hz & E).
      exists z. split; [|exact Hz]. rewrite labs_snoc. unfold lab_step; cbn [fst snd].
      destruct (Nat.eqb_spec (labs ps z) (labs ps v)); congruence.
Qed.

Lemma ncomp_mono V ps qs :
  (forall x y, conn ps x y -> conn qs x y) -> (ncomp V qs <= ncomp V ps)%nat.
Proof.
  intros H. unfold ncomp.
  pose (h := fun l => match find (fun z => Nat.eqb (labs ps z) l) V with
                      | Some z => labs qs z | None => 0%nat end).
  rewrite <- (map_length h (nodup Nat.eq_dec (map (labs ps) V))).
  apply NoDup_incl_length; [apply NoDup_nodup|].
  intros l Hl. apply nodup_In, in_map_iff in Hl as (z & <- & Hz).
  apply in_map_iff. exists (labs ps z). split.
  - unfold h. destruct (find (fun z0 => Nat.eqb (labs ps z0) (labs ps z)) V) as [w|] eqn:E.
    + apply find_some in E as [_ E]. apply Nat.eqb_eq in E.
      apply labs_conn, H. now apply labs_conn.
    + exfalso. apply find_none with (x := z) in E; [|exact Hz].
      rewrite Nat.eqb_refl in E. discriminate.
  - apply nodup_In, in_map, Hz.
Qed.

Lemma ncomp_nil V : NoDup V -> ncomp V [] = length V.
Proof.
  intros H. unfold ncomp. f_equal.
  replace (map (labs []) V) with V by (symmetry; apply map_id).
  now apply nodup_fixed_point.
Qed.

Lemma ncomp_app_one V ps p : (ncomp V ps <= S (ncomp V (ps ++ [p])))%nat.
Proof.
  destruct p as [u v]. unfold ncomp.
  set (B := nodup Nat.eq_dec (map (labs (ps ++ [(u, v)])) V)).
  change (S (length B)) with (length (labs ps v :: B)).
  apply NoDup_incl_length; [apply NoDup_nodup|].
  intros l Hl. apply nodup_In, in_map_iff in Hl as (z & <- & Hz).
  destruct (Nat.eq_dec (labs ps z) (labs ps v)) as [->|N]; [now left|].
  right. apply nodup_In, in_map_iff. exists z. split; [|exact Hz].
  rewrite labs_snoc. unfold lab_step; cbn [snd]. destruct (Nat.eqb_spec (labs ps z) (labs ps v)); congruence.
Qed.

Lemma ncomp_lower V ps : NoDup V -> (length V <= ncomp V ps + length ps)%nat.
Proof.
  intros HV. induction ps as [|p ps IH] using rev_ind.
  - rewrite ncomp_nil by exact HV. lia.
  - pose proof (ncomp_app_one V ps p). rewrite app_length. simpl. lia.
Qed.

(** Incremental independence. *)
Definition indep (ps : list (nat * nat)) : Prop :=
  forall l1 u v l2, ps = l1 ++ (u, v) :: l2 -> ~ conn l1 u v.

Lemma indep_snoc ps u v : indep ps -> ~ conn ps u v -> indep (ps ++ [(u, v)]).
Proof.
  intros H Hc l1 a b l2 E.
  destruct l2 as [|q l2] using rev_ind.
  - apply app_inj_tail in E as [-> [= -> ->]]. exact Hc.
  - clear IHl2. rewrite app_comm_cons, app_assoc in E. apply app_inj_tail in E as [E _].
    eapply H; eauto.
Qed.

Lemma indep_prefix ps qs : indep (ps ++ qs) -> indep ps.
Proof.
  intros H l1 u v l2 ->. apply (H l1 u v (l2 ++ qs)). now rewrite <- app_assoc.
Qed.

Lemma ncomp_indep V ps : NoDup V -> (forall a b, In (a, b) ps -> In a V /\ In b V) ->
  indep ps -> (ncomp V ps + length ps = length V)%nat.
Proof.
  intros HV. induction ps as [|[u v] ps IH] using rev_ind; intros Hin Hi.
  - rewrite ncomp_nil by exact HV. simpl. lia.
  - assert (Hc : ~ conn ps u v) by (apply (Hi ps u v []); reflexivity).
    destruct (Hin u v) as [Hu Hv]; [apply in_or_app; right; now left|].
    pose proof (ncomp_step V ps u v Hu Hv Hc).
    rewrite app_length; cbn [length]. rewrite <- IH.
    + lia.
    + intros a b Hab. apply Hin, in_or_app. now left.
    + eapply indep_prefix; eauto.
Qed.

Lemma ends_app l1 l2 : ends (l1 ++ l2) = ends l1 ++ ends l2.
Proof. apply map_app. Qed.
Lemma ends_length l : length (ends l) = length l.
Proof. apply map_length. Qed.
Lemma in_ends e l : In e l -> In (e_fst e, e_snd e) (ends l).
Proof. intros H. apply in_map_iff. eauto. Qed.
Lemma in_ends_inv a b l : In (a, b) (ends l) -> exists e, In e l /\ e_fst e = a /\ e_snd e = b.
Proof. intros H. apply in_map_iff in H as (e & [= <- <-] & H). eauto. Qed.

Lemma acyclic_indep es : acyclic es -> indep (ends es).
Proof.
  intros H l1 u v l2 E C. unfold ends in E.
  apply map_eq_app in E as (e1 & e2 & -> & E1 & E2).
  apply map_eq_cons in E2 as (e & e3 & -> & E3 & E4). injection E3 as <- <-.
  apply (H e1 e e3 eq_refl). rewrite ends_app. unfold ends at 1. rewrite E1.
  eapply conn_mono; [|exact C]. intros p Hp. apply in_or_app. now left.
Qed.

Lemma indep_acyclic V es : NoDup V -> (forall e, In e es -> In (e_fst e) V /\ In (e_snd e) V) ->
  indep (ends es) -> acyclic es.
Proof.
  intros HV Hin Hi l1 e l2 -> C.
  assert (H0 : forall a b, In (a, b) (ends (l1 ++ e :: l2)) -> In a V /\ In b V).
  { intros a b Hab. apply in_ends_inv in Hab as (e' & Hin' & <- & <-). auto. }
  assert (H1 := ncomp_indep V (ends (l1 ++ e :: l2)) HV H0 Hi).
  rewrite ends_length, app_length in H1. cbn [length] in H1.
  assert (H2 := ncomp_lower V (ends (l1 ++ l2)) HV). rewrite ends_length, app_length in H2.
  assert (H3 : (ncomp V (ends (l1 ++ l2)) <= ncomp V (ends (l1 ++ e :: l2)))%nat); [|lia].
  apply ncomp_mono. intros x y. apply conn_incl_conn. intros a b Hab.
  apply in_ends_inv in Hab as (e' & Hin' & <- & <-).
  apply in_app_or in Hin' as [Hin'|[<-|Hin']].
  - apply conn_pair, in_ends, in_or_app. now left.
  - exact C.
  - apply conn_pair, in_ends, in_or_app. now right.
Qed.

(** * Sorting *)
Definition wle (e f : edge) : Prop := (e_weight e <= e_weight f)%Q.

Lemma insert_edge_perm e l : Permutation (insert_edge e l) (e :: l).
Proof.
  induction l as [|f tl IH]; cbn [insert_edge]; [reflexivity|].
  destruct (Qlt_le_dec (e_weight f) (e_weight e)); [|reflexivity].
  rewrite IH. apply perm_swap.
Qed.
Lemma sort_edges_perm l : Permutation (sort_edges l) l.
Proof. induction l as [|e tl IH]; cbn [sort_edges]; [reflexivity|]. rewrite insert_edge_perm. now constructor. Qed.

Lemma insert_edge_sorted e l : StronglySorted wle l -> StronglySorted wle (insert_edge e l).
Proof.
  intros H. induction H as [|f tl Hs IH Hf]; cbn [insert_edge].
  - repeat constructor.
  - destruct (Qlt_le_dec (e_weight f) (e_weight e)) as [L|L].
    + constructor; [exact IH|]. rewrite Forall_forall in *. intros g Hg.
      eapply Permutation_in in Hg; [|apply insert_edge_perm].
      destruct Hg as [<-|Hg]; [unfold wle; lra|auto].
    + constructor; [constructor; auto|]. constructor; [exact L|].
      rewrite Forall_forall in *. intros g Hg. specialize (Hf g Hg). unfold wle in *; lra.
Qed.
Lemma sort_edges_sorted l : StronglySorted wle (sort_edges l).
Proof. induction l; cbn [sort_edges]; [constructor|]. now apply insert_edge_sorted. Qed.

(** * The Kruskal loop *)
Definition upto (t : Q) (es : list edge) : list edge := filter (fun e => if Qlt_le_dec t (e_weight e) then false else true) es.

Lemma in_upto t es e : In e (upto t es) <-> In e es /\ (e_weight e <= t)%Q.
Proof.
  unfold upto. rewrite filter_In. destruct (Qlt_le_dec t (e_weight e)); split; intros [H1 H2]; split; auto; try discriminate; lra.
Qed.

Lemma conn_upto_mono t t' f f' x y : (t <= t')%Q -> incl f f' ->
  conn (ends (upto t f)) x y -> conn (ends (upto t' f')) x y.
Proof.
  intros Ht Hi. apply conn_mono. intros [a b] H. apply in_ends_inv in H as (e & H & <- & <-).
  apply in_upto in H as [H1 H2]. apply in_ends, in_upto. split; [auto|lra].
Qed.

Lemma conn_all_upto t f x y : (forall e, In e f -> (e_weight e <= t)%Q) ->
  conn (ends f) x y -> conn (ends (upto t f)) x y.
Proof.
  intros H. apply conn_mono. intros [a b] Hab. apply in_ends_inv in Hab as (e & He & <- & <-).
  apply in_ends, in_upto. auto.
Qed.

Lemma one_component V ps x y : ncomp V ps = 1%nat -> In x V -> In y V -> conn ps x y.
Proof.
  unfold ncomp. intros H Hx Hy. rewrite <- labs_conn.
  destruct (nodup Nat.eq_dec (map (labs ps) V)) as [|l [|]] eqn:E; try discriminate.
  assert (H1 : In (labs ps x) [l]) by (rewrite <- E; apply nodup_In, in_map, Hx).
  assert (H2 : In (labs ps y) [l]) by (rewrite <- E; apply nodup_In, in_map, Hy).
  destruct H1 as [<-|[]]. destruct H2 as [<-|[]]. reflexivity.
Qed.

Section Kruskal.
  Variable V : list nat.
  Hypothesis HV : NoDup V.

  Lemma kruskal_spec fuel es : forall u rk b added,
    (forall e, In e es -> In (e_fst e) V /\ In (e_snd e) V) ->
    (forall e, In e added -> In (e_fst e) V /\ In (e_snd e) V) ->
    StronglySorted wle es ->
    (forall e f, In e added -> In f es -> wle e f) ->
    Inv u rk b (ends added) -> (b + length es < fuel)%nat ->
    indep (ends added) ->
    exists new rest,
      kruskal fuel (length V) u added es = Some (added ++ new) /\
      Permutation (new ++ rest) es /\ indep (ends (added ++ new)) /\
      (forall e, In e es -> conn (ends (upto (e_weight e) (added ++ new))) (e_fst e) (e_snd e)).
  Proof.
    induction es as [|e tl IH]; intros u rk b added Hes Had Hs Hle HI Hf Hi; cbn [kruskal].
    - exists [], []. rewrite app_nil_r. repeat split; auto. intros e [].
    - inversion Hs as [|? ? Hs' Hfa]; subst. rewrite Forall_forall in Hfa. cbn [length] in Hf.
      destruct (is_same_spec fuel u rk b (ends added) (e_fst e) (e_snd e) HI) as (r & u1 & -> & Hr & I1); [lia|].
      assert (Hes' : forall f, In f tl -> In (e_fst f) V /\ In (e_snd f) V) by (intros; apply Hes; now right).
      destruct r.
      + destruct (IH u1 rk b added) as (new & rest & H1 & H2 & H3 & H4); auto; [|lia|].
        { intros f g Hf' Hg. apply Hle; [exact Hf'|now right]. }
        exists new, (e :: rest). split; [exact H1|]. split; [|split; [exact H3|]].
        * rewrite <- H2. symmetry. apply Permutation_middle.
        * intros f [<-|Hin]; [|auto].
          apply conn_upto_mono with (t := e_weight e) (f := added); [lra|apply incl_appl, incl_refl|].
          apply conn_all_upto; [|apply Hr; reflexivity].
          intros g Hg. apply (Hle g e Hg). now left.
      + assert (Hnc : ~ conn (ends added) (e_fst e) (e_snd e)) by (intros C; apply Hr in C; discriminate).
        destruct (unite_spec fuel u1 rk b (ends added) (e_fst e) (e_snd e) I1) as (r' & u2 & -> & _ & rk' & I2); [lia|].
        assert (Hends : ends added ++ [(e_fst e, e_snd e)] = ends (added ++ [e])) by (rewrite ends_app; reflexivity).
        rewrite Hends in I2.
        assert (Had' : forall f, In f (added ++ [e]) -> In (e_fst f) V /\ In (e_snd f) V).
        { intros f Hf'. apply in_app_or in Hf' as [Hf'|[<-|[]]]; auto. apply Hes. now left. }
        assert (Hi' : indep (ends (added ++ [e]))) by (rewrite <- Hends; apply indep_snoc; auto).
        assert (Hself : forall l, conn (ends (upto (e_weight e) (added ++ [e] ++ l))) (e_fst e) (e_snd e)).
        { intros l. apply conn_pair, in_ends, in_upto. split; [|lra].
          apply in_or_app. right. now left. }
        assert (Hle' : forall g h, In g (added ++ [e]) -> In h tl -> wle g h).
        { intros g h Hg Hh. apply in_app_or in Hg as [Hg|[<-|[]]]; [|auto]. apply Hle; [exact Hg|now right]. }
        destruct (Nat.eqb_spec (S (length added)) (length V - 1)) as [Eb|Eb].
        * exists [e], tl. split; [reflexivity|]. split; [reflexivity|]. split; [exact Hi'|].
          intros f [<-|Hin].
          { apply (Hself []). }
          apply conn_all_upto.
          { intros g Hg. apply (Hle' g f Hg Hin). }
          destruct (Hes' f Hin). apply (one_component V); auto.
          pose proof (ncomp_indep V (ends (added ++ [e])) HV) as HN.
          rewrite ends_length, app_length in HN. cbn [length] in HN.
          assert (HN' := HN ltac:(intros a b0 Hab; apply in_ends_inv in Hab as (g & Hg & <- & <-); auto) Hi').
          lia.
        * destruct (IH u2 rk' (S b) (added ++ [e])) as (new & rest & H1 & H2 & H3 & H4); auto; [lia|].
          exists (e :: new), rest. rewrite <- app_assoc in *. cbn [app] in *.
          split; [exact H1|]. split; [now constructor|]. split; [exact H3|].
          intros f [<-|Hin]; [apply (Hself new)|auto].
  Qed.

  (** A forest whose light parts are connected at least as much is at most as heavy. *)
  Lemma sum_dominated A : forall B,
    StronglySorted wle A -> StronglySorted wle B -> length A = length B ->
    (forall t, (length (upto t B) <= length (upto t A))%nat) -> (weight A <= weight B)%Q.
  Proof.
    induction A as [|a A IH]; intros [|b B] HA HB Hl Hc; try discriminate Hl; cbn [weight]; [lra|].
    inversion HA as [|? ? HA' HaA]; inversion HB as [|? ? HB' HbB]; subst.
    rewrite Forall_forall in HaA, HbB.
    assert (Hab : (e_weight a <= e_weight b)%Q).
    { specialize (Hc (e_weight b)). unfold upto at 1 in Hc. cbn [filter] in Hc.
      destruct (Qlt_le_dec (e_weight b) (e_weight b)) as [L|_]; [lra|]. cbn [length] in Hc.
      destruct (upto (e_weight b) (a :: A)) as [|x l] eqn:E; [cbn in Hc; lia|].
      assert (Hx : In x (upto (e_weight b) (a :: A))) by (rewrite E; now left).
      apply in_upto in Hx as [[<-|Hx] Hw]; [exact Hw|]. specialize (HaA x Hx). unfold wle in HaA. lra. }
    assert (weight A <= weight B)%Q; [|lra].
    apply IH; auto. intros t. specialize (Hc t). unfold upto in *. cbn [filter] in Hc.
    destruct (Qlt_le_dec t (e_weight b)) as [L|L].
    - assert (E : filter (fun e => if Qlt_le_dec t (e_weight e) then false else true) B = []).
      { destruct (filter _ B) as [|x l] eqn:E; [reflexivity|]. exfalso.
        assert (Hx : In x (upto t B)) by (unfold upto; rewrite E; now left).
        apply in_upto in Hx as [Hx Hw]. specialize (HbB x Hx). unfold wle in HbB. lra. }
      rewrite E. cbn. lia.
    - destruct (Qlt_le_dec t (e_weight a)) as [L'|L']; [lra|]. cbn [length] in Hc. lia.
  Qed.

  Lemma weight_perm A B : Permutation A B -> (weight A == weight B)%Q.
  Proof. induction 1; cbn [weight]; lra. Qed.

  Lemma upto_perm_length t A B : Permutation A B -> length (upto t A) = length (upto t B).
  Proof.
    unfold upto. induction 1; cbn [filter]; repeat destruct (Qlt_le_dec _ _); cbn [length]; congruence.
  Qed.

  Lemma acyclic_filter p es : acyclic es -> acyclic (filter p es).
  Proof.
    intros H l1 e l2 E C.
    assert (Hsplit : exists k1 k2, es = k1 ++ e :: k2 /\ incl l1 k1 /\ incl l2 k2).
    { clear -E. revert l1 E. induction es as [|f es IH]; intros l1 E; cbn [filter] in E.
      - destruct l1; discriminate.
      - destruct (p f).
        + destruct l1 as [|g l1]; injection E as -> E.
          * exists [], es. repeat split; [apply incl_nil_l|]. intros x Hx. subst l2.
            apply filter_In in Hx. tauto.
          * destruct (IH l1 E) as (k1 & k2 & -> & H1 & H2). exists (g :: k1), k2.
            repeat split; auto. intros x [->|Hx]; [now left|right; auto].
        + destruct (IH l1 E) as (k1 & k2 & -> & H1 & H2). exists (f :: k1), k2.
          repeat split; auto. intros x Hx. right. auto. }
    destruct Hsplit as (k1 & k2 & -> & H1 & H2). apply (H k1 e k2 eq_refl).
    eapply conn_mono; [|exact C]. intros [a b] Hab. apply in_ends_inv in Hab as (g & Hg & <- & <-).
    apply in_ends. apply in_app_or in Hg as [Hg|Hg]; apply in_or_app; auto.
  Qed.

  Lemma forest_count es : (forall e, In e es -> In (e_fst e) V /\ In (e_snd e) V) ->
    indep (ends es) -> (ncomp V (ends es) + length es = length V)%nat.
  Proof.
    intros H Hi. rewrite <- (ends_length es). apply ncomp_indep; auto.
    intros a b Hab. apply in_ends_inv in Hab as (g & Hg & <- & <-). auto.
  Qed.

  Lemma mst_correct es : (forall e, In e es -> In (e_fst e) V /\ In (e_snd e) V) ->
    exists T, mst (S (length es)) V es = Some T /\ spanning_forest T es /\
      forall F, spanning_forest F es -> (weight T <= weight F)%Q.
  Proof.
    intros Hes. unfold mst.
    assert (Hp := sort_edges_perm es).
    destruct (kruskal_spec (S (length es)) (sort_edges es) (uf_setup V) (fun _ => 0%nat) 0 []) as (T & rest & H1 & H2 & H3 & H4).
    - intros e He. apply Hes. eapply Permutation_in; eauto.
    - intros e [].
    - apply sort_edges_sorted.
    - intros e f [].
    - apply setup_inv.
    - rewrite (Permutation_length Hp). lia.
    - intros l1 u v l2 E. destruct l1; discriminate.
    - cbn [app] in *. exists T. split; [exact H1|].
      assert (HTin : forall e, In e T -> In e es).
      { intros e He. eapply Permutation_in; [exact Hp|]. eapply Permutation_in; [exact H2|].
        apply in_or_app. now left. }
      assert (HTV : forall e, In e T -> In (e_fst e) V /\ In (e_snd e) V) by auto.
      assert (Hlight : forall e, In e es -> conn (ends (upto (e_weight e) T)) (e_fst e) (e_snd e)).
      { intros e He. apply H4. eapply Permutation_in; [symmetry; exact Hp|exact He]. }
      assert (Hup : forall t f, incl (upto t f) f) by (intros t f e He; apply in_upto in He; tauto).
      assert (Hconn : forall x y, conn (ends T) x y <-> conn (ends es) x y).
      { intros x y. split.
        - apply conn_mono. intros [a b] Hab. apply in_ends_inv in Hab as (g & Hg & <- & <-).
          apply in_ends. auto.
        - apply conn_incl_conn. intros a b Hab. apply in_ends_inv in Hab as (g & Hg & <- & <-).
          eapply conn_mono; [|apply Hlight; exact Hg].
          intros [a b] H. apply in_ends_inv in H as (h & Hh & <- & <-). apply in_ends. eapply Hup; eauto. }
      split.
      + split; [exists rest; rewrite H2; exact Hp|]. split; [|exact Hconn].
        eapply indep_acyclic; eauto.
      + intros F ((restF & HF1) & HF2 & HF3).
        assert (HFin : forall e, In e F -> In e es).
        { intros e He. eapply Permutation_in; [exact HF1|]. apply in_or_app. now left. }
        assert (HiT : forall t, indep (ends (upto t T))).
        { intros t. apply acyclic_indep, acyclic_filter. eapply indep_acyclic; eauto. }
        assert (HiF : forall t, indep (ends (upto t F))).
        { intros t. apply acyclic_indep, acyclic_filter, HF2. }
        rewrite <- (weight_perm _ _ (sort_edges_perm T)), <- (weight_perm _ _ (sort_edges_perm F)).
        apply sum_dominated; try apply sort_edges_sorted.
        * rewrite (Permutation_length (sort_edges_perm T)), (Permutation_length (sort_edges_perm F)).
          pose proof (forest_count T HTV H3).
          pose proof (forest_count F ltac:(auto) (acyclic_indep _ HF2)).
          assert (ncomp V (ends T) = ncomp V (ends F)).
          { apply Nat.le_antisymm; apply ncomp_mono; intros x y C.
            - now apply Hconn, HF3.
            - now apply HF3, Hconn. }
          lia.
        * intros t. rewrite (upto_perm_length t _ _ (sort_edges_perm T)), (upto_perm_length t _ _ (sort_edges_perm F)).
          pose proof (forest_count (upto t T) ltac:(intros e He; apply HTV; eapply Hup; eauto) (HiT t)).
          pose proof (forest_count (upto t F) ltac:(intros e He; apply Hes, HFin; eapply Hup; eauto) (HiF t)).
          assert (ncomp V (ends (upto t T)) <= ncomp V (ends (upto t F)))%nat; [|lia].
          apply ncomp_mono. intros x y. apply conn_incl_conn. intros a b Hab.
          apply in_ends_inv in Hab as (g & Hg & <- & <-). apply in_upto in Hg as [Hg Hw].
          apply conn_upto_mono with (t := e_weight g) (f := T); [exact Hw|apply incl_refl|].
          apply Hlight. auto.
  Qed.
End Kruskal.
