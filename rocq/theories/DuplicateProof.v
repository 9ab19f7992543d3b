(** Sorting, equality of expressions, duplicated constraints and implicit
    equalities (C28, C29). *)
From Coq Require Import List ZArith NArith QArith Bool Lia Lqa Permutation Sorted.
From Verif Require Import ExprModel ExprSpec ExprProof ConstraintModel ConstraintSpec VariableModel TypeModel TypeSpec PresolveModel
  PresolveSpec DuplicateModel DuplicateSpec.
Import ListNotations.
Local Open Scope nat_scope.

(** * Sorting *)
Section Sorting.
  Context {A : Type} (lt : A -> A -> bool) (R : A -> A -> Prop).
  Hypotheses (T : forall a b, lt b a = true -> R b a) (F : forall a b, lt b a = false -> R a b)
             (Tr : forall a b c, R a b -> R b c -> R a c).
  Lemma insert_perm a l : Permutation (insert_sorted lt a l) (a :: l).
  Proof.
    induction l as [|b tl IH]; cbn [insert_sorted]; [reflexivity|]. destruct (lt b a); [|reflexivity].
    etransitivity; [apply perm_skip, IH|apply perm_swap].
  Qed.
  Lemma sort_perm l : Permutation (stable_sort lt l) l.
  Proof. induction l as [|a tl IH]; cbn; [reflexivity|]. etransitivity; [apply insert_perm|now apply perm_skip]. Qed.
  Lemma insert_ordered a l : StronglySorted R l -> StronglySorted R (insert_sorted lt a l).
  Proof.
    induction 1 as [|b tl S IH H]; cbn [insert_sorted]; [constructor; constructor|]. destruct (lt b a) eqn:E.
    - constructor; [exact IH|]. apply Forall_forall. intros x I. apply (Permutation_in _ (insert_perm a tl)) in I as [<-|I].
      + now apply T.
      + rewrite Forall_forall in H. auto.
    - apply F in E. constructor; [constructor; auto|]. constructor; [exact E|]. rewrite Forall_forall in *.
      intros x I. apply Tr with b; auto.
  Qed.
  Lemma sort_ordered l : StronglySorted R (stable_sort lt l).
  Proof. induction l; cbn; [constructor|now apply insert_ordered]. Qed.
End Sorting.

(** * Equal expressions *)
Lemma find_erase s v w : v <> w -> sens_find (sens_erase s v) w = sens_find s w.
Proof.
  intros D. induction s as [|[u a] tl IH]; cbn [sens_erase sens_find]; [reflexivity|].
  destruct (Nat.eqb_spec u v) as [->|D1].
  - destruct (Nat.eqb_spec v w); [congruence|reflexivity].
  - cbn [sens_find]. now rewrite IH.
Qed.
Lemma erase_length s v a : sens_find s v = Some a -> S (length (sens_erase s v)) = length s.
Proof.
  induction s as [|[u b] tl IH]; cbn [sens_erase sens_find]; [discriminate|].
  destruct (Nat.eqb_spec u v) as [->|D]; [reflexivity|]. intros H. cbn [length]. now rewrite IH.
Qed.
Lemma erase_nodup s v : NoDup (map fst s) -> NoDup (map fst (sens_erase s v)).
Proof.
  induction s as [|[u b] tl IH]; cbn [sens_erase map fst]; intros H; [exact H|]. inversion H as [|? ? N H']; subst.
  destruct (Nat.eqb u v); [exact H'|]. cbn [map fst]. constructor; [|auto].
  intros I. apply N. clear -I. induction tl as [|[w c] tl IH]; cbn [sens_erase map fst] in *; [exact I|].
  destruct (Nat.eqb w v); [now right|]. destruct I as [I|I]; [now left|right; auto].
Qed.
Lemma equal_lin s : forall t y, NoDup (map fst s) -> NoDup (map fst t) -> length s = length t ->
  (forall p, In p s -> exists d, sens_find t (fst p) = Some d /\ (snd p == d)%Q) -> (lin s y == lin t y)%Q.
Proof.
  induction s as [|[v a] tl IH]; intros t y N M L H.
  - destruct t; [reflexivity|discriminate L].
  - destruct (H (v, a) (or_introl eq_refl)) as (d & E & Ed). cbn [fst snd] in *. inversion N as [|? ? N1 N2]; subst.
    cbn [lin]. rewrite (lin_erase t v y M). unfold coef. rewrite E. rewrite (IH (sens_erase t v) y).
    + rewrite Ed. lra.
    + exact N2.
    + now apply erase_nodup.
    + apply erase_length in E. cbn [length] in L. lia.
    + intros [w b] I. destruct (H (w, b) (or_intror I)) as (d' & E' & Ed'). exists d'. split; [|exact Ed'].
      cbn [fst] in *. rewrite find_erase; [exact E'|]. intros ->. apply N1. apply (in_map fst) in I. exact I.
Qed.
Lemma equal_eval addr e f y : wf e -> wf f -> e_equal addr e f = true -> (e_eval e y == e_eval f y)%Q.
Proof.
  unfold e_equal, sens_equal. intros We Wf H. apply andb_true_iff in H as [H H4]. apply andb_true_iff in H as [H H3].
  apply andb_true_iff in H4 as [H4 H5]. apply Nat.eqb_eq in H4. apply Qeq_bool_iff in H3. rewrite !eval_lin.
  rewrite (equal_lin (ex_sens e) (ex_sens f) y We Wf H4).
  - rewrite H3. reflexivity.
  - rewrite forallb_forall in H5. intros p I. specialize (H5 p I). destruct (sens_find (ex_sens f) (fst p)) as [d|]; [|discriminate].
    exists d. split; [reflexivity|]. now apply Qeq_bool_iff.
Qed.
Lemma csense_eqb_eq a b : csense_eqb a b = true <-> a = b.
Proof. destruct a, b; cbn; split; congruence. Qed.

(** * Switching off *)
Lemma nth_disable cs : forall i j, nth_error (disable_at cs i) j =
  if Nat.eqb j i then option_map disable (nth_error cs j) else nth_error cs j.
Proof.
  induction cs as [|c tl IH]; intros i j; cbn [disable_at].
  - destruct j; cbn [nth_error option_map]; match goal with |- context [if ?b then _ else _] => destruct b end; reflexivity.
  - destruct i as [|i], j as [|j]; cbn; auto.
Qed.
Lemma disable_length cs : forall i, length (disable_at cs i) = length cs.
Proof. induction cs as [|c tl IH]; intros [|i]; cbn; auto. Qed.
Lemma all_nth cs y : satisfies_all cs y <-> forall i c, nth_error cs i = Some c -> ct_enabled c = true -> satisfies c y.
Proof.
  split.
  - intros H i c E. apply H. eapply nth_error_In; eauto.
  - intros H c I. apply In_nth_error in I as [i E]. eauto.
Qed.
Lemma wf_nth cs i c : well_formed cs -> nth_error cs i = Some c -> wf (ct_expr c).
Proof. intros W E. apply W. eapply nth_error_In; eauto. Qed.
Lemma only_refl cs : only_disables cs cs.
Proof. split; [reflexivity|]. intros i c c' E E'. rewrite E in E'. injection E' as ->. auto. Qed.
Lemma only_trans a b c : only_disables a b -> only_disables b c -> only_disables a c.
Proof.
  intros [L1 H1] [L2 H2]. split; [congruence|]. intros i u w E E'.
  destruct (nth_error b i) as [v|] eqn:Ev.
  - destruct (H1 i u v E Ev) as (A1 & A2 & A3), (H2 i v w Ev E') as (B1 & B2 & B3). repeat split; try congruence. auto.
  - apply nth_error_None in Ev. assert (nth_error a i <> None) as X by congruence. apply nth_error_Some in X. lia.
Qed.
Lemma only_disable cs i : only_disables cs (disable_at cs i).
Proof.
  split; [apply disable_length|]. intros j c c' E E'. rewrite nth_disable, E in E'. destruct (Nat.eqb j i).
  - cbn in E'. injection E' as <-. cbn. repeat split; congruence.
  - injection E' as <-. auto.
Qed.
Lemma only_find cs cs' i c : only_disables cs cs' -> nth_error cs i = Some c -> exists c', nth_error cs' i = Some c' /\
  ct_expr c' = ct_expr c /\ ct_sense c' = ct_sense c /\ (ct_enabled c' = true -> ct_enabled c = true).
Proof.
  intros [L H] E. destruct (nth_error cs' i) as [c'|] eqn:E'.
  - exists c'. split; [reflexivity|]. eapply H; eauto.
  - apply nth_error_None in E'. assert (nth_error cs i <> None) as X by congruence. apply nth_error_Some in X. lia.
Qed.
Lemma only_wf cs cs' : only_disables cs cs' -> well_formed cs -> well_formed cs'.
Proof.
  intros [L H] W c' I. apply In_nth_error in I as [i E]. destruct (nth_error cs i) as [c|] eqn:Ec.
  - destruct (H i c c' Ec E) as (A & _). rewrite A. eapply wf_nth; eauto.
  - apply nth_error_None in Ec. assert (nth_error cs' i <> None) as X by congruence. apply nth_error_Some in X. lia.
Qed.
Lemma only_hash addr cs cs' i : only_disables cs cs' -> hash_at addr cs' i = hash_at addr cs i.
Proof.
  intros O. unfold hash_at. destruct (nth_error cs i) as [c|] eqn:E.
  - destruct (only_find _ _ _ _ O E) as (c' & -> & -> & _). reflexivity.
  - destruct O as [L _]. apply nth_error_None in E. rewrite <- L in E. apply nth_error_None in E. now rewrite E.
Qed.
Lemma only_duplicates addr cs cs' i j : only_disables cs cs' -> duplicates addr cs' i j = duplicates addr cs i j.
Proof.
  intros O. unfold duplicates.
  assert (N : forall k, nth_error cs k = None -> nth_error cs' k = None).
  { intros k. rewrite !nth_error_None. destruct O as [L _]. now rewrite L. }
  destruct (nth_error cs i) as [c|] eqn:E; [|now rewrite N].
  destruct (only_find _ _ _ _ O E) as (c' & -> & -> & -> & _).
  destruct (nth_error cs j) as [d|] eqn:E'; [|now rewrite N].
  destruct (only_find _ _ _ _ O E') as (d' & -> & -> & -> & _). reflexivity.
Qed.
Lemma only_on cs cs' i : only_disables cs cs' -> is_on cs' i = true -> is_on cs i = true.
Proof.
  intros O. unfold is_on. destruct (nth_error cs i) as [c|] eqn:E.
  - destruct (only_find _ _ _ _ O E) as (c' & -> & _ & _ & H). exact H.
  - destruct O as [L _]. apply nth_error_None in E. rewrite <- L in E. apply nth_error_None in E. now rewrite E.
Qed.

(** * Duplicated constraints *)
Definition has_twin (cs cs' : list constr) : Prop := forall i c, nth_error cs i = Some c -> ct_enabled c = true ->
  exists k d, nth_error cs' k = Some d /\ ct_enabled d = true /\ same_constraint c d.
Lemma same_refl c : same_constraint c c. Proof. split; reflexivity. Qed.
Lemma same_trans a b c : same_constraint a b -> same_constraint b c -> same_constraint a c.
Proof. intros [A1 A2] [B1 B2]. split; [congruence|]. intros y. now rewrite A2. Qed.
Lemma twin_trans a b c : has_twin a b -> has_twin b c -> has_twin a c.
Proof.
  intros H G i u E Eu. destruct (H i u E Eu) as (k & d & Ek & Ed & S). destruct (G k d Ek Ed) as (m & e & Em & Ee & S').
  exists m, e. repeat split; auto; apply (same_trans _ _ _ S S').
Qed.
Lemma twin_refl cs : has_twin cs cs.
Proof. intros i c E Ec. exists i, c. split; [exact E|]. split; [exact Ec|apply same_refl]. Qed.
Lemma same_satisfies c d y : same_constraint c d -> satisfies d y -> satisfies c y.
Proof. intros [S E]. unfold satisfies, holds. specialize (E y). rewrite S. destruct (ct_sense d); rewrite E; auto. Qed.
Lemma twin_solutions cs cs' y : only_disables cs cs' -> has_twin cs cs' -> (satisfies_all cs y <-> satisfies_all cs' y).
Proof.
  intros O H. rewrite !all_nth. split; intros G i c E Ec.
  - destruct (nth_error cs i) as [d|] eqn:Ed.
    + destruct O as [L O]. destruct (O i d c Ed E) as (A1 & A2 & A3). unfold satisfies. rewrite A1, A2. apply (G i d Ed). auto.
    + destruct O as [L _]. apply nth_error_None in Ed. assert (nth_error cs' i <> None) as X by congruence. apply nth_error_Some in X. lia.
  - destruct (H i c E Ec) as (k & d & Ek & Ed & S). apply (same_satisfies c d y S). eauto.
Qed.

Lemma scan_spec addr l : forall cur cs, NoDup l -> well_formed cs ->
  (forall i, cur = Some i -> is_on cs i = true /\ ~ In i l) ->
  let cs' := duplicate_scan addr cur l cs in
  only_disables cs cs' /\ has_twin cs cs' /\ (forall k, ~ In k l -> nth_error cs' k = nth_error cs k).
Proof.
  induction l as [|j tl IH]; intros cur cs N W C; cbn [duplicate_scan].
  { split; [apply only_refl|]. split; [apply twin_refl|reflexivity]. }
  inversion N as [|? ? Nj Ntl]; subst. cbv zeta.
  assert (St : forall i, (if is_on cs j then Some j else None) = Some i -> is_on cs i = true /\ ~ In i tl).
  { intros i. destruct (is_on cs j) eqn:E; [|discriminate]. intros X. injection X as <-. auto. }
  assert (Plain : let cs' := duplicate_scan addr (if is_on cs j then Some j else None) tl cs in
    only_disables cs cs' /\ has_twin cs cs' /\ (forall k, ~ In k (j :: tl) -> nth_error cs' k = nth_error cs k)).
  { destruct (IH (if is_on cs j then Some j else None) cs Ntl W St) as (A1 & A2 & A3).
    split; [exact A1|]. split; [exact A2|]. intros k Hk. apply A3. cbn in Hk. tauto. }
  destruct cur as [i|]; [|exact Plain]. destruct (N.eqb _ _); [|exact Plain]. clear Plain St.
  destruct (C i eq_refl) as [On Ni].
  assert (Dij : i <> j) by (intros ->; apply Ni; now left).
  assert (Nitl : ~ In i tl) by (intros X; apply Ni; now right).
  destruct (is_on cs j && duplicates addr cs i j)%bool eqn:E.
  - apply andb_true_iff in E as [Onj D]. unfold duplicates in D.
    destruct (nth_error cs i) as [c|] eqn:Ei; [|discriminate]. destruct (nth_error cs j) as [d|] eqn:Ej; [|discriminate].
    apply andb_true_iff in D as [D1 D2]. apply csense_eqb_eq in D1.
    assert (Same : same_constraint d c).
    { split; [auto|]. intros y. symmetry. apply (equal_eval addr); eauto using wf_nth. }
    assert (O1 : only_disables cs (disable_at cs j)) by apply only_disable.
    assert (Ec : ct_enabled c = true) by (unfold is_on in On; now rewrite Ei in On).
    assert (T1 : has_twin cs (disable_at cs j)).
    { intros k e Ek Ee. destruct (Nat.eq_dec k j) as [->|Dk].
      - rewrite Ej in Ek. injection Ek as <-. exists i, c. rewrite nth_disable. apply Nat.eqb_neq in Dij. rewrite Dij. auto.
      - exists k, e. rewrite nth_disable. apply Nat.eqb_neq in Dk. rewrite Dk. split; [exact Ek|]. split; [exact Ee|apply same_refl]. }
    destruct (IH (Some i) (disable_at cs j) Ntl (only_wf _ _ O1 W)) as (A1 & A2 & A3).
    + intros k X. injection X as <-. split; [|exact Nitl]. unfold is_on. rewrite nth_disable. apply Nat.eqb_neq in Dij. rewrite Dij, Ei. exact Ec.
    + split; [eapply only_trans; eauto|]. split; [eapply twin_trans; eauto|]. intros k Hk. cbn in Hk. rewrite A3 by tauto.
      rewrite nth_disable. destruct (Nat.eqb_spec k j) as [->|_]; [exfalso; apply Hk; now left|reflexivity].
  - destruct (IH (Some i) cs Ntl W) as (A1 & A2 & A3).
    + intros k X. injection X as <-. auto.
    + split; [exact A1|]. split; [exact A2|]. intros k Hk. apply A3. cbn in Hk. tauto.
Qed.

Lemma remove_in_spec addr cs l : NoDup l -> well_formed cs ->
  only_disables cs (remove_duplicates_in addr cs l) /\ has_twin cs (remove_duplicates_in addr cs l).
Proof.
  intros N W. unfold remove_duplicates_in. destruct (Nat.leb _ _); [split; [apply only_refl|apply twin_refl]|].
  assert (N' : NoDup (stable_sort (by_hash addr cs) l)) by (eapply Permutation_NoDup; [symmetry; apply sort_perm|exact N]).
  destruct (scan_spec addr _ None cs N' W) as (A & B & _); [discriminate|]. auto.
Qed.
Lemma remove_all_spec addr (refs : ctype -> list nat) : (forall t, NoDup (refs t)) -> forall ts cs, well_formed cs ->
  let cs' := fold_left (fun cs t => remove_duplicates_in addr cs (refs t)) ts cs in
  only_disables cs cs' /\ has_twin cs cs'.
Proof.
  intros N. induction ts as [|t ts IH]; intros cs W; cbn [fold_left]; [split; [apply only_refl|apply twin_refl]|].
  destruct (remove_in_spec addr cs (refs t) (N t) W) as [A B]. destruct (IH _ (only_wf _ _ A W)) as [C D].
  split; [eapply only_trans; eauto|eapply twin_trans; eauto].
Qed.
Lemma remove_duplicated_spec addr refs cs : (forall t, NoDup (refs t)) -> well_formed cs ->
  let cs' := remove_duplicated_constraints addr refs cs in
  only_disables cs cs' /\ has_twin cs cs' /\ forall y, satisfies_all cs y <-> satisfies_all cs' y.
Proof.
  intros N W. destruct (remove_all_spec addr refs N duplicate_types cs W) as [A B].
  split; [exact A|]. split; [exact B|]. intros y. now apply twin_solutions.
Qed.

(** Without hash collisions no duplicate is left in a list. *)
Definition hash_le addr cs i j : Prop := (hash_at addr cs i <= hash_at addr cs j)%N.
Lemma hash_sorted addr cs l : StronglySorted (hash_le addr cs) (stable_sort (by_hash addr cs) l).
Proof.
  apply sort_ordered; unfold hash_le, by_hash.
  - intros a b H. apply N.ltb_lt in H. lia.
  - intros a b H. apply N.ltb_ge in H. exact H.
  - intros a b c. lia.
Qed.
Lemma scan_complete addr l : forall cur cs, NoDup l -> well_formed cs -> StronglySorted (hash_le addr cs) l ->
  (forall i j, (cur = Some i \/ In i l) -> In j l -> hash_at addr cs i = hash_at addr cs j -> duplicates addr cs i j = true) ->
  (forall i, cur = Some i -> is_on cs i = true /\ ~ In i l /\ forall j, In j l -> (hash_at addr cs i <= hash_at addr cs j)%N) ->
  let cs' := duplicate_scan addr cur l cs in
  forall a b, (cur = Some a \/ In a l) -> (cur = Some b \/ In b l) -> a <> b -> is_on cs' a = true -> is_on cs' b = true ->
    hash_at addr cs a <> hash_at addr cs b.
Proof.
  induction l as [|j tl IH]; intros cur cs N W S H C; cbn [duplicate_scan].
  { cbn. intros a b [->|[]] [E|[]] D. congruence. }
  inversion N as [|? ? Nj Ntl]; subst. inversion S as [|? ? Stl Fj]; subst. rewrite Forall_forall in Fj. cbv zeta.
  set (start := if is_on cs j then Some j else None).
  assert (St : forall i, start = Some i -> i = j /\ is_on cs j = true).
  { intros i. unfold start. destruct (is_on cs j) eqn:E; [|discriminate]. intros X. injection X as <-. auto. }
  assert (St' : forall i, start = Some i -> is_on cs i = true /\ ~ In i tl /\ forall k, In k tl -> (hash_at addr cs i <= hash_at addr cs k)%N).
  { intros i Hi. destruct (St i Hi) as [-> On]. split; [exact On|]. split; [exact Nj|]. exact Fj. }
  assert (Sp : forall i, start = Some i -> is_on cs i = true /\ ~ In i tl) by (intros i Hi; destruct (St' i Hi) as (A & B & _); auto).
  assert (Plain : forall a b, In a (j :: tl) -> In b (j :: tl) -> a <> b ->
    is_on (duplicate_scan addr start tl cs) a = true -> is_on (duplicate_scan addr start tl cs) b = true -> hash_at addr cs a <> hash_at addr cs b).
  { intros a b Ia Ib D Oa Ob. destruct (scan_spec addr tl start cs Ntl W Sp) as (A1 & _ & A3).
    assert (Pick : forall k, In k (j :: tl) -> is_on (duplicate_scan addr start tl cs) k = true -> start = Some k \/ In k tl).
    { intros k [<-|Ik] Ok; [|now right]. left. unfold start. apply (only_on _ _ _ A1) in Ok. now rewrite Ok. }
    apply (IH start cs Ntl W Stl); auto.
    intros i k Hi Hk Eh. apply H; [|now right|exact Eh]. destruct Hi as [Hi|Hi]; right; [|now right].
    destruct (St i Hi) as [-> _]. now left. }
  destruct cur as [i|].
  2:{ intros a b [X|Ia] [Y|Ib] D Oa Ob; try discriminate. now apply Plain. }
  destruct (C i eq_refl) as (On & Ni & Hi). destruct (N.eqb_spec (hash_at addr cs i) (hash_at addr cs j)) as [Eh|Nh].
  - set (cs1 := if is_on cs j && duplicates addr cs i j then disable_at cs j else cs).
    assert (O1 : only_disables cs cs1) by (unfold cs1; destruct (_ && _)%bool; [apply only_disable|apply only_refl]).
    assert (Dup : duplicates addr cs i j = true) by (apply H; [now left|now left|exact Eh]).
    assert (Off : is_on cs1 j = false).
    { unfold cs1. rewrite Dup, andb_true_r. destruct (is_on cs j) eqn:E; [|exact E]. unfold is_on. rewrite nth_disable, Nat.eqb_refl.
      destruct (nth_error cs j); reflexivity. }
    assert (Dij : i <> j) by (intros ->; apply Ni; now left).
    assert (On1 : is_on cs1 i = true).
    { unfold cs1. destruct (_ && _)%bool; [|exact On]. unfold is_on. rewrite nth_disable. apply Nat.eqb_neq in Dij. rewrite Dij. exact On. }
    assert (Nit : ~ In i tl) by (intros X; apply Ni; now right).
    assert (W1 : well_formed cs1) by (eapply only_wf; eauto).
    intros a b Ia Ib D Oa Ob.
    assert (Sp1 : forall k, Some i = Some k -> is_on cs1 k = true /\ ~ In k tl) by (intros k X; injection X as <-; auto).
    destruct (scan_spec addr tl (Some i) cs1 Ntl W1 Sp1) as (A1 & _ & A3).
    assert (Pick : forall k, (Some i = Some k \/ In k (j :: tl)) -> is_on (duplicate_scan addr (Some i) tl cs1) k = true -> Some i = Some k \/ In k tl).
    { intros k [X|[<-|Ik]] Ok; auto. exfalso. apply (only_on _ _ _ A1) in Ok. congruence. }
    rewrite <- !(only_hash addr cs cs1) by exact O1. apply (IH (Some i) cs1 Ntl W1); auto.
    + clear -Stl O1. induction Stl as [|x l S IH F]; constructor; auto. eapply Forall_impl; [|exact F].
      intros k. unfold hash_le. now rewrite !(only_hash addr cs cs1).
    + intros p q Hp Hq. rewrite !(only_hash addr cs cs1), (only_duplicates addr cs cs1) by exact O1. intros E. apply H; auto; [|now right].
      destruct Hp as [Hp|Hp]; [now left|right; now right].
    + intros k X. injection X as <-. split; [exact On1|]. split; [exact Nit|]. intros q Hq. rewrite !(only_hash addr cs cs1) by exact O1. apply Hi. now right.
  - assert (Lt : forall k, In k (j :: tl) -> (hash_at addr cs i < hash_at addr cs k)%N).
    { intros k Ik. assert (hash_at addr cs i < hash_at addr cs j)%N by (specialize (Hi j (or_introl eq_refl)); lia).
      destruct Ik as [<-|Ik]; [assumption|]. specialize (Fj k Ik). unfold hash_le in Fj. lia. }
    intros a b [Xa|Ia] [Xb|Ib] D Oa Ob.
    + congruence.
    + injection Xa as <-. specialize (Lt b Ib). lia.
    + injection Xb as <-. specialize (Lt a Ia). lia.
    + now apply Plain.
Qed.
Lemma remove_in_complete addr cs l : NoDup l -> well_formed cs ->
  (forall i j, In i l -> In j l -> hash_at addr cs i = hash_at addr cs j -> duplicates addr cs i j = true) ->
  forall i j, In i l -> In j l -> i <> j -> is_on (remove_duplicates_in addr cs l) i = true ->
    is_on (remove_duplicates_in addr cs l) j = true -> duplicates addr cs i j = false.
Proof.
  intros N W H i j Ii Ij D. unfold remove_duplicates_in.
  destruct (Nat.leb_spec (length l) 1) as [Le|Gt].
  { destruct l as [|a [|b tl]]; cbn in *; [contradiction| |lia]. destruct Ii as [<-|[]], Ij as [<-|[]]. congruence. }
  set (sl := stable_sort (by_hash addr cs) l). intros Oi Oj.
  assert (P : Permutation sl l) by apply sort_perm.
  assert (Hh : hash_at addr cs i <> hash_at addr cs j).
  { apply (scan_complete addr sl None cs); auto.
    - eapply Permutation_NoDup; [symmetry; exact P|exact N].
    - apply hash_sorted.
    - intros a b [X|Ia] Ib; [discriminate|]. apply H; eapply Permutation_in; eauto.
    - discriminate.
    - right. eapply Permutation_in; [symmetry; exact P|exact Ii].
    - right. eapply Permutation_in; [symmetry; exact P|exact Ij]. }
  destruct (duplicates addr cs i j) eqn:E; [|reflexivity]. exfalso. apply Hh. unfold duplicates in E. unfold hash_at.
  destruct (nth_error cs i), (nth_error cs j); try discriminate. apply andb_true_iff in E as [_ E]. unfold e_equal in E.
  apply andb_true_iff in E as [E _]. apply andb_true_iff in E as [E _]. apply andb_true_iff in E as [E _]. now apply N.eqb_eq in E.
Qed.

(** * Implicit equalities *)
Lemma opposite_meaning addr is01 c d y : wf (ct_expr c) -> wf (ct_expr d) -> ct_sense c <> Equal -> opposite addr c d = true ->
  (satisfies c y /\ satisfies d y <-> satisfies (c_setup (ct_expr c) Equal is01) y).
Proof.
  intros Wc Wd S H. unfold satisfies, holds at 3. cbn [c_setup ct_expr ct_sense]. unfold opposite in H. apply orb_true_iff in H as [H|H].
  - apply andb_true_iff in H as [H1 H2]. apply (equal_eval addr _ _ y Wc Wd) in H2.
    apply negb_true_iff in H1. revert H1 S. unfold holds. destruct (ct_sense c), (ct_sense d); cbn; try discriminate; intros _ S; try congruence;
    (split; [intros [A B]; lra|intros A; split; lra]).
  - apply andb_true_iff in H as [H1 H2]. apply (equal_eval addr _ _ y Wc) in H2; [|now apply wf_neg]. rewrite eval_neg in H2.
    apply csense_eqb_eq in H1. revert S. unfold holds. rewrite <- H1. destruct (ct_sense c); intros S; try congruence; (split; [intros [A B]; lra|intros A; split; lra]).
Qed.
Lemma disable_sat cs i c y : nth_error cs i = Some c -> ct_enabled c = true ->
  (satisfies_all cs y <-> satisfies c y /\ satisfies_all (disable_at cs i) y).
Proof.
  intros E Ec. rewrite !all_nth. split.
  - intros H. split; [eauto|]. intros j d. rewrite nth_disable. destruct (Nat.eqb_spec j i) as [->|D].
    + rewrite E. cbn. intros X. injection X as <-. discriminate.
    + apply H.
  - intros [A H] j d Ej Ed. destruct (Nat.eq_dec j i) as [->|D]; [congruence|]. apply (H j d); [|exact Ed].
    rewrite nth_disable. apply Nat.eqb_neq in D. now rewrite D.
Qed.
Lemma disable_off cs i c : nth_error cs i = Some c -> ct_enabled c = false -> forall y, satisfies_all (disable_at cs i) y <-> satisfies_all cs y.
Proof.
  intros E Ec y. rewrite !all_nth. split; intros H j d Ej Ed.
  - destruct (Nat.eq_dec j i) as [->|D]; [congruence|]. apply (H j d); [|exact Ed]. rewrite nth_disable. apply Nat.eqb_neq in D. now rewrite D.
  - rewrite nth_disable in Ej. destruct (Nat.eqb_spec j i) as [->|D]; [|eauto]. rewrite E in Ej. cbn in Ej. injection Ej as <-. discriminate.
Qed.
Lemma sat_app a b y : satisfies_all (a ++ b) y <-> satisfies_all a y /\ satisfies_all b y.
Proof.
  unfold satisfies_all. split.
  - intros H. split; intros c I; apply H, in_or_app; auto.
  - intros [A B] c I. apply in_app_or in I as [I|I]; auto.
Qed.
Lemma opposite_scan_found addr cs c l : forall k j, opposite_scan addr cs c l k = ScanFound j ->
  exists d, nth_error cs j = Some d /\ ct_enabled d = true /\ opposite addr c d = true.
Proof.
  induction l as [|j tl IH]; intros k j0; cbn [opposite_scan]; [discriminate|].
  destruct (nth_error cs j) as [d|] eqn:E; [|apply IH]. destruct (negb _); [discriminate|].
  destruct (ct_enabled d && opposite addr c d)%bool eqn:F; [|apply IH]. intros X. injection X as <-. exists d.
  apply andb_true_iff in F as [F1 F2]. auto.
Qed.
Lemma equality_scan_spec addr is01 l : forall skip cs added, well_formed cs ->
  let r := equality_scan addr is01 l skip cs added in
  only_disables cs (fst r) /\ (exists more, snd r = added ++ more /\
    forall y, satisfies_all cs y <-> satisfies_all (fst r) y /\ satisfies_all more y).
Proof.
  induction l as [|i tl IH]; intros skip cs added W; cbn [equality_scan].
  { split; [apply only_refl|]. exists []. rewrite app_nil_r. split; [reflexivity|]. intros y. cbn [fst]. split; [|tauto].
    intros H. split; [exact H|]. intros c []. }
  destruct skip as [|k]; [|now apply IH]. destruct (nth_error cs i) as [c|] eqn:Ei; [|now apply IH].
  destruct (ct_enabled c) eqn:Ec; cbn [negb]; [|now apply IH].
  assert (Main : ct_sense c <> Equal -> let r := match opposite_scan addr cs c tl 0 with
     | ScanEnd => (cs, added)
     | ScanOther k => equality_scan addr is01 tl k cs added
     | ScanFound j => equality_scan addr is01 tl 0 (disable_at (disable_at cs i) j) (added ++ [c_setup (ct_expr c) Equal is01])
     end in only_disables cs (fst r) /\ (exists more, snd r = added ++ more /\
    forall y, satisfies_all cs y <-> satisfies_all (fst r) y /\ satisfies_all more y)).
  { intros NE. destruct (opposite_scan addr cs c tl 0) as [|k|j] eqn:Sc.
    - split; [apply only_refl|]. exists []. rewrite app_nil_r. split; [reflexivity|]. intros y. cbn [fst]. split; [|tauto].
      intros H. split; [exact H|]. intros d [].
    - now apply IH.
    - destruct (opposite_scan_found _ _ _ _ _ _ Sc) as (d & Ej & Ed & Op).
      assert (O2 : only_disables cs (disable_at (disable_at cs i) j)) by (eapply only_trans; apply only_disable).
      destruct (IH 0%nat (disable_at (disable_at cs i) j) (added ++ [c_setup (ct_expr c) Equal is01]) (only_wf _ _ O2 W)) as (A & more & B1 & B2).
      split; [eapply only_trans; eauto|]. exists (c_setup (ct_expr c) Equal is01 :: more). split.
      { rewrite B1, <- app_assoc. reflexivity. }
      intros y. rewrite <- (and_comm (satisfies_all (c_setup (ct_expr c) Equal is01 :: more) y)).
      assert (Cons : satisfies_all (c_setup (ct_expr c) Equal is01 :: more) y <-> satisfies (c_setup (ct_expr c) Equal is01) y /\ satisfies_all more y).
      { unfold satisfies_all. split.
        - intros H. split; [apply H; [now left|reflexivity]|]. intros u I. apply H. now right.
        - intros [P Q] u [<-|I]; auto. }
      rewrite Cons. pose proof (opposite_meaning addr is01 c d y (wf_nth _ _ _ W Ei) (wf_nth _ _ _ W Ej) NE Op) as OM.
      rewrite (disable_sat cs i c y Ei Ec). specialize (B2 y).
      destruct (Nat.eq_dec j i) as [->|D].
      + rewrite Ei in Ej. injection Ej as <-.
        assert (X : satisfies_all (disable_at (disable_at cs i) i) y <-> satisfies_all (disable_at cs i) y).
        { apply (disable_off _ i (disable c)); [|reflexivity]. rewrite nth_disable, Nat.eqb_refl, Ei. reflexivity. }
        tauto.
      + assert (X : satisfies_all (disable_at cs i) y <-> satisfies d y /\ satisfies_all (disable_at (disable_at cs i) j) y).
        { apply disable_sat; [|exact Ed]. rewrite nth_disable. apply Nat.eqb_neq in D. now rewrite D. }
        tauto. }
  destruct (ct_sense c); [apply Main; discriminate|now apply IH|apply Main; discriminate].
Qed.
Lemma implicit_spec addr is01 refs cs : well_formed cs -> forall y,
  satisfies_all cs y <-> satisfies_all (extract_implicit_equalities addr is01 refs cs) y.
Proof.
  intros W y. unfold extract_implicit_equalities. cbv zeta. destruct (Nat.leb _ _); [tauto|].
  match goal with |- context [equality_scan addr is01 ?l 0 cs []] => pose proof (equality_scan_spec addr is01 l 0 cs [] W) as H;
    destruct (equality_scan addr is01 l 0 cs []) as [cs' added] end.
  cbn [fst snd] in H. destruct H as (_ & more & -> & H). rewrite sat_app. apply H.
Qed.

(** A group of two opposite inequalities is merged. *)
Lemma pair_merged addr is01 cs i j c d : well_formed cs -> nth_error cs i = Some c -> nth_error cs j = Some d ->
  ct_enabled c = true -> ct_enabled d = true -> ct_sense c <> Equal -> opposite addr c d = true ->
  expr_hash addr (ct_expr c) = expr_hash addr (ct_expr d) ->
  equality_scan addr is01 [i; j] 0 cs [] = (disable_at (disable_at cs i) j, [c_setup (ct_expr c) Equal is01]).
Proof.
  intros W Ei Ej Ec Ed NE Op Hh. cbn [equality_scan]. rewrite Ei, Ec. cbn [negb].
  assert (Sc : opposite_scan addr cs c [j] 0 = ScanFound j) by (cbn [opposite_scan]; now rewrite Ej, Hh, N.eqb_refl, Ed, Op).
  rewrite Sc. rewrite (nth_disable _ j j), Nat.eqb_refl, (nth_disable cs i j), Ej.
  destruct (Nat.eqb j i); cbn; destruct (ct_sense c); congruence.
Qed.
