(** Proofs for C61: the norms. *)
From Coq Require Import List ZArith QArith Qabs Bool Lia Lqa.
From Verif Require Import ConstraintModel PresolveModel SparseModel SparseSpec SparseProof SparseProof2.
Import ListNotations.
Local Open Scope Q_scope.

Lemma put_at v : forall i j q, (i < length v)%nat -> at_ (put v i q) j = if Nat.eqb i j then q else at_ v j.
Proof.
  induction v as [|a v IH]; intros [|i] [|j] q H; cbn in *; try lia; try reflexivity.
  unfold at_ in *. cbn. apply IH. lia.
Qed.
Lemma sums_from cols : forall rows values acc j, length rows = length values -> length cols = length values ->
  (forall c, In c cols -> (c < length acc)%nat) ->
  at_ (fold_left (fun c (t : nat * nat * Q) => put c (snd (fst t)) (at_ c (snd (fst t)) + Qabs (snd t))) (triples rows cols values) acc) j == at_ acc j + column_weight cols values j.
Proof.
  unfold triples. induction cols as [|c cols IH]; intros [|r rows] [|v values] acc j L1 L2 B; cbn in L1, L2; try lia; cbn [combine fold_left column_weight fst snd].
  - ring.
  - rewrite IH; [|lia|lia|].
    + rewrite put_at by (apply B; left; reflexivity). destruct (Nat.eqb_spec c j) as [->|]; ring.
    + intros c' Hc. rewrite put_length. apply B. right. exact Hc.
Qed.
Lemma fold_max_bound l : forall a, a <= fold_left qmax l a /\ (forall q, In q l -> q <= fold_left qmax l a) /\ (fold_left qmax l a = a \/ In (fold_left qmax l a) l).
Proof.
  induction l as [|b l IH]; intros a; cbn [fold_left].
  - split; [apply Qle_refl|]. split; [intros q []|left; reflexivity].
  - destruct (IH (qmax a b)) as (A & B & C). assert (M : a <= qmax a b /\ b <= qmax a b /\ (qmax a b = a \/ qmax a b = b)).
    { unfold qmax. destruct (Qlt_le_dec a b); split; try lra; split; try lra; auto. }
    destruct M as (M1 & M2 & M3). split; [lra|]. split.
    + intros q [<-|H]; [lra|auto].
    + destruct C as [C|C]; [|right; right; exact C]. rewrite C. destruct M3 as [-> | ->]; [left; reflexivity|right; left; reflexivity].
Qed.
Lemma infty_fold l : forall a, fold_left (fun q v => qmax q (Qabs v)) l a = fold_left qmax (map Qabs l) a.
Proof. induction l as [|b l IH]; intros a; cbn; [reflexivity|apply IH]. Qed.

Lemma norms_stmt values rows cols nr nc m : m_setup [] values rows cols nr nc = Ok m ->
  (exists j, (j < nc)%nat /\ mt_one m == column_weight cols values j) /\
  (forall j, (j < nc)%nat -> column_weight cols values j <= mt_one m) /\
  (forall v, In v values -> Qabs v <= mt_infty m) /\
  (if values then mt_infty m == 0 else exists v, In v values /\ mt_infty m == Qabs v).
Proof.
  unfold m_setup. destruct (Nat.eqb (length rows) (length values)) eqn:E1; [|discriminate]. destruct (Nat.eqb (length cols) (length values)) eqn:E2; [|discriminate].
  destruct (forallb _ rows) eqn:E3; [|discriminate]. destruct (forallb _ cols) eqn:E4; [|discriminate]. cbn [andb].
  apply Nat.eqb_eq in E1, E2. rewrite forallb_forall in E4.
  assert (At : forall j, at_ (column_sums (triples rows cols values) nc) j == column_weight cols values j).
  { intros j. unfold column_sums. rewrite sums_from; auto.
    - unfold at_. rewrite nth_repeat. ring.
    - intros c Hc. rewrite repeat_length. apply Nat.ltb_lt. now apply E4. }
  pose proof (sums_length (triples rows cols values) nc) as Ls.
  destruct (column_sums (triples rows cols values) nc) as [|a l] eqn:Es; [discriminate|]. cbn [largest bind]. intros H. inversion H. subst m. clear H. cbn [mt_one mt_infty].
  destruct (fold_max_bound l a) as (A & B & C). split; [|split; [|split]].
  - assert (I : In (fold_left qmax l a) (a :: l)) by (destruct C as [-> |C]; [left; reflexivity|right; exact C]).
    destruct (In_nth _ _ 0 I) as (j & Hj & Ej). exists j. split; [lia|]. rewrite <- At. unfold at_. now rewrite Ej.
  - intros j Hj. rewrite <- At. assert (I : In (at_ (a :: l) j) (a :: l)) by (apply nth_In; lia). destruct I as [I|I]; [rewrite <- I; exact A|apply B, I].
  - intros v Hv. unfold norm_infty. rewrite infty_fold. destruct (fold_max_bound (map Qabs values) 0) as (_ & B' & _). apply B', in_map, Hv.
  - unfold norm_infty. destruct values as [|v values]; [reflexivity|]. rewrite infty_fold. destruct (fold_max_bound (map Qabs (v :: values)) 0) as (A' & B' & C'). destruct C' as [C'|C'].
    + exists v. split; [left; reflexivity|]. assert (B0 : Qabs v <= fold_left qmax (map Qabs (v :: values)) 0) by (apply B', in_map; left; reflexivity). rewrite C' in B0 |- *. pose proof (Qabs_nonneg v). lra.
    + apply in_map_iff in C' as (w & E & Hw). exists w. split; [exact Hw|]. rewrite E. reflexivity.
Qed.
