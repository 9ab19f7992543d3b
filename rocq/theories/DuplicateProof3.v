(** Redundant set variables (C49). *)
From Coq Require Import List ZArith NArith QArith Bool Lia Lqa Permutation Sorted.
From Verif Require Import ExprModel ExprSpec ExprProof ConstraintModel ConstraintSpec VariableModel TypeModel TypeSpec TypeProof TypeProof2 TypeProof3
  PresolveModel PresolveSpec PresolveProof PresolveProof2 PresolveProof5 DuplicateModel DuplicateSpec DuplicateProof DuplicateProof2.
Import ListNotations.
Local Open Scope nat_scope.

Lemma total_set l y v z : NoDup l -> total l (set_val y v z) = (total l y + if existsb (Nat.eqb v) l then z - y v else 0)%Z.
Proof.
  induction 1 as [|w tl N ND IH]; cbn [total existsb]; [reflexivity|]. rewrite IH. unfold set_val at 1.
  destruct (Nat.eqb_spec w v) as [->|D].
  - rewrite Nat.eqb_refl. cbn [orb]. destruct (existsb (Nat.eqb v) tl) eqn:E; [apply mem_iff in E; contradiction|]. lia.
  - destruct (Nat.eqb_spec v w) as [X|_]; [congruence|]. cbn [orb]. lia.
Qed.

Lemma list_eqb_eq l : forall m, list_eqb l m = true -> l = m.
Proof.
  induction l as [|a l IH]; intros [|b m] H; cbn in H; try discriminate; [reflexivity|].
  apply andb_true_iff in H as [H1 H2]. apply Nat.eqb_eq in H1. f_equal; auto.
Qed.
Lemma related_members cs v k : In k (related_list cs v) <-> k < length cs /\ In v (members cs k).
Proof. unfold related_list. rewrite filter_In, in_seq, mem_iff. intuition lia. Qed.
Lemma twins cs i j : related_list cs i = related_list cs j -> forall c, In c cs -> (In i (variables c) <-> In j (variables c)).
Proof.
  intros E c I. apply In_nth_error in I as [k Ek].
  assert (Lk : k < length cs) by (apply nth_error_Some; congruence).
  pose proof (related_members cs i k) as A. pose proof (related_members cs j k) as B. rewrite E in A. unfold members in A, B. rewrite Ek in A, B.
  fold (variables c) in A, B. unfold variables in *. tauto.
Qed.

Section Domination.
Variables (n : nat) (minimize : bool) (obj : expr) (cs : list constr) (vs0 : vars).
Hypothesis W : wf obj.
Hypothesis UB : unit_bounds n vs0.
Hypothesis SP : set_problem vs0 cs.
Hypothesis WZ : worth_zero n minimize obj vs0 cs.
Hypothesis NT : no_fixed_twin n vs0 cs.

(** vs: vs0 with some free variables fixed at 0. *)
Definition zeroed (vs : vars) : Prop := forall v,
  vs v = vs0 v \/ v < n /\ va_fixed (vs0 v) = false /\ va_fixed (vs v) = true /\ va_value (vs v) = 0%Z.
Lemma zeroed_legal vs y : zeroed vs -> legal vs y -> legal vs0 y.
Proof.
  intros Z L v. specialize (L v). destruct (Z v) as [E|(Lv & F0 & F & V)]; [now rewrite E in L|].
  destruct (UB v Lv F0) as [-> ->]. rewrite F0. split; [discriminate|]. intros _. destruct L as [L _]. rewrite (L F), V. lia.
Qed.
Lemma zeroed_fix vs j : zeroed vs -> j < n -> va_fixed (vs j) = false -> zeroed (do_fix_by vs j 0).
Proof.
  intros Z Lj F v. destruct (fix_by_facts vs j 0 v) as (F1 & F2 & _ & _ & F5). destruct (Nat.eq_dec v j) as [->|D].
  - right. rewrite F1, F2, Nat.eqb_refl. repeat split; auto. destruct (Z j) as [E|(_ & _ & X & _)]; [now rewrite <- E|congruence].
  - rewrite (F5 D). apply Z.
Qed.
Lemma unit01 vs y v : zeroed vs -> legal vs y -> v < n -> va_fixed (vs v) = false -> (0 <= y v <= 1)%Z.
Proof.
  intros Z L Lv F. destruct (L v) as [_ H]. specialize (H F). destruct (Z v) as [E|(_ & _ & X & _)]; [|congruence].
  rewrite E in *. destruct (UB v Lv F) as [A B]. lia.
Qed.

Definition improves (vs vs' : vars) : Prop :=
  (forall y, legal vs' y -> legal vs y) /\
  forall y, legal vs y -> satisfies_all cs y -> exists y', legal vs' y' /\ satisfies_all cs y' /\ as_good minimize (e_eval obj y') (e_eval obj y).
Lemma improves_refl vs : improves vs vs.
Proof. split; [auto|]. intros y L S. exists y. split; [exact L|]. split; [exact S|]. apply as_good_refl. reflexivity. Qed.
Lemma improves_trans a b c : improves a b -> improves b c -> improves a c.
Proof.
  intros [A1 A2] [B1 B2]. split; [auto|]. intros y L S. destruct (A2 y L S) as (y1 & L1 & S1 & G1). destruct (B2 y1 L1 S1) as (y2 & L2 & S2 & G2).
  exists y2. split; [exact L2|]. split; [exact S2|]. eapply as_good_trans; eauto.
Qed.

Lemma legal_set vs y v z : legal vs y -> va_fixed (vs v) = false -> (va_lower (vs v) <= z <= va_upper (vs v))%Z -> legal vs (set_val y v z).
Proof.
  intros L F B w. unfold set_val. destruct (Nat.eqb_spec w v) as [->|_]; [|apply L]. rewrite F. split; [discriminate|auto].
Qed.

Lemma domination_step vs i j : zeroed vs -> i < n -> j < n -> i <> j -> va_fixed (vs i) = false -> va_fixed (vs j) = false ->
  as_good minimize (coef (ex_sens obj) i) (coef (ex_sens obj) j) ->
  related_list cs i = related_list cs j -> improves vs (do_fix_by vs j 0).
Proof.
  intros Z Li Lj D Fi Fj G E. pose proof (twins cs i j E) as Tw.
  assert (Ei : vs i = vs0 i) by (destruct (Z i) as [?|(_ & _ & X & _)]; [assumption|congruence]).
  assert (Ej : vs j = vs0 j) by (destruct (Z j) as [?|(_ & _ & X & _)]; [assumption|congruence]).
  assert (Fi0 : va_fixed (vs0 i) = false) by now rewrite <- Ei. assert (Fj0 : va_fixed (vs0 j) = false) by now rewrite <- Ej.
  destruct (UB i Li Fi0) as [Bi1 Bi2]. destruct (UB j Lj Fj0) as [Bj1 Bj2]. rewrite <- Ei in Bi1, Bi2. rewrite <- Ej in Bj1, Bj2.
  split.
  { intros y. apply legal_unfix_step; [exact Fj|]. rewrite Bj1, Bj2. lia. }
  intros y L S. pose proof (unit01 vs y i Z L Li Fi) as Yi. pose proof (unit01 vs y j Z L Lj Fj) as Yj.
  pose proof (zeroed_legal vs y Z L) as L0.
  assert (Sat : forall y' c, legal vs0 y' -> In c cs -> ct_enabled c = true ->
     (NoDup (variables c) -> (total (variables c) y = 1 -> total (variables c) y' = 1)%Z /\ (total (variables c) y <= 1 -> total (variables c) y' <= 1)%Z /\
        ((forall v, In v (variables c) -> 0 <= y v <= 1)%Z -> 1 <= total (variables c) y -> 1 <= total (variables c) y')%Z) -> satisfies c y').
  { intros y' c L' I En H. specialize (S c I En). destruct (SP c I En) as [[N U]|[[N U]|[N U]]]; destruct (H N) as (H1 & H2 & H3).
    - apply (U y' L'). apply H1. now apply (U y L0).
    - apply (U y' L'). apply H2. now apply (U y L0).
    - apply (U y' L'). apply H3; now apply (U y L0). }
  assert (Yj2 : (y j = 0 \/ y j = 1)%Z) by lia. destruct Yj2 as [Yj0|Yj1].
  { exists y. split; [|split; [exact S|apply as_good_refl; reflexivity]]. intros w. destruct (fix_by_facts vs j 0 w) as (F1 & F2 & _ & _ & F5).
    destruct (Nat.eq_dec w j) as [->|Dw]; [rewrite F1, F2, Nat.eqb_refl; split; [auto|discriminate]|rewrite (F5 Dw); apply L]. }
  assert (Yi2 : (y i = 0 \/ y i = 1)%Z) by lia. destruct Yi2 as [Yi0|Yi1].
  - set (y1 := set_val y i 1). exists (set_val y1 j 0).
    assert (L1 : legal vs y1) by (apply legal_set; auto; rewrite Bi1, Bi2; lia).
    split; [now apply legal_fixed_step|]. 
    assert (L2 : legal vs0 (set_val y1 j 0)) by (apply (zeroed_legal vs); [exact Z|]; apply legal_set; auto; rewrite Bj1, Bj2; lia).
    assert (Y1j : y1 j = 1%Z) by (unfold y1, set_val; destruct (Nat.eqb_spec j i); [congruence|exact Yj1]).
    split.
    + intros c I En. apply Sat; auto. intros N. unfold y1. rewrite !total_set by exact N. fold y1. rewrite Y1j, Yi0. specialize (Tw c I).
      destruct (existsb (Nat.eqb i) (variables c)) eqn:Xi, (existsb (Nat.eqb j) (variables c)) eqn:Xj; try lia.
      * apply mem_iff in Xi. apply Tw, mem_iff in Xi. congruence.
      * apply mem_iff in Xj. apply Tw, mem_iff in Xj. congruence.
    + unfold y1. unfold as_good in *. 
      assert (V : (e_eval obj (set_val (set_val y i 1) j 0) == e_eval obj y + coef (ex_sens obj) i - coef (ex_sens obj) j)%Q).
      { rewrite !eval_set by exact W. fold y1. rewrite Y1j, Yi0. change (inject_Z (1 - 0)) with 1%Q. change (inject_Z (0 - 1)) with (-(1))%Q. ring. }
      destruct minimize; lra.
  - exists (set_val y j 0). split; [now apply legal_fixed_step|].
    assert (L2 : legal vs0 (set_val y j 0)) by (apply (zeroed_legal vs); [exact Z|]; apply legal_set; auto; rewrite Bj1, Bj2; lia).
    assert (Two : forall c, In c cs -> In j (variables c) -> NoDup (variables c) -> (forall v, In v (variables c) -> 0 <= y v <= 1)%Z -> (2 <= total (variables c) y)%Z).
    { intros c I Ij N B. assert (Ii : In i (variables c)) by now apply (Tw c I).
      pose proof (total_set (variables c) y i 0 N) as T1. pose proof (total_set (variables c) (set_val y i 0) j 0 N) as T2.
      rewrite (proj2 (mem_iff _ _) Ii) in T1. rewrite (proj2 (mem_iff _ _) Ij) in T2.
      assert (set_val y i 0 j = 1%Z) as X by (unfold set_val; destruct (Nat.eqb_spec j i); [congruence|exact Yj1]). rewrite X in T2.
      assert (0 <= total (variables c) (set_val (set_val y i 0) j 0))%Z; [|lia].
      apply total_nonneg. intros v Iv. unfold set_val. destruct (v =? j); [lia|]. destruct (v =? i); [lia|]. apply B, Iv. }
    assert (Alone : forall c, In c cs -> ct_enabled c = true -> In j (variables c) -> exactly_one vs0 c \/ at_most_one vs0 c -> False).
    { intros c I En Ij H. specialize (S c I En). destruct H as [[N U]|[N U]]; destruct (U y L0) as [B U']; apply U' in S; pose proof (Two c I Ij N B); lia. }
    split.
    + intros c I En. apply Sat; auto. intros N. rewrite total_set by exact N. rewrite Yj1. destruct (existsb (Nat.eqb j) (variables c)) eqn:Xj; [|lia].
      apply mem_iff in Xj. specialize (SP c I En). split; [|split].
      * intros T. destruct (SP) as [H|[H|[_ H]]]; try (exfalso; apply (Alone c I En Xj); tauto).
        destruct (H y L0) as [B _]. pose proof (Two c I Xj N B). lia.
      * intros T. lia.
      * intros B _. pose proof (Two c I Xj N B). lia.
    + destruct (WZ j Lj Fj0) as [C|(c & I & En & Ij & H)]; [|exfalso; now apply (Alone c I En Ij)].
      assert (V : (e_eval obj (set_val y j 0) == e_eval obj y - coef (ex_sens obj) j)%Q).
      { rewrite eval_set by exact W. rewrite Yj1. change (inject_Z (0 - 1)) with (-(1))%Q. ring. }
      unfold as_good in *. destruct minimize; lra.
Qed.

Variable caddr : nat -> N.
Definition dom_le (a b : nat) : Prop :=
  (var_hash caddr cs a < var_hash caddr cs b)%N \/
  var_hash caddr cs a = var_hash caddr cs b /\ as_good minimize (coef (ex_sens obj) a) (coef (ex_sens obj) b).

Lemma dominated_scan_spec i l : forall vs, zeroed vs -> i < n -> va_fixed (vs i) = false -> ~ In i l ->
  (forall j, In j l -> j < n /\ dom_le i j) ->
  let r := fst (dominated_scan caddr cs i l vs) in zeroed r /\ improves vs r.
Proof.
  induction l as [|j tl IH]; intros vs Z Li Fi N H; cbn [dominated_scan fst].
  { split; [exact Z|apply improves_refl]. }
  assert (N' : ~ In i tl) by (intros X; apply N; now right).
  assert (H' : forall j, In j tl -> j < n /\ dom_le i j) by (intros q Q; apply H; now right).
  destruct (N.eqb_spec (var_hash caddr cs i) (var_hash caddr cs j)) as [Eh|Dh]; cbn [negb]; [|split; [exact Z|apply improves_refl]].
  destruct (va_fixed (vs j) && Z.eqb (va_value (vs j)) 0) eqn:F0; [now apply IH|].
  destruct (list_eqb _ _) eqn:EL; [|now apply IH]. apply list_eqb_eq in EL.
  destruct (H j (or_introl eq_refl)) as [Lj Dij].
  assert (Ni : i <> j) by (intros ->; apply N; now left).
  destruct (va_fixed (vs j)) eqn:Fj.
  { exfalso. cbn [andb] in F0. apply Z.eqb_neq in F0.
    assert (Ei : vs i = vs0 i) by (destruct (Z i) as [?|(_ & _ & X & _)]; [assumption|congruence]).
    assert (Ej : vs j = vs0 j) by (destruct (Z j) as [?|(_ & _ & _ & X)]; [assumption|congruence]).
    rewrite Ei in Fi. rewrite Ej in Fj, F0. destruct (NT i j Li Lj Fi Fj F0) as (c & I & X). apply X. now apply twins with (cs := cs). }
  assert (S : improves vs (do_fix_by vs j 0)).
  { apply (domination_step vs i j); auto. destruct Dij as [X|[_ X]]; [lia|exact X]. }
  assert (Z' : zeroed (do_fix_by vs j 0)) by now apply zeroed_fix.
  destruct (IH (do_fix_by vs j 0) Z' Li) as [A B]; auto.
  { destruct (fix_by_facts vs j 0 i) as (_ & _ & _ & _ & F5). now rewrite (F5 Ni). }
  split; [exact A|]. eapply improves_trans; eauto.
Qed.

Lemma domination_scan_spec l : forall vs, zeroed vs -> NoDup l -> StronglySorted dom_le l -> (forall j, In j l -> j < n) ->
  zeroed (domination_scan caddr cs l vs) /\ improves vs (domination_scan caddr cs l vs).
Proof.
  induction l as [|i tl IH]; intros vs Z N S H; cbn [domination_scan].
  { split; [exact Z|apply improves_refl]. }
  inversion N as [|? ? Ni Ntl]; subst. inversion S as [|? ? Stl Hi]; subst. rewrite Forall_forall in Hi.
  assert (H' : forall j, In j tl -> j < n) by (intros j I; apply H; now right).
  destruct (va_fixed (vs i)) eqn:F; [now apply IH|].
  pose proof (dominated_scan_spec i tl vs Z (H i (or_introl eq_refl)) F Ni (fun j I => conj (H' j I) (Hi j I))) as [A B].
  destruct (dominated_scan caddr cs i tl vs) as [vs1 ended]. cbn [fst] in A, B. destruct ended; [split; assumption|].
  destruct (IH vs1 A Ntl Stl H') as [A' B']. split; [exact A'|]. eapply improves_trans; eauto.
Qed.

Lemma dominates_sorted name l : StronglySorted dom_le (stable_sort (dominates caddr cs minimize (coef (ex_sens obj)) name vs0) l).
Proof.
  apply sort_ordered; unfold dom_le, dominates.
  - intros a b. destruct (N.eqb_spec (var_hash caddr cs b) (var_hash caddr cs a)) as [E|E]; cbn [negb].
    + destruct (Qeq_bool _ _) eqn:Q; cbn [negb].
      * intros _. right. split; [exact E|]. apply Qeq_bool_iff in Q. now apply as_good_refl.
      * unfold as_good. intros H. right. split; [exact E|]. destruct minimize; apply negb_true_iff in H;
        match type of H with Qle_bool ?p ?q = false => destruct (Qlt_le_dec q p) as [X|X]; [|apply Qle_bool_iff in X; congruence] end; lra.
    + intros H. apply N.ltb_lt in H. now left.
  - intros a b. destruct (N.eqb_spec (var_hash caddr cs b) (var_hash caddr cs a)) as [E|E]; cbn [negb].
    + destruct (Qeq_bool _ _) eqn:Q; cbn [negb].
      * intros _. right. split; [auto|]. apply Qeq_bool_iff in Q. apply as_good_refl. now symmetry.
      * unfold as_good. intros H. right. split; [auto|]. destruct minimize; apply negb_false_iff in H; now apply Qle_bool_iff in H.
    + intros H. apply N.ltb_ge in H. left. lia.
  - intros a b c. intros [A|[A A']] [B|[B B']]; [left; lia|left; lia|left; lia|right]. split; [congruence|]. eapply as_good_trans; eauto.
Qed.

Lemma redundant_variables_spec (refs : ctype -> list nat) name :
  let vs := remove_redundant_set_variables caddr refs minimize (coef (ex_sens obj)) name n cs vs0 in
  zeroed vs /\ improves vs0 vs.
Proof.
  unfold remove_redundant_set_variables.
  assert (Z0 : zeroed vs0) by (intros v; now left).
  destruct (_ =? _); [split; [exact Z0|apply improves_refl]|]. destruct (negb _); [split; [exact Z0|apply improves_refl]|].
  assert (P := sort_perm (dominates caddr cs minimize (coef (ex_sens obj)) name vs0) (seq 0 n)).
  apply domination_scan_spec; [exact Z0| |apply dominates_sorted|].
  - eapply Permutation_NoDup; [symmetry; exact P|apply seq_NoDup].
  - intros j I. apply (Permutation_in _ P), in_seq in I. lia.
Qed.
End Domination.
