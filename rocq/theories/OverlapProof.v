(** * The ratio counts the common constraints *)
From Coq Require Import List Bool Arith ZArith QArith Permutation Lia Lqa.
From Verif Require Import OverlapModel OverlapSpec.
Import ListNotations.

Lemma has_spec : forall l x, has l x = true <-> In x l.
Proof.
  intros l x; unfold has; rewrite existsb_exists; split.
  - intros (y & Hy & E); apply Nat.eqb_eq in E; subst; exact Hy.
  - intro H; exists x; split; [exact H | apply Nat.eqb_refl].
Qed.

Lemma insert_spec : forall x l, NoDup l -> NoDup (insert x l) /\ forall y, In y (insert x l) <-> y = x \/ In y l.
Proof.
  intros x l N; unfold insert; destruct (has l x) eqn:E.
  - apply has_spec in E; split; [exact N|]; intro y; split; [tauto | intros [->|H]; assumption].
  - assert (X : ~ In x l) by (intro H; apply has_spec in H; congruence). split.
    + apply (Permutation_NoDup (l := x :: l)); [apply Permutation_cons_append | constructor; assumption].
    + intro y; rewrite in_app_iff; cbn; intuition congruence.
Qed.

Lemma union_spec : forall b a, NoDup a -> NoDup (update_union a b) /\ forall y, In y (update_union a b) <-> In y a \/ In y b.
Proof.
  unfold update_union; induction b as [|x b IH]; intros a N; cbn; [split; [exact N | tauto]|].
  destruct (insert_spec x a N) as (N1 & I1). destruct (IH (insert x a) N1) as (N2 & I2).
  split; [exact N2|]; intro y; rewrite I2, I1; intuition congruence.
Qed.

Lemma from_vector_spec : forall l, NoDup (from_vector l) /\ forall y, In y (from_vector l) <-> In y l.
Proof.
  intro l; destruct (union_spec l [] (NoDup_nil _)) as (N & I); split; [exact N|].
  intro y; unfold from_vector; rewrite I; cbn; tauto.
Qed.

Lemma inter_spec : forall a b, NoDup a -> NoDup (update_intersection a b) /\ forall y, In y (update_intersection a b) <-> In y a /\ In y b.
Proof.
  intros a b N; unfold update_intersection; split; [apply NoDup_filter; exact N|].
  intro y; rewrite filter_In, has_spec; tauto.
Qed.

Lemma gather_spec : forall related vs u i, NoDup u -> NoDup i ->
  is_set_of (fun c => In c u \/ in_some related vs c) (fst (gather related u i vs)) /\
  is_set_of (fun c => In c i /\ in_all related vs c) (snd (gather related u i vs)).
Proof.
  intros related; induction vs as [|v vs IH]; intros u i Nu Ni; cbn [gather]; cbv zeta.
  - cbn; split; split; try assumption; intro x.
    + split; [tauto | intros [H|(v & [] & _)]; exact H].
    + split; [intro H; split; [exact H | intros v []] | tauto].
  - destruct (from_vector_spec (related v)) as (_ & If).
    destruct (union_spec (from_vector (related v)) u Nu) as (Nu' & Iu).
    destruct (inter_spec i (from_vector (related v)) Ni) as (Ni' & Ii).
    destruct (IH _ _ Nu' Ni') as ((A1 & A2) & (B1 & B2)). split; split; try assumption; intro x.
    + rewrite A2, Iu, If. split.
      * intros [[H|H]|(w & Hw & H)]; [left; exact H | right; exists v; split; [left; reflexivity | exact H] | right; exists w; split; [right; exact Hw | exact H]].
      * intros [H|(w & [<-|Hw] & H)]; [left; left; exact H | left; right; exact H | right; exists w; split; assumption].
    + rewrite B2, Ii, If. split.
      * intros ((H1 & H2) & H3); split; [exact H1|]; intros w [<-|Hw]; [exact H2 | exact (H3 w Hw)].
      * intros (H1 & H2); split; [split; [exact H1 | apply H2; left; reflexivity] | intros w Hw; apply H2; right; exact Hw].
Qed.

Lemma set_length : forall P Q l l', is_set_of P l -> is_set_of Q l' -> (forall x, P x <-> Q x) -> length l = length l'.
Proof.
  intros P Q l l' (N & H) (N' & H') E. apply Permutation_length, NoDup_Permutation; [exact N | exact N' |].
  intro x; rewrite H, H', E; tauto.
Qed.

Theorem ratio_counts : forall related vs common all,
  vs <> [] -> is_set_of (in_all related vs) common -> is_set_of (in_some related vs) all ->
  (overlap_ratio related vs == inject_Z (Z.of_nat (length common)) / inject_Z (Z.of_nat (length all)))%Q.
Proof.
  intros related [|v vs] common all Hv Hc Ha; [congruence|]. unfold overlap_ratio; cbv zeta.
  destruct (from_vector_spec (related v)) as (Nf & If). destruct (from_vector (related v)) as [|x f] eqn:E.
  - assert (C : common = []).
    { destruct common as [|c common]; [reflexivity|]. destruct Hc as (_ & Hc).
      assert (X : In c (related v)) by (apply (proj1 (Hc c) (or_introl eq_refl)); left; reflexivity).
      apply If in X; destruct X. }
    subst common; cbn. unfold Qdiv. rewrite Qmult_0_l; reflexivity.
  - rewrite <- E in *. destruct (gather_spec related vs _ _ Nf Nf) as (Hu & Hi).
    destruct (gather related (from_vector (related v)) (from_vector (related v)) vs) as (u, i); cbn [fst snd] in *.
    rewrite (set_length _ _ _ _ Hc Hi), (set_length _ _ _ _ Ha Hu); [reflexivity | |].
    + intro c; rewrite If; unfold in_some; split.
      * intros (w & [<-|Hw] & H); [left; exact H | right; exists w; split; assumption].
      * intros [H|(w & Hw & H)]; [exists v; split; [left; reflexivity | exact H] | exists w; split; [right; exact Hw | exact H]].
    + intro c; rewrite If; unfold in_all; split.
      * intro H; split; [apply H; left; reflexivity | intros w Hw; apply H; right; exact Hw].
      * intros (H1 & H2) w [<-|Hw]; [exact H1 | exact (H2 w Hw)].
Qed.

(** Such sets exist. *)
Lemma sets_exist : forall related vs, vs <> [] ->
  exists common all, is_set_of (in_all related vs) common /\ is_set_of (in_some related vs) all.
Proof.
  intros related [|v vs] Hv; [congruence|].
  destruct (from_vector_spec (related v)) as (Nf & If). destruct (gather_spec related vs _ _ Nf Nf) as ((Hu1 & Hu) & (Hi1 & Hi)).
  eexists; eexists; split; split; [exact Hi1 | | exact Hu1 |]; intro c.
  - rewrite Hi, If; unfold in_all; split.
    + intros (H1 & H2) w [<-|Hw]; [exact H1 | exact (H2 w Hw)].
    + intro H; split; [apply H; left; reflexivity | intros w Hw; apply H; right; exact Hw].
  - rewrite Hu, If; unfold in_some; split.
    + intros [H|(w & Hw & H)]; [exists v; split; [left; reflexivity | exact H] | exists w; split; [right; exact Hw | exact H]].
    + intros (w & [<-|Hw] & H); [left; exact H | right; exists w; split; assumption].
Qed.

Theorem ratio_order : forall related vs vs', Permutation vs vs' -> (overlap_ratio related vs == overlap_ratio related vs')%Q.
Proof.
  intros related vs vs' P. destruct vs as [|v vs]; [apply Permutation_nil in P; subst; reflexivity|].
  assert (N' : vs' <> []) by (intro X; subst; apply Permutation_sym, Permutation_nil in P; discriminate).
  destruct (sets_exist related (v :: vs)) as (c & a & Hc & Ha); [discriminate|].
  rewrite (ratio_counts related (v :: vs) c a) by (try discriminate; assumption).
  symmetry; apply ratio_counts; [exact N' | |].
  - destruct Hc as (N & H); split; [exact N|]; intro x; rewrite H; unfold in_all; split; intros X w Hw; apply X;
      [apply (Permutation_in _ (Permutation_sym P)) | apply (Permutation_in _ P)]; exact Hw.
  - destruct Ha as (N & H); split; [exact N|]; intro x; rewrite H; unfold in_some; split; intros (w & Hw & X); exists w; split; try exact X;
      [apply (Permutation_in _ P) | apply (Permutation_in _ (Permutation_sym P))]; exact Hw.
Qed.

Theorem ratio_range : forall related vs,
  (0 <= overlap_ratio related vs <= 1)%Q /\
  ((overlap_ratio related vs == 1)%Q <->
   (exists c, in_some related vs c) /\ forall c, in_some related vs c -> in_all related vs c).
Proof.
  intros related vs. destruct vs as [|v vs].
  { cbn; split; [split; lra|]. split; [intro X; discriminate X | intros ((c & w & [] & _) & _)]. }
  set (ws := v :: vs). destruct (sets_exist related ws) as (c & a & Hc & Ha); [discriminate|].
  assert (E := ratio_counts related ws c a ltac:(discriminate) Hc Ha).
  assert (Inc : incl c a).
  { intros x Hx; apply (proj2 Hc) in Hx; apply (proj2 Ha); exists v; split; [left; reflexivity | apply Hx; left; reflexivity]. }
  assert (L : (length c <= length a)%nat) by (apply NoDup_incl_length; [exact (proj1 Hc) | exact Inc]).
  destruct (Nat.eq_dec (length a) 0) as [Z|Z].
  - assert (Ea : a = []) by (destruct a; [reflexivity | discriminate]). assert (Ec : c = []) by (subst a; destruct c; [reflexivity | cbn in L; lia]).
    subst a c; cbn in E. change (overlap_ratio related ws == 0)%Q in E. rewrite E. split; [split; lra|].
    split; [intro X; discriminate X|]. intros ((x & Hx) & _); apply (proj2 Ha) in Hx; destruct Hx.
  - assert (P : (0 < inject_Z (Z.of_nat (length a)))%Q) by (change 0%Q with (inject_Z 0); rewrite <- Zlt_Qlt; lia).
    split; [split|].
    + rewrite E. apply Qle_shift_div_l; [exact P|]. rewrite Qmult_0_l. change 0%Q with (inject_Z 0); rewrite <- Zle_Qle; lia.
    + rewrite E. apply Qle_shift_div_r; [exact P|]. rewrite Qmult_1_l. rewrite <- Zle_Qle; lia.
    + rewrite E. split.
      * intro X. assert (Y : (inject_Z (Z.of_nat (length c)) == inject_Z (Z.of_nat (length a)))%Q).
        { rewrite <- (Qmult_div_r (inject_Z (Z.of_nat (length c))) (inject_Z (Z.of_nat (length a)))) by lra. rewrite X; ring. }
        apply (proj1 (inject_Z_injective _ _)) in Y. apply Nat2Z.inj in Y. split.
        -- destruct a as [|x a]; [cbn in Z; lia|]. exists x; apply (proj2 Ha); left; reflexivity.
        -- intros x Hx. apply (proj2 Ha) in Hx. apply (proj2 Hc).
           refine (NoDup_length_incl (l := c) (l' := a) (proj1 Hc) _ Inc x Hx); lia.
      * intros (_ & H). assert (L' : (length a <= length c)%nat).
        { apply NoDup_incl_length; [exact (proj1 Ha)|]. intros x Hx; apply (proj2 Hc), H, (proj2 Ha); exact Hx. }
        replace (length c) with (length a) by lia. field. lra.
Qed.
