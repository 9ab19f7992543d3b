From Coq Require Import List ZArith QArith Qabs Bool Sorted Lia Lqa.
From Verif Require Import ExprModel ConstraintModel PresolveModel LearnerModel LearnerSpec.
Import ListNotations.
Local Open Scope Q_scope.

(** * The candidates *)
Lemma pow_gt n : (Z.of_nat n < 2 ^ Z.of_nat n)%Z.
Proof.
  induction n as [|n IH]; [reflexivity|].
  rewrite Nat2Z.inj_succ, Z.pow_succ_r by lia. lia.
Qed.

Lemma doubling_in fuel : forall k max p, (0 <= k)%Z -> (max <= 2 ^ (k + Z.of_nat fuel))%Z ->
  In p (doubling fuel (2 ^ k) max) <-> exists j, (k <= j)%Z /\ p = (2 ^ j)%Z /\ (p < max)%Z.
Proof.
  induction fuel as [|f IH]; intros k max p Hk Hf.
  - cbn [doubling In]. split; [tauto|]. intros (j & A & -> & C).
    rewrite Nat2Z.inj_0, Z.add_0_r in Hf.
    pose proof (Z.pow_le_mono_r 2 k j ltac:(lia) A). lia.
  - cbn [doubling]. destruct (Z.ltb_spec (2 ^ k) max) as [L|L].
    + rewrite <- Z.pow_succ_r by lia. cbn [In]. rewrite IH; [|lia|].
      2: { replace (Z.succ k + Z.of_nat f)%Z with (k + Z.of_nat (S f))%Z by lia. exact Hf. }
      split.
      * intros [<-|(j & A & B & C)]; [exists k; split; [lia|split; [reflexivity|lia]]|exists j; split; [lia|split; [exact B|exact C]]].
      * intros (j & A & -> & C). destruct (Z.eq_dec j k) as [->|N]; [left; reflexivity|].
        right. exists j. split; [lia|split; [reflexivity|exact C]].
    + cbn [In]. split; [tauto|]. intros (j & A & -> & C).
      pose proof (Z.pow_le_mono_r 2 k j ltac:(lia) A). lia.
Qed.

Lemma doubling_sorted fuel : forall n max, (0 < n)%Z ->
  StronglySorted Z.lt (doubling fuel n max) /\ Forall (fun p => (n <= p < max)%Z) (doubling fuel n max).
Proof.
  induction fuel as [|f IH]; intros n max Hn; cbn [doubling].
  - split; constructor.
  - destruct (Z.ltb_spec n max) as [L|L]; [|split; constructor].
    destruct (IH (2 * n)%Z max ltac:(lia)) as (A & B). split.
    + constructor; [exact A|]. eapply Forall_impl; [|exact B]. cbv beta. intros; lia.
    + constructor; [lia|]. eapply Forall_impl; [|exact B]. cbv beta. intros; lia.
Qed.

Lemma sorted_snoc l x : StronglySorted Z.lt l -> Forall (fun p => (p < x)%Z) l -> StronglySorted Z.lt (l ++ [x]).
Proof.
  induction 1 as [|a l A IH B]; intros F; cbn [app].
  - constructor; constructor.
  - inversion F as [|? ? F1 F2]; subst. constructor; [apply IH; exact F2|].
    apply Forall_app. split; [exact B|constructor; [exact F1|constructor]].
Qed.

Lemma patterns_candidates max : (1 <= max)%Z -> candidates max (thread_patterns max).
Proof.
  intros H. unfold thread_patterns. destruct (doubling_sorted (Z.to_nat max) 1 max ltac:(lia)) as (A & B). split.
  - apply sorted_snoc; [exact A|]. eapply Forall_impl; [|exact B]. cbv beta. intros; lia.
  - intros p. rewrite in_app_iff. cbn [In].
    rewrite (doubling_in (Z.to_nat max) 0 max p ltac:(lia)).
    + split; [intros [?|[?|[]]]; [right|left; congruence]; assumption | intros [->|?]; [right; left; reflexivity|left; assumption]].
    + pose proof (pow_gt (Z.to_nat max)) as P. rewrite Z2Nat.id in P by lia.
      rewrite Z2Nat.id by lia. cbn [Z.add]. lia.
Qed.

Lemma sorted_nodup l : StronglySorted Z.lt l -> NoDup l.
Proof.
  induction 1 as [|a l A IH B]; constructor; [|exact IH].
  intros C. rewrite Forall_forall in B. specialize (B a C). lia.
Qed.

Lemma candidates_range max l p : (1 <= max)%Z -> candidates max l -> In p l -> (1 <= p <= max)%Z.
Proof.
  intros H (_ & C) I. apply C in I. destruct I as [->|(k & A & -> & B)]; [lia|].
  pose proof (Z.pow_pos_nonneg 2 k ltac:(lia) A). lia.
Qed.

Lemma patterns_head max : (1 <= max)%Z -> nth_error (thread_patterns max) 0 = Some 1%Z.
Proof.
  intros H. unfold thread_patterns. destruct (Z.to_nat max) eqn:E; [lia|].
  cbn [doubling]. destruct (Z.ltb_spec 1 max) as [L|L]; [reflexivity|].
  cbn. f_equal. lia.
Qed.

(** * One action *)
Definition learn_all (d : Q) (l : list Q) (a : action) : action := fold_left (fun a s => action_learn a s d) l a.

Definition same_but_conf (a b : action) : Prop :=
  ac_body a = ac_body b /\ ac_samples a = ac_samples b /\ ac_total a = ac_total b /\ ac_mean a = ac_mean b /\
  ac_min a = ac_min b /\ ac_max a = ac_max b /\ ac_range a = ac_range b.

Lemma confide_same width i a : same_but_conf (action_confide width i a) a.
Proof. unfold action_confide. destruct (ac_samples a =? 0)%nat; repeat split. Qed.

Lemma confide_eq width i a b : same_but_conf a b -> (ac_samples a = 0%nat -> a = b) -> action_confide width i a = action_confide width i b.
Proof.
  intros (A & B & C & D & E & F & G) Z. unfold action_confide. rewrite <- B.
  destruct (Nat.eqb_spec (ac_samples a) 0) as [N|N]; [exact (Z N)|]. rewrite A, C, D, E, F, G. reflexivity.
Qed.

Lemma learn_same a b s d : same_but_conf a b -> same_but_conf (action_learn a s d) (action_learn b s d).
Proof.
  intros (A & B & C & D & E & F & G). unfold action_learn. rewrite A, B, C, D, E, F.
  destruct (Nat.eqb _ 1); repeat split.
Qed.

Lemma learn_samples a s d : ac_samples (action_learn a s d) = S (ac_samples a).
Proof. unfold action_learn. destruct (Nat.eqb _ 1); reflexivity. Qed.

Lemma confide_confide width i j a : action_confide width j (action_confide width i a) = action_confide width j a.
Proof.
  apply confide_eq; [apply confide_same|]. unfold action_confide.
  destruct (Nat.eqb_spec (ac_samples a) 0) as [N|N]; [reflexivity|]. cbn [ac_samples]. intros; contradiction.
Qed.

Lemma confide_learn width i j a s d :
  action_confide width j (action_learn (action_confide width i a) s d) = action_confide width j (action_learn a s d).
Proof.
  apply confide_eq; [apply learn_same, confide_same|]. rewrite learn_samples. discriminate.
Qed.

Lemma learn_all_samples d l : forall a, ac_samples (learn_all d l a) = (ac_samples a + length l)%nat.
Proof.
  induction l as [|s l IH]; intros a; cbn [learn_all fold_left length]; [lia|].
  change (fold_left _ l ?x) with (learn_all d l x). rewrite IH, learn_samples. lia.
Qed.

Lemma learn_all_body d l : forall a, ac_body (learn_all d l a) = ac_body a.
Proof.
  induction l as [|s l IH]; intros a; [reflexivity|]. cbn [learn_all fold_left].
  change (fold_left _ l ?x) with (learn_all d l x). rewrite IH. unfold action_learn. destruct (Nat.eqb _ 1); reflexivity.
Qed.

Definition triple (a : action) : Q * Q * Q := (ac_min a, ac_mean a, ac_max a).

Lemma learn_all_triple d l : forall a, (0 < ac_samples a)%nat ->
  triple (learn_all d l a) = fold_left (fade d) l (triple a) /\
  (l <> [] -> ac_range (learn_all d l a) = ac_max (learn_all d l a) - ac_min (learn_all d l a)).
Proof.
  induction l as [|s l IH]; intros a H; [split; [reflexivity|tauto]|].
  cbn [learn_all fold_left]. change (fold_left _ l ?x) with (learn_all d l x) at 1 3 4 5.
  assert (P : (0 < ac_samples (action_learn a s d))%nat) by (rewrite learn_samples; lia).
  destruct (IH _ P) as (A & B).
  assert (T : triple (action_learn a s d) = fade d (triple a) s /\ ac_range (action_learn a s d) = ac_max (action_learn a s d) - ac_min (action_learn a s d)).
  { unfold action_learn, triple, fade. destruct (ac_samples a) as [|n] eqn:E; [lia|]. cbn. split; reflexivity. }
  split.
  - rewrite A. f_equal. apply T.
  - intros _. destruct l as [|s' l]; [apply T|]. apply B. discriminate.
Qed.

Lemma learn_all_new d p l : l <> [] ->
  triple (learn_all d l (action_new p)) = digest d l /\ ac_range (learn_all d l (action_new p)) = spread_of d l.
Proof.
  destruct l as [|s l]; [tauto|]. intros _. cbn [learn_all fold_left].
  change (fold_left (fun a s0 => action_learn a s0 d) l ?x) with (learn_all d l x).
  destruct (learn_all_triple d l (action_learn (action_new p) s d) ltac:(rewrite learn_samples; lia)) as (A & B).
  split; [rewrite A; reflexivity|].
  destruct l as [|s' l]; [reflexivity|].
  rewrite B by discriminate. unfold spread_of.
  cbn [digest]. change (triple (action_learn (action_new p) s d)) with (s, s, s) in A.
  rewrite <- A. reflexivity.
Qed.

(** * Means and spreads *)
Lemma fade_hull d lo0 hi0 t s : 0 <= d <= 1 -> lo0 <= s <= hi0 ->
  lo0 <= snd (fst t) <= hi0 -> lo0 <= snd (fst (fade d t s)) <= hi0.
Proof.
  destruct t as [[lo m] hi]. intros Hd Hs Hm. cbn in *.
  split.
  - assert (E : d * m + (1 - d) * s - lo0 == d * (m - lo0) + (1 - d) * (s - lo0)) by ring.
    assert (0 <= d * (m - lo0)) by (apply Qmult_le_0_compat; lra).
    assert (0 <= (1 - d) * (s - lo0)) by (apply Qmult_le_0_compat; lra). lra.
  - assert (E : hi0 - (d * m + (1 - d) * s) == d * (hi0 - m) + (1 - d) * (hi0 - s)) by ring.
    assert (0 <= d * (hi0 - m)) by (apply Qmult_le_0_compat; lra).
    assert (0 <= (1 - d) * (hi0 - s)) by (apply Qmult_le_0_compat; lra). lra.
Qed.

Lemma fold_hull d lo hi l : 0 <= d <= 1 -> (forall s, In s l -> lo <= s <= hi) -> forall t,
  lo <= snd (fst t) <= hi -> lo <= snd (fst (fold_left (fade d) l t)) <= hi.
Proof.
  intros Hd. induction l as [|s l IH]; intros H t Ht; [exact Ht|]. cbn [fold_left].
  apply IH; [intros x Hx; apply H; right; exact Hx|]. apply fade_hull; [exact Hd|apply H; left; reflexivity|exact Ht].
Qed.

Lemma mean_hull d lo hi l : 0 <= d <= 1 -> l <> [] -> (forall s, In s l -> lo <= s <= hi) -> lo <= mean_of d l <= hi.
Proof.
  intros Hd N H. destruct l as [|s l]; [tauto|]. unfold mean_of. cbn [digest].
  apply fold_hull; [exact Hd|intros x Hx; apply H; right; exact Hx|]. cbn. apply H. left. reflexivity.
Qed.

Lemma fade_order d t s : fst (fst (fade d t s)) <= s <= snd (fade d t s).
Proof.
  destruct t as [[lo m] hi]. cbn.
  destruct (Qlt_le_dec s ((lo - m) * d + m)); destruct (Qlt_le_dec ((hi - m) * d + m) s); split; lra.
Qed.

Lemma fold_order d l : forall t, fst (fst t) <= snd t -> fst (fst (fold_left (fade d) l t)) <= snd (fold_left (fade d) l t).
Proof.
  induction l as [|s l IH]; intros t H; [exact H|]. cbn [fold_left]. apply IH.
  pose proof (fade_order d t s) as (A & B). lra.
Qed.

Lemma spread_nonneg d l : 0 <= spread_of d l.
Proof.
  unfold spread_of. destruct l as [|s [|s' l]]; [cbn; lra|apply Qabs_nonneg|].
  cbn [digest]. pose proof (fold_order d (s' :: l) (s, s, s)) as H. cbn [fst snd] in H.
  specialize (H ltac:(lra)). lra.
Qed.

Lemma mean_bound d l : 0 <= d <= 1 -> (forall s, In s l -> 0 <= s) -> 0 <= mean_of d l.
Proof.
  intros Hd H. destruct l as [|s l]; [unfold mean_of; cbn; lra|].
  assert (B : exists hi, forall x, In x (s :: l) -> x <= hi).
  { generalize (s :: l) as k. induction k as [|x k (hi & IH)]; [exists 0; cbn; tauto|].
    exists (qmax x hi). intros y [<-|Hy]; unfold qmax; destruct (Qlt_le_dec x hi); try lra.
    - apply IH; exact Hy.
    - specialize (IH y Hy); lra. }
  destruct B as (hi & B). apply (mean_hull d 0 hi (s :: l) Hd); [discriminate|]. intros x Hx. split; [apply H|apply B]; exact Hx.
Qed.

(** * The choice *)
Lemma first_untried_spec acts : forall i,
  match first_untried acts i with
  | Some j => (i <= j)%nat /\ (exists a, nth_error acts (j - i) = Some a /\ ac_samples a = 0%nat) /\
              forall k a, (k < j - i)%nat -> nth_error acts k = Some a -> ac_samples a <> 0%nat
  | None => forall a, In a acts -> ac_samples a <> 0%nat
  end.
Proof.
  induction acts as [|a acts IH]; intros i; cbn [first_untried]; [cbn; tauto|].
  destruct (Nat.eqb_spec (ac_samples a) 0) as [E|E].
  - split; [lia|]. rewrite Nat.sub_diag. split; [exists a; split; [reflexivity|exact E]|]. intros; lia.
  - specialize (IH (S i)). destruct (first_untried acts (S i)) as [j|].
    + destruct IH as (A & (b & B & C) & D). split; [lia|].
      replace (j - i)%nat with (S (j - S i)) by lia. split; [exists b; split; assumption|].
      intros k c Hk Hc. destruct k as [|k]; [cbn in Hc; injection Hc as <-; exact E|].
      apply (D k c); [lia|exact Hc].
    + intros b [<-|Hb]; [exact E|apply IH; exact Hb].
Qed.

Lemma argmax_upper_spec acts : forall i best bv,
  (exists j a, argmax_upper acts i best bv = Some (i + j)%nat /\ nth_error acts j = Some a /\
     bv < ac_mean a + ac_conf a /\
     (forall k b, nth_error acts k = Some b -> ac_mean b + ac_conf b <= ac_mean a + ac_conf a) /\
     (forall k b, (k < j)%nat -> nth_error acts k = Some b -> ac_mean b + ac_conf b < ac_mean a + ac_conf a)) \/
  (argmax_upper acts i best bv = best /\ forall b, In b acts -> ac_mean b + ac_conf b <= bv).
Proof.
  induction acts as [|a acts IH]; intros i best bv; cbn [argmax_upper]; [right; split; [reflexivity|cbn; tauto]|].
  cbv zeta. destruct (Qlt_le_dec bv (ac_mean a + ac_conf a)) as [L|L].
  - left. destruct (IH (S i) (Some i) (ac_mean a + ac_conf a)) as [(j & b & A & B & C & D & E)|(A & B)].
    + exists (S j), b. rewrite A. split; [f_equal; lia|]. split; [exact B|]. split; [lra|]. split.
      * intros [|k] c Hc; cbn in Hc; [injection Hc as <-; lra|apply (D k c Hc)].
      * intros [|k] c Hk Hc; cbn in Hc; [injection Hc as <-; lra|]. apply (E k c); [lia|exact Hc].
    + exists 0%nat, a. rewrite A. split; [f_equal; lia|]. split; [reflexivity|]. split; [exact L|]. split.
      * intros [|k] c Hc; cbn in Hc; [injection Hc as <-; lra|]. apply B. eapply nth_error_In; exact Hc.
      * intros; lia.
  - destruct (IH (S i) best bv) as [(j & b & A & B & C & D & E)|(A & B)].
    + left. exists (S j), b. rewrite A. split; [f_equal; lia|]. split; [exact B|]. split; [lra|]. split.
      * intros [|k] c Hc; cbn in Hc; [injection Hc as <-; lra|apply (D k c Hc)].
      * intros [|k] c Hk Hc; cbn in Hc; [injection Hc as <-; lra|]. apply (E k c); [lia|exact Hc].
    + right. split; [exact A|]. intros c [<-|Hc]; [exact L|apply B; exact Hc].
Qed.
