From Coq Require Import List ZArith QArith Qabs Bool Sorted Lia Lqa.
From Verif Require Import ExprModel ConstraintModel PresolveModel LearnerModel LearnerSpec LearnerProof.
Import ListNotations.
Local Open Scope Q_scope.

Lemma rates_snoc q used rounds p r : length used = length rounds ->
  rates q (used ++ [p]) (rounds ++ [r]) = rates q used rounds ++ (if (p =? q)%Z then [rate r] else []).
Proof.
  intros H. unfold rates.
  assert (E : combine (used ++ [p]) (rounds ++ [r]) = combine used rounds ++ [(p, r)]).
  { clear q. revert rounds H. induction used as [|u used IH]; intros [|x rounds] H; try discriminate; [reflexivity|].
    cbn [app combine]. f_equal. apply IH. injection H as H. exact H. }
  rewrite E, filter_app, map_app. f_equal. cbn [filter fst]. destruct (p =? q)%Z; reflexivity.
Qed.

Lemma put_map {A} (f : Z -> A) (g : A -> A) pats : forall b p, NoDup pats -> nth_error pats b = Some p ->
  put (map f pats) b g = map (fun q => if (p =? q)%Z then g (f q) else f q) pats.
Proof.
  induction pats as [|x pats IH]; intros b p N H; [destruct b; discriminate|].
  inversion N as [|? ? N1 N2]; subst. destruct b as [|b]; cbn [map put]; cbn in H.
  - injection H as ->. rewrite Z.eqb_refl. f_equal. apply map_ext_in. intros q Hq.
    destruct (Z.eqb_spec p q) as [->|]; [contradiction|reflexivity].
  - rewrite (IH b p N2 H). f_equal. destruct (Z.eqb_spec p x) as [->|]; [|reflexivity].
    exfalso. apply N1. eapply nth_error_In; exact H.
Qed.

Lemma nth_map_in {A B} (f : A -> B) l : forall k, nth_error (map f l) k = option_map f (nth_error l k).
Proof. induction l as [|a l IH]; intros [|k]; cbn; auto. Qed.

Lemma sorted_nth l : StronglySorted Z.lt l -> forall i j x y, (i < j)%nat -> nth_error l i = Some x -> nth_error l j = Some y -> (x < y)%Z.
Proof.
  induction 1 as [|a l A IH B]; intros i j x y L Hi Hj; [destruct i; discriminate|].
  destruct j as [|j]; [lia|]. cbn in Hj. destruct i as [|i].
  - cbn in Hi. injection Hi as <-. rewrite Forall_forall in B. apply B. eapply nth_error_In; exact Hj.
  - cbn in Hi. apply (IH i j); [lia|assumption|assumption].
Qed.

Definition act width i d p l := action_confide width i (learn_all d l (action_new p)).

Lemma act_samples width i d p l : ac_samples (act width i d p l) = length l.
Proof.
  unfold act. destruct (confide_same width i (learn_all d l (action_new p))) as (_ & E & _).
  rewrite E, learn_all_samples. reflexivity.
Qed.
Lemma act_body width i d p l : ac_body (act width i d p l) = p.
Proof.
  unfold act. destruct (confide_same width i (learn_all d l (action_new p))) as (E & _).
  rewrite E, learn_all_body. reflexivity.
Qed.
Lemma act_estimate width i d p l : l <> [] -> ac_mean (act width i d p l) + ac_conf (act width i d p l) = estimate width d i l.
Proof.
  intros N. unfold act, action_confide. rewrite learn_all_samples. cbn [action_new ac_samples plus].
  destruct l as [|s l]; [tauto|]. cbn [length Nat.eqb ac_mean ac_conf].
  destruct (learn_all_new d p (s :: l) N) as (A & B). rewrite B. unfold estimate, mean_of. rewrite <- A. reflexivity.
Qed.
Lemma learn_all_total d l : forall a, ac_total (learn_all d l a) == ac_total a + fold_right Qplus 0 l.
Proof.
  induction l as [|s l IH]; intros a; cbn [learn_all fold_left fold_right]; [ring|].
  change (fold_left _ l ?x) with (learn_all d l x). rewrite IH. unfold action_learn. destruct (Nat.eqb _ 1); cbn [ac_total]; ring.
Qed.
Lemma act_total width i d p l : ac_total (act width i d p l) == fold_right Qplus 0 l.
Proof.
  unfold act. destruct (confide_same width i (learn_all d l (action_new p))) as (_ & _ & E & _).
  rewrite E, learn_all_total. cbn [action_new ac_total]. ring.
Qed.
Lemma act_mean width i d p l : l <> [] -> ac_mean (act width i d p l) = mean_of d l.
Proof.
  intros N. unfold act. destruct (confide_same width i (learn_all d l (action_new p))) as (_ & _ & _ & E & _).
  rewrite E. unfold mean_of. destruct (learn_all_new d p l N) as (A & _). rewrite <- A. reflexivity.
Qed.

Definition chosen width d (pats : list Z) used rounds p :=
  ((length used < length pats)%nat -> nth_error pats (length used) = Some p) /\
  ((length pats <= length used)%nat -> In p pats /\
    forall q, In q pats ->
      estimate width d (length used) (rates q used rounds) <= estimate width d (length used) (rates p used rounds) /\
      (estimate width d (length used) (rates q used rounds) == estimate width d (length used) (rates p used rounds) -> (p <= q)%Z)).

Definition inv width d max pats t used rounds :=
  th_option t = true /\ th_auto t = true /\ th_max t = max /\ length used = length rounds /\
  le_actions (th_learner t) = map (fun p => act width (length used) d p (rates p used rounds)) pats /\
  le_total (th_learner t) = length used /\ le_decay (th_learner t) = d /\
  (forall k p, nth_error pats k = Some p -> (rates p used rounds = [] <-> (length used <= k)%nat)) /\
  th_total t = sum_Z used /\
  exists b p, le_best (th_learner t) = Some b /\ nth_error pats b = Some p /\ th_number t = p /\ threads_used t = p /\
    chosen width d pats used rounds p.

Lemma sum_snoc l x : sum_Z (l ++ [x]) = (sum_Z l + x)%Z.
Proof. unfold sum_Z. induction l as [|a l IH]; cbn [app fold_right]; [lia|rewrite IH; lia]. Qed.

Lemma rates_nonneg p used rounds : (forall m e, In (m, e) rounds -> (0 <= m)%Z) -> forall s, In s (rates p used rounds) -> 0 <= s.
Proof.
  intros H s Hs. unfold rates in Hs. apply in_map_iff in Hs. destruct Hs as ([u [m e]] & <- & Hs).
  apply filter_In in Hs. destruct Hs as (Hs & _). apply in_combine_r in Hs. specialize (H m e Hs).
  cbn [snd]. unfold rate. cbn [fst snd]. unfold Qdiv. apply Qmult_le_0_compat.
  - change 0 with (inject_Z 0). rewrite <- Zle_Qle. exact H.
  - apply Qinv_le_0_compat. destruct (Qlt_le_dec (1 # 10000000000) e); lra.
Qed.

Lemma DBL_pos : 0 < DBL_MAX.
Proof. unfold Qlt. vm_compute. reflexivity. Qed.

Lemma step width d max pats t used rounds m e :
  (forall i n, 0 <= width i n) -> 0 <= d <= 1 -> (1 <= max)%Z -> candidates max pats ->
  (0 <= m)%Z ->
  (forall m' e', In (m', e') rounds -> (0 <= m')%Z) ->
  inv width d max pats t used rounds ->
  exists t', threads_update width t (length used) m e = Ok t' /\
    inv width d max pats t' (used ++ [threads_used t]) (rounds ++ [(m, e)]).
Proof.
  intros W Hd Hmax HC Hm Hpos (O1 & O2 & O3 & L & A & T & D & U & SM & b & p & B & P & N & V & C).
  pose proof (sorted_nodup _ (proj1 HC)) as ND.
  unfold threads_update. rewrite O1, O2. cbn [andb].
  unfold learner_learn. rewrite B, T, D.
  set (score := inject_Z m / qmax EPS10 e).
  assert (SC : score = rate (m, e)) by reflexivity.
  rewrite A, (put_map _ _ pats b p ND P), map_map.
  set (used' := used ++ [threads_used t]). set (rounds' := rounds ++ [(m, e)]).
  assert (LU : length used' = S (length used)) by (unfold used'; rewrite app_length; cbn; lia).
  assert (RS : forall q, rates q used' rounds' = rates q used rounds ++ (if (p =? q)%Z then [score] else [])).
  { intros q. unfold used', rounds'. rewrite rates_snoc by exact L. rewrite V, SC. reflexivity. }
  assert (EA : map (fun x => action_confide width (S (length used))
                 (if (p =? x)%Z then action_learn (act width (length used) d x (rates x used rounds)) score d
                  else act width (length used) d x (rates x used rounds))) pats
             = map (fun q => act width (length used') d q (rates q used' rounds')) pats).
  { apply map_ext. intros q. rewrite LU, (RS q). unfold act. destruct (p =? q)%Z.
    - rewrite confide_learn. unfold learn_all. rewrite fold_left_app. reflexivity.
    - rewrite confide_confide, app_nil_r. reflexivity. }
  rewrite EA. clear EA.
  set (acts := map (fun q => act width (length used') d q (rates q used' rounds')) pats).
  assert (NT : forall k a, nth_error acts k = Some a -> exists q, nth_error pats k = Some q /\ a = act width (length used') d q (rates q used' rounds')).
  { intros k a Ha. unfold acts in Ha. rewrite nth_map_in in Ha. destruct (nth_error pats k) as [q|]; [|discriminate].
    cbn in Ha. injection Ha as <-. exists q. split; reflexivity. }
  assert (U' : forall k q, nth_error pats k = Some q -> (rates q used' rounds' = [] <-> (length used' <= k)%nat)).
  { intros k q Hq. rewrite (RS q), LU. specialize (U k q Hq).
    destruct (Z.eqb_spec p q) as [E|E].
    - split; [intros X; destruct (rates q used rounds); discriminate|]. intros X. exfalso.
      subst q. assert (b = k) by (apply (proj1 (NoDup_nth_error pats) ND); [apply nth_error_Some; rewrite P; discriminate|rewrite P, Hq; reflexivity]).
      subst k. destruct C as (C1 & C2).
      destruct (Nat.lt_ge_cases (length used) (length pats)) as [Y|Y].
      + specialize (C1 Y). assert (length used = b) by (apply (proj1 (NoDup_nth_error pats) ND); [exact Y|rewrite P, C1; reflexivity]). lia.
      + assert (b < length pats)%nat by (apply nth_error_Some; rewrite P; discriminate). lia.
    - rewrite app_nil_r, U. split; [|lia]. intros X.
      destruct (Nat.eq_dec k (length used)) as [Y|Y]; [|lia]. exfalso. apply E.
      destruct C as (C1 & _). subst k.
      assert (Z : (length used < length pats)%nat) by (apply nth_error_Some; rewrite Hq; discriminate).
      specialize (C1 Z). congruence. }
  set (best := match first_untried acts 0 with Some i => Some i | None => argmax_upper acts 0 None (- DBL_MAX) end).
  assert (BE : exists b' p', best = Some b' /\ nth_error pats b' = Some p' /\ chosen width d pats used' rounds' p').
  { unfold best. pose proof (first_untried_spec acts 0) as F. destruct (first_untried acts 0) as [j|].
    - destruct F as (_ & (a & F1 & F2) & F3). rewrite Nat.sub_0_r in *.
      destruct (NT _ _ F1) as (q & Q1 & ->). rewrite act_samples in F2.
      assert (F2' : rates q used' rounds' = []) by (destruct (rates q used' rounds'); [reflexivity|discriminate]).
      apply (U' j q Q1) in F2'.
      assert (J : (j < length pats)%nat) by (apply nth_error_Some; rewrite Q1; discriminate).
      destruct (nth_error pats (length used')) as [q'|] eqn:Q2; [|apply nth_error_None in Q2; lia].
      assert (X : j = length used').
      { destruct (Nat.eq_dec j (length used')) as [Y|Y]; [exact Y|]. exfalso.
        apply (F3 (length used') (act width (length used') d q' (rates q' used' rounds')) ltac:(lia)).
        - unfold acts. rewrite nth_map_in, Q2. reflexivity.
        - rewrite act_samples. rewrite (proj2 (U' _ _ Q2) (Nat.le_refl _)). reflexivity. }
      exists j, q. split; [reflexivity|]. split; [exact Q1|]. split; [intros _; rewrite <- X; exact Q1|].
      intros; lia.
    - assert (NE : forall q, In q pats -> rates q used' rounds' <> []).
      { intros q Hq X. apply (F (act width (length used') d q (rates q used' rounds'))).
        - unfold acts. apply in_map_iff. exists q. split; [reflexivity|exact Hq].
        - rewrite act_samples, X. reflexivity. }
      assert (GE : (length pats <= length used')%nat).
      { destruct (Nat.lt_ge_cases (length used') (length pats)) as [Y|Y]; [|exact Y]. exfalso.
        destruct (nth_error pats (length used')) as [q|] eqn:Q; [|apply nth_error_None in Q; lia].
        apply (NE q); [eapply nth_error_In; exact Q|]. apply (U' _ _ Q). lia. }
      destruct (argmax_upper_spec acts 0 None (- DBL_MAX)) as [(j & a & X1 & X2 & X3 & X4 & X5)|(X1 & X2)].
      + destruct (NT _ _ X2) as (q & Q1 & ->). exists j, q. split; [exact X1|]. split; [exact Q1|].
        assert (IQ : In q pats) by (eapply nth_error_In; exact Q1).
        split; [intros; lia|]. intros _. split; [exact IQ|]. intros r Hr.
        destruct (In_nth_error _ _ Hr) as (k & Hk).
        assert (K : nth_error acts k = Some (act width (length used') d r (rates r used' rounds'))) by (unfold acts; rewrite nth_map_in, Hk; reflexivity).
        pose proof (X4 k _ K) as Y. rewrite !act_estimate in Y by (apply NE; assumption). split; [exact Y|].
        intros Eq. destruct (Nat.lt_ge_cases k j) as [Z|Z].
        * pose proof (X5 k _ Z K) as Y'. rewrite !act_estimate in Y' by (apply NE; assumption). lra.
        * destruct (Nat.eq_dec k j) as [->|Z']; [rewrite Hk in Q1; injection Q1 as <-; lia|].
          apply Z.lt_le_incl. apply (sorted_nth pats (proj1 HC) j k); [lia|exact Q1|exact Hk].
      + exfalso. assert (IN : In max pats) by (apply (proj2 HC); left; reflexivity).
        assert (K : In (act width (length used') d max (rates max used' rounds')) acts) by (unfold acts; apply in_map_iff; exists max; split; [reflexivity|exact IN]).
        specialize (X2 _ K). rewrite act_estimate in X2 by (apply NE; exact IN).
        assert (E0 : 0 <= estimate width d (length used') (rates max used' rounds')).
        { unfold estimate. pose proof (mean_bound d (rates max used' rounds') Hd) as M.
          specialize (M ltac:(apply rates_nonneg; intros m' e' I; unfold rounds' in I; apply in_app_iff in I; destruct I as [I|[I|[]]]; [apply (Hpos m' e' I)|injection I as <- <-; exact Hm])).
          pose proof (Qmult_le_0_compat _ _ (spread_nonneg d (rates max used' rounds')) (W (length used') (length (rates max used' rounds')))). lra. }
        pose proof DBL_pos. lra. }
  destruct BE as (b' & p' & BE & P' & C').
  fold best. rewrite BE. cbn [bind].
  assert (BB : best_body (mkLe acts (Some b') (S (length used)) d) = Ok p').
  { unfold best_body. cbn [le_best le_actions]. unfold acts. rewrite nth_map_in, P'. cbn [option_map]. rewrite act_body. reflexivity. }
  rewrite BB. cbn [bind]. eexists. split; [reflexivity|].
  unfold inv. cbn [th_option th_auto th_max th_learner th_total th_number le_actions le_total le_decay le_best].
  split; [reflexivity|]. split; [reflexivity|]. split; [exact O3|].
  split; [unfold used', rounds'; rewrite !app_length, L; reflexivity|].
  split; [reflexivity|]. split; [symmetry; exact LU|]. split; [reflexivity|].
  split; [exact U'|].
  split. { unfold used'. rewrite sum_snoc, <- SM. unfold threads_used. destruct (th_enabled t); reflexivity. }
  exists b', p'. split; [reflexivity|]. split; [exact P'|]. split; [reflexivity|]. split; [|exact C'].
  unfold threads_used. cbn [th_enabled th_number].
  assert (R : (1 <= p' <= max)%Z) by (apply (candidates_range max pats); [exact Hmax|exact HC|eapply nth_error_In; exact P']).
  destruct (Z.ltb_spec 1 p'); lia.
Qed.

Lemma start width d max wanted : (1 <= max)%Z ->
  exists t, threads_setup true true d wanted max = Ok t /\ inv width d max (thread_patterns max) t [] [].
Proof.
  intros H. unfold threads_setup. cbn [andb].
  pose proof (patterns_head max H) as E. destruct (thread_patterns max) as [|p0 pats] eqn:P; [discriminate|].
  cbn in E. injection E as ->. cbn [map learner_setup bind best_body le_best le_actions nth_error ac_body action_new].
  eexists. split; [reflexivity|]. unfold inv. cbn [th_option th_auto th_max th_learner th_total th_number le_actions le_total le_decay le_best length].
  split; [reflexivity|]. split; [reflexivity|]. split; [reflexivity|]. split; [reflexivity|].
  split; [cbn [map]; f_equal; apply map_ext; intros q; reflexivity|]. split; [reflexivity|]. split; [reflexivity|].
  split; [intros k p _; split; [intros; lia|reflexivity]|]. split; [reflexivity|].
  exists 0%nat, 1%Z. split; [reflexivity|]. split; [reflexivity|]. split; [reflexivity|]. split; [reflexivity|].
  split; [intros _; reflexivity|cbn; intros; lia].
Qed.

Lemma run width d max pats : (forall i n, 0 <= width i n) -> 0 <= d <= 1 -> (1 <= max)%Z -> candidates max pats ->
  forall rounds, (forall m e, In (m, e) rounds -> (0 <= m)%Z) -> forall t used0 rounds0,
  (forall m e, In (m, e) rounds0 -> (0 <= m)%Z) -> inv width d max pats t used0 rounds0 ->
  exists used t', threads_run width t (length used0) rounds = Ok (used, t') /\ length used = length rounds /\
    inv width d max pats t' (used0 ++ used) (rounds0 ++ rounds) /\
    forall i p, nth_error used i = Some p -> chosen width d pats (used0 ++ firstn i used) (rounds0 ++ firstn i rounds) p.
Proof.
  intros W Hd Hmax HC. induction rounds as [|(m, e) rounds IH]; intros Hpos t used0 rounds0 Hpos0 HI.
  - exists [], t. split; [reflexivity|]. split; [reflexivity|]. rewrite !app_nil_r. split; [exact HI|]. intros [|i] p X; discriminate.
  - assert (Hm : (0 <= m)%Z) by (apply (Hpos m e); left; reflexivity).
    destruct (step width d max pats t used0 rounds0 m e W Hd Hmax HC) as (t1 & S1 & S2).
    { exact Hm. } { exact Hpos0. } { exact HI. }
    destruct (IH (fun m' e' I => Hpos m' e' (or_intror I)) t1 (used0 ++ [threads_used t]) (rounds0 ++ [(m, e)])) as (used & t' & R1 & R2 & R3 & R4).
    { intros m' e' I. apply in_app_iff in I. destruct I as [I|[I|[]]]; [apply (Hpos0 _ _ I)|injection I as <- <-; exact Hm]. }
    { exact S2. }
    exists (threads_used t :: used), t'. cbn [threads_run]. rewrite S1. cbn [bind].
    rewrite app_length in R1. cbn [length] in R1. rewrite Nat.add_1_r in R1. rewrite R1. cbn [bind fst snd].
    split; [reflexivity|]. split; [cbn; rewrite R2; reflexivity|]. rewrite <- !app_assoc in R3. split; [exact R3|].
    intros [|i] p X.
    + cbn in X. injection X as <-. cbn [firstn]. rewrite !app_nil_r.
      destruct HI as (_ & _ & _ & _ & _ & _ & _ & _ & _ & b & p & _ & _ & _ & V & C). rewrite V. exact C.
    + cbn in X. cbn [firstn]. specialize (R4 i p X). rewrite <- !app_assoc in R4. exact R4.
Qed.

Lemma choice : forall (width : nat -> nat -> Q) (d : Q) (wanted max : Z) (rounds : list (Z * Q)),
  (forall i n, 0 <= width i n) -> 0 <= d <= 1 -> (1 <= max)%Z -> (forall m e, In (m, e) rounds -> (0 <= m)%Z) ->
  exists pats t0 used t, candidates max pats /\ threads_setup true true d wanted max = Ok t0 /\
    threads_run width t0 0 rounds = Ok (used, t) /\ length used = length rounds /\
    forall i p, nth_error used i = Some p ->
      let guess q := estimate width d i (rates q (firstn i used) (firstn i rounds)) in
      ((i < length pats)%nat -> nth_error pats i = Some p) /\
      ((length pats <= i)%nat -> In p pats /\ forall q, In q pats -> guess q <= guess p /\ (guess q == guess p -> (p <= q)%Z)).
Proof.
  intros width d wanted max rounds W Hd Hmax Hpos.
  destruct (start width d max wanted Hmax) as (t0 & S1 & S2).
  pose proof (patterns_candidates max Hmax) as HC.
  destruct (run width d max (thread_patterns max) W Hd Hmax HC rounds Hpos t0 [] [] (fun m e (I : In (m, e) []) => match I with end) S2)
    as (used & t & R1 & R2 & R3 & R4).
  exists (thread_patterns max), t0, used, t. split; [exact HC|]. split; [exact S1|]. split; [exact R1|]. split; [exact R2|].
  intros i p Hp. specialize (R4 i p Hp). unfold chosen in R4. cbn [app] in R4.
  assert (L : length (firstn i used) = i).
  { apply firstn_length_le. apply Nat.lt_le_incl. apply nth_error_Some. rewrite Hp. discriminate. }
  rewrite L in R4. exact R4.
Qed.

Lemma average_auto : forall (width : nat -> nat -> Q) (d : Q) (wanted max : Z) (rounds : list (Z * Q)) t0 used t,
  (forall i n, 0 <= width i n) -> 0 <= d <= 1 -> (1 <= max)%Z -> (forall m e, In (m, e) rounds -> (0 <= m)%Z) ->
  threads_setup true true d wanted max = Ok t0 -> threads_run width t0 0 rounds = Ok (used, t) ->
  Forall (fun p => (1 <= p <= max)%Z) used /\ (1 <= threads_used t <= max)%Z /\
  candidates max (map ac_body (le_actions (th_learner t))) /\
  forall a, In a (le_actions (th_learner t)) -> let own := rates (ac_body a) used rounds in
    ac_samples a = length own /\ ac_total a == fold_right Qplus 0 own /\
    (own <> [] -> ac_mean a = mean_of d own /\ forall lo hi, (forall s, In s own -> lo <= s <= hi) -> lo <= ac_mean a <= hi).
Proof.
  intros width d wanted max rounds t0 used t W Hd Hmax Hpos S1 R1.
  destruct (start width d max wanted Hmax) as (t0' & S1' & S2). rewrite S1 in S1'. injection S1' as <-.
  pose proof (patterns_candidates max Hmax) as HC.
  destruct (run width d max (thread_patterns max) W Hd Hmax HC rounds Hpos t0 [] [] (fun m e (I : In (m, e) []) => match I with end) S2)
    as (used' & t' & R1' & R2 & R3 & R4). cbn [length] in R1'. rewrite R1 in R1'. injection R1' as <- <-.
  split; [|split].
  - apply Forall_forall. intros p Hp. destruct (In_nth_error _ _ Hp) as (i & Hi). specialize (R4 i p Hi).
    apply (candidates_range max (thread_patterns max)); [exact Hmax|exact HC|].
    destruct R4 as (A & B).
    destruct (Nat.lt_ge_cases (length ([] ++ firstn i used)) (length (thread_patterns max))) as [X|X].
    + eapply nth_error_In. apply A. exact X.
    + apply B. exact X.
  - destruct R3 as (_ & _ & _ & _ & _ & _ & _ & _ & _ & b & p & _ & P & _ & V & _). rewrite V.
    apply (candidates_range max (thread_patterns max)); [exact Hmax|exact HC|]. eapply nth_error_In; exact P.
  - destruct R3 as (_ & _ & _ & _ & A & _). cbn [app] in A. rewrite A. split.
    + rewrite map_map, (map_ext _ (fun q => q) (fun q => act_body _ _ _ q _)), map_id. exact HC.
    + intros a Ha. apply in_map_iff in Ha. destruct Ha as (q & <- & Hq). rewrite act_body. cbv zeta.
      split; [apply act_samples|]. split; [apply act_total|]. intros N. rewrite act_mean by exact N. split; [reflexivity|]. intros lo hi X. apply mean_hull; assumption.
Qed.

(** * Averages, in every mode *)
Lemma update_total width t i m e t' : threads_update width t i m e = Ok t' ->
  th_total t' = (th_total t + threads_used t)%Z /\ th_average t' = inject_Z (th_total t') / inject_Z (Z.of_nat (i + 1)) /\
  th_option t' = th_option t /\ th_auto t' = th_auto t /\ th_max t' = th_max t.
Proof.
  unfold threads_update. intros H.
  destruct (if th_option t && th_auto t then _ else _) as [l| |]; cbn [bind] in H; try discriminate.
  unfold threads_used. destruct (th_option t && th_auto t).
  - destruct (best_body l); cbn [bind] in H; try discriminate. injection H as <-. cbn. destruct (th_enabled t); repeat split.
  - injection H as <-. cbn. destruct (th_enabled t); repeat split.
Qed.

Lemma run_average width rounds : forall t i used t', threads_run width t i rounds = Ok (used, t') ->
  th_total t' = (th_total t + sum_Z used)%Z /\ length used = length rounds /\
  (rounds <> [] -> th_average t' = inject_Z (th_total t') / inject_Z (Z.of_nat (i + length rounds))).
Proof.
  induction rounds as [|(m, e) rounds IH]; intros t i used t' H; cbn [threads_run] in H.
  - injection H as <- <-. split; [cbn; lia|]. split; [reflexivity|tauto].
  - destruct (threads_update width t i m e) as [t1| |] eqn:U; cbn [bind] in H; try discriminate.
    destruct (threads_run width t1 (S i) rounds) as [[used1 t2]| |] eqn:R; cbn [bind fst snd] in H; try discriminate.
    injection H as <- <-. destruct (update_total _ _ _ _ _ _ U) as (A & B & _).
    destruct (IH _ _ _ _ R) as (C & D & E). split; [rewrite C, A; unfold sum_Z; cbn [fold_right]; lia|].
    split; [cbn; rewrite D; reflexivity|]. intros _. destruct rounds as [|r rounds].
    + cbn in R. injection R as <- <-. rewrite B. cbn [length]. reflexivity.
    + rewrite E by discriminate. cbn [length]. do 3 f_equal. lia.
Qed.

Lemma average : forall (width : nat -> nat -> Q) (option auto : bool) (d : Q) (wanted max : Z) (rounds : list (Z * Q)) t0 used t,
  threads_setup option auto d wanted max = Ok t0 -> threads_run width t0 0 rounds = Ok (used, t) -> rounds <> [] ->
  length used = length rounds /\ th_average t == inject_Z (sum_Z used) / inject_Z (Z.of_nat (length used)).
Proof.
  intros width option auto d wanted max rounds t0 used t S R N.
  destruct (run_average _ _ _ _ _ _ R) as (A & B & C). split; [exact B|]. rewrite (C N), A, B.
  assert (Z0 : th_total t0 = 0%Z).
  { unfold threads_setup in S. destruct (option && auto).
    - destruct (learner_setup _ d) as [l| |]; cbn [bind] in S; try discriminate.
      destruct (best_body l); cbn [bind] in S; try discriminate. injection S as <-. reflexivity.
    - injection S as <-. reflexivity. }
  rewrite Z0. cbn [Z.add plus]. reflexivity.
Qed.

(** * Without the learner *)
Lemma manual_run width rounds : forall t i, th_option t && th_auto t = false -> th_enabled t = th_option t ->
  th_number t = th_max t ->
  exists used t', threads_run width t i rounds = Ok (used, t') /\ length used = length rounds /\
    forall p, In p used -> p = if th_option t then th_max t else 1%Z.
Proof.
  induction rounds as [|(m, e) rounds IH]; intros t i H E N; cbn [threads_run].
  - exists [], t. split; [reflexivity|]. split; [reflexivity|]. cbn; tauto.
  - unfold threads_update. rewrite H. cbn [bind].
    edestruct (IH (mkTh (th_option t) (th_auto t) (th_max t) (th_option t) (th_max t)
        (if th_enabled t then (th_total t + th_number t)%Z else (th_total t + 1)%Z)
        (inject_Z (if th_enabled t then (th_total t + th_number t)%Z else (th_total t + 1)%Z) / inject_Z (Z.of_nat (i + 1)))
        (th_learner t)) (S i)) as (used & t' & A & B & C); [exact H|reflexivity|reflexivity|].
    rewrite A. cbn [bind fst snd]. eexists _, _. split; [reflexivity|]. split; [cbn; rewrite B; reflexivity|].
    intros p [<-|Hp]; [|apply (C p Hp)]. unfold threads_used. rewrite E, N. destruct (th_option t); reflexivity.
Qed.

Lemma manual : forall (width : nat -> nat -> Q) (option auto : bool) (d : Q) (wanted max : Z) (rounds : list (Z * Q)),
  option && auto = false ->
  exists t0 used t, threads_setup option auto d wanted max = Ok t0 /\ threads_run width t0 0 rounds = Ok (used, t) /\
    length used = length rounds /\
    forall i p, nth_error used i = Some p ->
      p = if option then (if Nat.eqb i 0 && (0 <? wanted)%Z then wanted else max) else 1%Z.
Proof.
  intros width option auto d wanted max rounds H. unfold threads_setup. rewrite H.
  set (w := if (wanted <=? 0)%Z then max else wanted).
  exists (mkTh option auto max option w 0 0 learner_init).
  destruct rounds as [|(m, e) rounds].
  - exists [], (mkTh option auto max option w 0 0 learner_init). split; [reflexivity|]. split; [reflexivity|]. split; [reflexivity|].
    intros [|i] p X; discriminate.
  - cbn [threads_run]. unfold threads_update. cbn [th_option th_auto th_max th_enabled th_number th_total th_learner]. rewrite H. cbn [bind].
    edestruct (manual_run width rounds (mkTh option auto max option max (if option then (0 + w)%Z else (0 + 1)%Z)
       (inject_Z (if option then (0 + w)%Z else (0 + 1)%Z) / inject_Z (Z.of_nat (0 + 1))) learner_init) 1) as (used & t' & A & B & C);
      [exact H|reflexivity|reflexivity|].
    rewrite A. cbn [bind fst snd]. eexists _, _. split; [reflexivity|]. split; [reflexivity|]. split; [cbn; rewrite B; reflexivity|].
    intros [|i] p X; cbn in X.
    + injection X as <-. unfold threads_used. cbn [th_enabled th_number Nat.eqb andb]. unfold w.
      destruct option; [|reflexivity]. destruct (Z.leb_spec wanted 0); destruct (Z.ltb_spec 0 wanted); try lia; reflexivity.
    + apply nth_error_In in X. apply C in X. cbn [th_option th_max] in X. cbn [Nat.eqb andb]. exact X.
Qed.
